(** Specification notions for types and type systems, independent of the code. *)
From Coq Require Import NArith List Bool String Sorted.
From Verif Require Import Base Ty Ids TypeSys Spec.
Import ListNotations.
Local Open Scope N_scope.

(** The components of a type with their roles, in the order of the declaration. *)
Fixpoint number {A B} (f : N -> A -> B) (pos : N) (l : list A) : list B :=
  match l with
  | [] => []
  | x :: l => f pos x :: number f (pos + 1) l
  end.
Definition components {R} (t : ty R) : list (R * item_case) :=
  match t with
  | TPrim _ | TUnicode | TEnum _ => []
  | TUnion vs => number (fun pos e => (snd e, CUnionVariant pos (v_name (fst e)))) 0 vs
  | TTuple fs => number (fun pos r => (r, CUnnamedField pos)) 0 fs
  | TStruct fs => number (fun pos f => (snd f, CNamedField pos (fst f))) 0 fs
  | TArray r _ => [(r, CArrayItem)]
  | TList r _ => [(r, CListItem)]
  | TSet r _ => [(r, CSetItem)]
  | TMap k r _ => [(k, CMapKey); (r, CMapValue)]
  end.

(** The type of the component at which a step of a path points. *)
Inductive step_to {R} : ty R -> step -> R -> Prop :=
| ST_field fs name r : In (name, r) fs -> step_to (TStruct fs) (SNamedField name) r
| ST_variant vs v r : In (v, r) vs -> step_to (TUnion vs) (SVariant (v_name v)) r
| ST_field_no fs pos f : nth_error fs (N.to_nat pos) = Some f -> step_to (TStruct fs) (SUnnamedField pos) (snd f)
| ST_variant_no vs v r : In (v, r) vs -> step_to (TUnion vs) (SUnnamedField (v_tag v)) r
| ST_tuple fs pos r : nth_error fs (N.to_nat pos) = Some r -> step_to (TTuple fs) (SUnnamedField pos) r
| ST_index r len : step_to (TArray r len) SIndex r
| ST_list r s : step_to (TList r s) SList r
| ST_set r s : step_to (TSet r s) SSet r
| ST_key k r s : step_to (TMap k r s) SMapKey k
| ST_value k r s : step_to (TMap k r s) SMapValue r.

(** Following a path, step by step, through types embedded in the references. *)
Inductive follows {R} (as_ty : R -> option (ty R)) : ty R -> list step -> ty R -> Prop :=
| F_here t : follows as_ty t [] t
| F_step t s r t' path t'' : step_to t s r -> as_ty r = Some t' -> follows as_ty t' path t'' ->
    follows as_ty t (s :: path) t''.

(** Names of fields and variants and tags of a type do not repeat. *)
Definition unambiguous {R} (t : ty R) : Prop :=
  match t with
  | TStruct fs => NoDup (map fst fs)
  | TUnion vs => NoDup (map (fun v => v_name (fst v)) vs) /\ NoDup (map (fun v => v_tag (fst v)) vs)
  | _ => True
  end.

(** ** Type systems *)

(** The entries of an ordered map by id. *)
Definition ordered (s : type_system) : Prop := StronglySorted (fun a b => fst a < fst b) s.

(** Iteration over the components is possible: at most 255 of them, 254 with the overflow checks on. *)
Definition iterable (dbg : bool) (s : type_system) : Prop :=
  Forall (fun e => lenN (refs (snd e)) <= if dbg then 254 else 255) s.

(** At most 255 components in each type; each constructor of types allows only these. *)
Definition small (s : type_system) : Prop := Forall (fun e => lenN (refs (snd e)) <= 255) s.

(** Types reachable from the given ones by references. *)
Inductive reachable (s : type_system) (ids : list semid) : semid -> Prop :=
| Re_start id : In id ids -> reachable s ids id
| Re_ref id t r : reachable s ids id -> In (id, t) s -> In r (refs t) -> reachable s ids r.

(** A system with all the types it refers to. *)
Definition complete (s : type_system) : Prop :=
  forall id t r, In (id, t) s -> In r (refs t) -> In r (map fst s).
