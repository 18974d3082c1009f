(** Specification for the text of type systems and of compiled libraries. *)
From Coq Require Import NArith List Bool String Ascii Strings.Byte.
From Verif Require Import Base Ty Ids TypeSys LibCodec Build Ston Sty SpecSty Spec SpecIds.
Import ListNotations.
Local Open Scope N_scope.
Local Open Scope list_scope.

(** Ids are shown as labels, differently, and not as primitives are. *)
Definition ids_legible (prim_text id_text : N -> bytes) : Prop :=
  (forall id, label (id_text id) /\ id_text id <> sbytes "Unicode" /\ forall c, c < 256 -> id_text id <> prim_text c)
  /\ (forall id id', id_text id = id_text id' -> id = id').

(** The names in a type are words, and it is not empty. What looks like an optional is one: the variant [none] has the
    content [u]. *)
Definition legible_ty {R} (u : R) (t : ty R) : Prop :=
  match t with
  | TPrim c => c < 256
  | TEnum vs => vs <> [] /\ Forall (fun v => word (sbytes (v_name v))) vs
  | TUnion vs => vs <> [] /\ Forall (fun v => word (sbytes (v_name (fst v)))) vs
                 /\ (as_some t <> None -> map snd (firstn 1 vs) = [u])
  | TTuple fs => fs <> []
  | TStruct fs => fs <> [] /\ Forall (fun f => word (sbytes (fst f))) fs
  | _ => True
  end.
Definition legible_sys (u : semid) (s : type_system) : Prop := Forall (fun e => legible_ty u (snd e)) s.

(** Every type referred to is in the system. *)
Definition closed_sys (s : type_system) : Prop :=
  forall id t r, In (id, t) s -> In r (refs t) -> In r (map fst s).
(** Names are words, and no two types of the system have one name. *)
Definition names_legible (s : symbolic_sys) : Prop :=
  forall id q, lookup (ss_symbols s) id = Some q -> word (sbytes (q_lib q)) /\ word (sbytes (q_name q)).
Definition names_differ (s : symbolic_sys) : Prop :=
  forall id id' q, In id (map fst (ss_types s)) -> In id' (map fst (ss_types s)) ->
    lookup (ss_symbols s) id = Some q -> lookup (ss_symbols s) id' = Some q -> id = id'.

(** ** Compiled libraries *)

(** A compiled definition as a definition in source text, with ids for names. *)
Section Source.
Variables (id_full lib_text : N -> bytes).
Definition source_ref {I} (f : I -> ty tref) (r : gref I) : tref :=
  match r with
  | RInline t => TrEmbedded (f t)
  | RNamed id => TrNamed (bstring (id_full id))
  | RExtern e => TrExtern (mkSymRef (bstring (lib_text (er_lib e))) (bstring (id_full (er_id e))) 0 0)
  end.
Definition source_ref2 : inline_ref2 -> tref := source_ref (fun e : Empty_set => match e with end).
Definition source_ref1 : inline_ref1 -> tref := source_ref (map_ty source_ref2).
Definition source_ref0 : inline_ref -> tref := source_ref (map_ty source_ref1).
Definition source_lib_ref : lib_ref -> tref := source_ref (map_ty source_ref0).
Definition source_ty : ty lib_ref -> ty tref := map_ty source_lib_ref.

(** Names in the library are words and its definitions are clear. *)
Definition clear_compiled (prim_text : N -> bytes) (l : type_lib) : Prop :=
  word (sbytes (l_name l))
  /\ Forall (fun d => word (sbytes (d_name d))) (l_deps l)
  /\ Forall (fun e => word (sbytes (fst e)) /\ clear_type prim_text (source_ty (snd e))) (l_types l).
End Source.
