(** Specification of well-formed types, libraries and type systems, independent of the code. *)
From Coq Require Import NArith List Bool String Strings.Byte Sorted.
From Verif Require Import Base Ty Ids LibCodec SpecIds.
Import ListNotations.
Local Open Scope N_scope.

(** Names of fields and variants start with a lower case letter or an underscore, names of types and
    libraries with an upper case letter or an underscore. At most 100 letters, digits, underscores. *)
Definition lower (b : byte) : Prop := let y := Byte.to_N b in 97 <= y <= 122 \/ y = 95.
Definition upper (b : byte) : Prop := let y := Byte.to_N b in 65 <= y <= 90 \/ y = 95.
Definition named_with (first : byte -> Prop) (s : string) : Prop :=
  exists x r, sbytes s = x :: r /\ first x /\ Forall name_char r /\ lenN (x :: r) <= 100.
Definition field_name : string -> Prop := named_with lower.
Definition type_name : string -> Prop := named_with upper.

(** Sorted without repetitions. *)
Definition increasing {A} (lt : A -> A -> Prop) (l : list A) : Prop := StronglySorted lt l.
Definition name_lt (a b : string) : Prop := String.compare a b = Lt.
Definition by_key {K V} (lt : K -> K -> Prop) (a b : K * V) : Prop := lt (fst a) (fst b).

(** From [min] to [max] items. *)
Definition sized {A} (min max : N) (l : list A) : Prop := min <= lenN l <= max.

(** Variants: 1 to 255, in the order of their tags, with distinct tags, and with names as required by [d]. *)
Definition variants_with (d : list string -> Prop) (vs : list variant) : Prop :=
  sized 1 255 vs /\ increasing (fun a b => v_tag a < v_tag b) vs /\ d (map v_name vs)
  /\ Forall (fun v => field_name (v_name v) /\ v_tag v < 256) vs.
(** Well-formed ones have distinct names; the ones which are read, if they are not more than eleven. *)
Definition distinct : list string -> Prop := @NoDup string.
Definition few_distinct (names : list string) : Prop := lenN names <= 11 -> NoDup names.

(** Types; [ok] tells which references are well-formed. Names of fields may repeat. *)
Definition ty_with {R} (d : list string -> Prop) (ok : R -> Prop) (t : ty R) : Prop :=
  match t with
  | TPrim p => p < 256
  | TUnicode => True
  | TEnum vs => variants_with d vs
  | TUnion vs => variants_with d (map fst vs) /\ Forall ok (map snd vs)
  | TTuple fs => sized 1 255 fs /\ Forall ok fs
  | TStruct fs => sized 1 255 fs /\ Forall field_name (map fst fs) /\ Forall ok (map snd fs)
  | TArray r len => ok r /\ len < 2 ^ 16
  | TList r s | TSet r s => ok r /\ sizing_ok s
  | TMap k r s => ok k /\ ok r /\ sizing_ok s
  end.

(** References of libraries: two more levels of definitions in place below the first one. *)
Definition gref_wf {I} (ok : I -> Prop) (r : gref I) : Prop :=
  match r with
  | RInline t => ok t
  | RNamed id => id_ok id
  | RExtern e => id_ok (er_lib e) /\ id_ok (er_id e)
  end.
Definition ref2_wf : inline_ref2 -> Prop := gref_wf (fun _ => False).
Definition ref1_with d : inline_ref1 -> Prop := gref_wf (ty_with d ref2_wf).
Definition ref0_with d : inline_ref -> Prop := gref_wf (ty_with d (ref1_with d)).
Definition libref_with d : lib_ref -> Prop := gref_wf (ty_with d (ref0_with d)).

(** References of symbolic libraries with definitions in place nested to the depth below [n]. *)
Definition symref_wf (r : symbol_ref) : Prop :=
  type_name (sr_lib r) /\ type_name (sr_name r) /\ id_ok (sr_libid r) /\ id_ok (sr_id r).
Fixpoint tref_with (d : list string -> Prop) (n : nat) (r : tref) : Prop :=
  match n, r with
  | O, _ => False
  | S n, TrEmbedded t => ty_with d (tref_with d n) t
  | S _, TrNamed s => type_name s
  | S _, TrExtern s => symref_wf s
  end.

(** Dependencies in the order of their ids, types in the order of their names. *)
Definition deps_wf (max : N) (l : list dependency) : Prop :=
  sized 0 max l /\ increasing (fun a b => d_id a < d_id b) l
  /\ Forall (fun d => id_ok (d_id d) /\ type_name (d_name d)) l.
Definition extern_wf (m : extern_types) : Prop :=
  sized 0 255 m /\ increasing (by_key name_lt) m
  /\ Forall (fun e => type_name (fst e) /\ sized 0 65535 (snd e) /\ increasing (by_key N.lt) (snd e)
                      /\ Forall (fun e => id_ok (fst e) /\ type_name (snd e)) (snd e)) m.
Definition types_with {R} (d : list string -> Prop) (max : N) (ok : R -> Prop) (m : list (string * ty R)) : Prop :=
  sized 1 max m /\ increasing (by_key name_lt) m
  /\ Forall (fun e => type_name (fst e) /\ ty_with d ok (snd e)) m.
Definition lib_with (d : list string -> Prop) (l : type_lib) : Prop :=
  type_name (l_name l) /\ deps_wf 255 (l_deps l) /\ extern_wf (l_extern l) /\ types_with d (2 ^ 16 - 1) (libref_with d) (l_types l).
Definition symlib_with (d : list string -> Prop) (n : nat) (l : sym_lib) : Prop :=
  type_name (y_name l) /\ deps_wf 255 (y_deps l) /\ extern_wf (y_extern l)
  /\ types_with d (2 ^ 64 - 1) (tref_with d n) (y_types l).

(** Type systems in the order of ids. *)
Definition system_with (d : list string -> Prop) (s : type_system) : Prop :=
  sized 0 (2 ^ 24 - 1) s /\ increasing (by_key N.lt) s /\ Forall (fun e => id_ok (fst e) /\ ty_with d id_ok (snd e)) s.

(** Symbols in the order of ids, for one id in the order of names. *)
Definition fqn_lt (a b : type_fqn) : Prop :=
  name_lt (q_lib a) (q_lib b) \/ q_lib a = q_lib b /\ name_lt (q_name a) (q_name b).
Definition symbol_lt (a b : type_symbol) : Prop :=
  ts_id a < ts_id b
  \/ ts_id a = ts_id b /\ match ts_fqn a, ts_fqn b with
                          | None, Some _ => True
                          | Some p, Some q => fqn_lt p q
                          | _, None => False
                          end.
Definition symbols_wf (s : symbols) : Prop :=
  deps_wf (2 ^ 16 - 1) (sy_libs s) /\ sized 0 (2 ^ 24 - 1) (sy_symbols s) /\ increasing symbol_lt (sy_symbols s)
  /\ Forall (fun s => id_ok (ts_id s)
                      /\ match ts_fqn s with Some q => type_name (q_lib q) /\ type_name (q_name q) | None => True end)
       (sy_symbols s).
Definition symsys_with (d : list string -> Prop) (s : symbolic_sys) : Prop := symbols_wf (ss_symbols s) /\ system_with d (ss_types s).

(** Well-formed types, references, libraries and type systems. *)
Notation ty_wf := (ty_with distinct).
Notation ref1_wf := (ref1_with distinct).
Notation ref0_wf := (ref0_with distinct).
Notation libref_wf := (libref_with distinct).
Notation tref_wf := (tref_with distinct).
Notation lib_wf := (lib_with distinct).
Notation symlib_wf := (symlib_with distinct).
Notation system_wf := (system_with distinct).
Notation symsys_wf := (symsys_with distinct).

(** Types without enumerations and unions, including the ones defined in place. *)
Definition ty_plain {R} (plain : R -> Prop) (t : ty R) : Prop :=
  match t with
  | TPrim _ | TUnicode => True
  | TEnum _ | TUnion _ => False
  | TTuple fs => Forall plain fs
  | TStruct fs => Forall plain (map snd fs)
  | TArray r _ | TList r _ | TSet r _ => plain r
  | TMap k r _ => plain k /\ plain r
  end.
Definition gref_plain {I} (plain : I -> Prop) (r : gref I) : Prop :=
  match r with RInline t => plain t | _ => True end.
Definition libref_plain : lib_ref -> Prop :=
  gref_plain (ty_plain (gref_plain (ty_plain (gref_plain (ty_plain (fun _ => True)))))).
Definition lib_plain (l : type_lib) : Prop := Forall (fun e => ty_plain libref_plain (snd e)) (l_types l).
Definition system_plain (s : type_system) : Prop := Forall (fun e => ty_plain (fun _ => True) (snd e)) s.

(** The names of variants of all enumerations and unions, including the ones defined in place. *)
Definition ty_names {R} (inner : R -> list (list string)) (t : ty R) : list (list string) :=
  match t with
  | TEnum vs => [map v_name vs]
  | TUnion vs => map v_name (map fst vs) :: flat_map (fun v => inner (snd v)) vs
  | TPrim _ | TUnicode => []
  | TTuple fs => flat_map inner fs
  | TStruct fs => flat_map (fun f => inner (snd f)) fs
  | TArray r _ | TList r _ | TSet r _ => inner r
  | TMap k r _ => inner k ++ inner r
  end.
Definition gref_names {I} (inner : I -> list (list string)) (r : gref I) : list (list string) :=
  match r with RInline t => inner t | _ => [] end.
Definition libref_names : lib_ref -> list (list string) :=
  gref_names (ty_names (gref_names (ty_names (gref_names (ty_names (fun _ => [])))))).
Definition lib_names (l : type_lib) : list (list string) := flat_map (fun e => ty_names libref_names (snd e)) (l_types l).
Fixpoint tref_names (r : tref) : list (list string) :=
  match r with TrEmbedded t => ty_names tref_names t | _ => [] end.
Definition symlib_names (l : sym_lib) : list (list string) := flat_map (fun e => ty_names tref_names (snd e)) (y_types l).
Definition system_names (s : type_system) : list (list string) := flat_map (fun e => ty_names (fun _ => []) (snd e)) s.
