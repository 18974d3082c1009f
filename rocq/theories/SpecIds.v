(** Specification notions for ids of types, libraries and type systems, independent of the code. *)
From Coq Require Import NArith List Bool String Strings.Byte.
From Verif Require Import Base Sha256 Ty Ids Spec.
Import ListNotations.
Local Open Scope N_scope.

(** Letters, digits and the underscore. *)
Definition name_char (b : byte) : Prop :=
  let y := Byte.to_N b in 48 <= y <= 57 \/ 65 <= y <= 90 \/ 97 <= y <= 122 \/ y = 95.

(** Names of types, libraries, fields and variants: 1 to 100 characters, the first one is not a digit. *)
Definition name_ok (s : string) : Prop :=
  exists x r, sbytes s = x :: r /\ name_char x /\ 65 <= Byte.to_N x /\ Forall name_char r /\ lenN (x :: r) <= 100.

(** 32 bytes. *)
Definition id_ok (id : N) : Prop := id < 2 ^ 256.

(** The parts of a type are in their ranges; [ok] tells that of references. *)
Definition sizing_ok (s : sizing) : Prop := s_min s < 2 ^ 64 /\ s_max s < 2 ^ 64.
Definition variant_ok (v : variant) : Prop := name_ok (v_name v) /\ v_tag v < 256.
Definition ty_ok {R} (ok : R -> Prop) (t : ty R) : Prop :=
  match t with
  | TPrim p => p < 256
  | TUnicode => True
  | TEnum vs => Forall variant_ok vs
  | TUnion vs => Forall (fun e => variant_ok (fst e) /\ ok (snd e)) vs
  | TTuple fs => Forall ok fs
  | TStruct fs => Forall (fun f => name_ok (fst f) /\ ok (snd f)) fs
  | TArray r len => ok r /\ len < 2 ^ 16
  | TList r s | TSet r s => ok r /\ sizing_ok s
  | TMap k r s => ok k /\ ok r /\ sizing_ok s
  end.
Definition gref_ok {I} (ok : I -> Prop) (r : gref I) : Prop :=
  match r with
  | RInline t => ok t
  | RNamed id => id_ok id
  | RExtern e => id_ok (er_lib e) /\ id_ok (er_id e)
  end.
Definition ref2_ok : inline_ref2 -> Prop := gref_ok (fun _ => False).
Definition ref1_ok : inline_ref1 -> Prop := gref_ok (ty_ok ref2_ok).
Definition ref0_ok : inline_ref -> Prop := gref_ok (ty_ok ref1_ok).
Definition libref_ok : lib_ref -> Prop := gref_ok (ty_ok ref0_ok).

(** Types with other references in the same places. *)
Definition map_ty {R S} (f : R -> S) (t : ty R) : ty S :=
  match t with
  | TPrim p => TPrim p
  | TUnicode => TUnicode
  | TEnum vs => TEnum vs
  | TUnion vs => TUnion (map (fun e => (fst e, f (snd e))) vs)
  | TTuple fs => TTuple (map f fs)
  | TStruct fs => TStruct (map (fun e => (fst e, f (snd e))) fs)
  | TArray r len => TArray (f r) len
  | TList r s => TList (f r) s
  | TSet r s => TSet (f r) s
  | TMap k r s => TMap (f k) (f r) s
  end.

(** The id to which a reference points, for references which are not definitions in place. *)
Definition target {I} (r : gref I) : semid :=
  match r with RInline _ => 0 | RNamed id => id | RExtern e => er_id e end.
Definition by_id {I} (t : ty (gref I)) : Prop := Forall (fun r => match r with RInline _ => False | _ => True end) (refs t).

(** Two different messages with one SHA-256 digest. *)
Definition collision (m m' : bytes) : Prop := m <> m' /\ sha256 m = sha256 m'.

(** A library within the limits of its collections. *)
Definition lib_ok (l : type_lib) : Prop :=
  name_ok (l_name l) /\ lenN (l_deps l) < 2 ^ 8 /\ lenN (l_types l) < 2 ^ 16
  /\ Forall (fun d => id_ok (d_id d)) (l_deps l).

Definition sys_ok (s : type_system) : Prop := lenN s < 2 ^ 24 /\ Forall (fun e => id_ok (fst e)) s.
