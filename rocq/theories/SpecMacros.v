(** Specification for the macros which make types. *)
From Coq Require Import NArith List Bool String Strings.Byte.
From Verif Require Import Base Ty Ids LibCodec SpecLib.
Import ListNotations.
Local Open Scope N_scope.

(** Variants are numbered in the order of the entries, from zero. *)
Definition numbered {A} (entries : list (string * A)) (vs : list (variant * A)) : Prop :=
  lenN vs = lenN entries
  /\ forall i name value, nth_error entries i = Some (name, value) -> nth_error vs i = Some (mkVariant name (N.of_nat i), value).

(** The variant of an entry with its tag. *)
Definition tagged_variant {A} (e : string * N * A) : variant * A := (mkVariant (fst (fst e)) (snd (fst e)), snd e).
Definition entry_name {A} (e : string * N * A) : string := fst (fst e).
Definition entry_tag {A} (e : string * N * A) : N := snd (fst e).
