(** Specification for the text forms of paths. *)
From Coq Require Import NArith List Bool String Ascii Strings.Byte.
From Verif Require Import Base Ty Val LibCodec Ston SpecLib.
Import ListNotations.
Local Open Scope N_scope.
Local Open Scope list_scope.

(** A key which cannot be taken for something else: text without closing braces, which is not a number and does not
    look like bytes. *)
Definition clear_key (k : key_step) : Prop :=
  match k with
  | KString s => ~ In x7d (sbytes s) /\ (forall n, sbytes s <> show_N n) /\ (forall r, sbytes s <> sbytes "0h" ++ r)
  | _ => True
  end.
Definition clear_step (s : vstep) : Prop :=
  match s with
  | VSNamed n => field_name n
  | VSKey k => clear_key k
  | _ => True
  end.

(** Names in a path within a type. *)
Definition step_named (s : step) : Prop := match s with SNamedField n | SVariant n => field_name n | _ => True end.
(** What a path within a type tells: fields and variants are not distinguished. *)
Definition plain_step (s : step) : step := match s with SVariant n => SNamedField n | s => s end.
