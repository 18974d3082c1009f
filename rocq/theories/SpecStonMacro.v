(** Specification for C80: what a programmer means by the text given to the macro for values. *)
From Coq Require Import NArith ZArith List Bool String.
From Verif Require Import Base Val StonMacro.
Import ListNotations.
Local Open Scope N_scope.

(** The value meant by one item: numbers are of the type of their suffix, and [i32] without one, variables are what
    they stand for. *)
Inductive stands (env : scope) : token -> sval -> Prop :=
| St_str s : stands env (KLit (LStr s)) (VStr s)
| St_unsigned n s : In s [SU8; SU16; SU32; SU64] -> n <= suffix_max s -> stands env (KLit (LInt n (Some s))) (VNum (Uint n))
| St_signed n s : In s [SI8; SI16; SI32; SI64] -> n <= suffix_max s ->
    stands env (KLit (LInt n (Some s))) (VNum (Int (Z.of_N n)))
| St_plain n : n <= 0x7fffffff -> stands env (KLit (LInt n None)) (VNum (Int (Z.of_N n)))
| St_variable x v : env x = Some v -> stands env (KIdent x) v
| St_other v : stands env (KExpr v) v.

(** Groups of tokens, with commas between them. *)
Fixpoint listed (gs : list (list token)) : list token :=
  match gs with
  | [] => []
  | [g] => g
  | g :: gs => g ++ KComma :: listed gs
  end.

(** Fields of a structure: [name value, name value]. *)
Definition fields_text (l : list (string * token)) : list token := listed (map (fun f => [KIdent (fst f); snd f]) l).
(** Items of a tuple: [value, value]. *)
Definition items_text (l : list token) : list token := listed (map (fun t => [t]) l).
