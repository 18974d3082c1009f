(** Specification notions for access to parts of values, independent of the code. *)
From Coq Require Import NArith ZArith List Bool String.
From Verif Require Import Base Val.
Import ListNotations.
Local Open Scope N_scope.

(** The integer a number stands for. *)
Definition num_value (n : snum) : Z :=
  match n with Uint x | BigUint x => Z.of_N x | Int z | BigInt z => z end.

(** The value is the key meant by a step of a path. *)
Inductive key_is : key_step -> sval -> Prop :=
| KI_number n x : num_value x = Z.of_N n -> key_is (KNumber n) (VNum x)
| KI_tag n : key_is (KNumber n) (VEnum (Ord n))
| KI_blob b : key_is (KBlob b) (VBytes b)
| KI_string s : key_is (KString s) (VStr s).

(** The part of a value at which a step of a path points; for maps the first entry with the key. *)
Inductive points : sval -> vstep -> sval -> Prop :=
| P_tuple l no v : nth_error l (N.to_nat no) = Some v -> points (VTuple l) (VSUnnamed no) v
| P_struct fs name v : In (name, v) fs -> points (VStruct fs) (VSNamed name) v
| P_list l i v : nth_error l (N.to_nat i) = Some v -> points (VList l) (VSIndex i) v
| P_set l i v : nth_error l (N.to_nat i) = Some v -> points (VSet l) (VSIndex i) v
| P_map l1 l2 k key v : key_is k key -> (forall e, In e l1 -> ~ key_is k (fst e)) ->
    points (VMap (l1 ++ (key, v) :: l2)) (VSKey k) v.

(** Following a path step by step. *)
Inductive leads : sval -> list vstep -> sval -> Prop :=
| L_here v : leads v [] v
| L_step v s v' path v'' : points v s v' -> leads v' path v'' -> leads v (s :: path) v''.

(** Names of fields of a structure do not repeat (as in each [IndexMap]), and numeric keys of a map are
    numbers of up to 64 bits made from unsigned integers. *)
Definition plain (v : sval) : Prop :=
  match v with
  | VStruct fs => NoDup (map fst fs)
  | VMap l => forall key x, In key (map fst l) -> key = VNum x -> exists n, x = Uint n
  | _ => True
  end.

(** A value wrapped into any number of newtypes. *)
Inductive wraps (v : sval) : sval -> Prop :=
| W_none : wraps v v
| W_newtype w : wraps v w -> wraps v (v_newtype w).
