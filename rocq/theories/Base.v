(** Basic data of the model: bytes, little-endian integers, call outcomes.

    The crate relies on the standard library and on the external crates [amplify] and
    [strict_encoding] for these; the definitions here state the behaviour of the used parts. *)
From Coq Require Import NArith ZArith List Bool String Ascii Strings.Byte Lia.
Import ListNotations.
Local Open Scope N_scope.

(** Rust [Vec<u8>] / [&[u8]]. *)
Definition bytes := list byte.

(** Result of a Rust call: [Ok]/[Err] are [Result], [Panic] is any panic or abort, [Diverge] stands for
    a recursion or loop which did not end within the fuel given to the model function. *)
Inductive outcome (E A : Type) : Type :=
| Ok (a : A)
| Err (e : E)
| Panic
| Diverge.
Arguments Ok {E A} a.
Arguments Err {E A} e.
Arguments Panic {E A}.
Arguments Diverge {E A}.

(** The [?] operator. *)
Definition bind {E A B} (o : outcome E A) (f : A -> outcome E B) : outcome E B :=
  match o with
  | Ok a => f a
  | Err e => Err e
  | Panic => Panic
  | Diverge => Diverge
  end.
Notation "'let*' x ':=' o 'in' f" := (bind o (fun x => f))
  (at level 200, x pattern, o at level 100, f at level 200).

(** [Option::ok_or]. *)
Definition ok_or {E A} (o : option A) (e : E) : outcome E A :=
  match o with Some a => Ok a | None => Err e end.

(** [Option::expect]. *)
Definition expect {E A} (o : option A) : outcome E A :=
  match o with Some a => Ok a | None => Panic end.

(** [x as u8] for x < 256. *)
Definition b8 (n : N) : byte :=
  match Byte.of_N n with Some b => b | None => x00 end.

(** [to_le_bytes] of an unsigned integer of [k] bytes. *)
Fixpoint le (k : nat) (n : N) : bytes :=
  match k with
  | O => []
  | S k => b8 (n mod 256) :: le k (n / 256)
  end.

(** [from_le_bytes]. *)
Fixpoint unle (bs : bytes) : N :=
  match bs with
  | [] => 0
  | b :: r => Byte.to_N b + 256 * unle r
  end.

(** Two's complement representation in [k] bytes as an unsigned number ([as u64] of an [i64] for k = 8). *)
Definition twos (k : nat) (z : Z) : N := Z.to_N (z mod 2 ^ (8 * Z.of_nat k))%Z.

(** Inverse of [twos]: [i8/i16/i32/i64::from_le_bytes]. *)
Definition untwos (k : nat) (n : N) : Z :=
  if (2 * Z.of_N n <? 2 ^ (8 * Z.of_nat k))%Z then Z.of_N n
  else (Z.of_N n - 2 ^ (8 * Z.of_nat k))%Z.

(** Reading [n] bytes from a reader; the reader is the list of the bytes not read yet.
    [None] is an unexpected end of data. *)
Fixpoint take (n : nat) (bs : bytes) : option (bytes * bytes) :=
  match n with
  | O => Some ([], bs)
  | S n =>
      match bs with
      | [] => None
      | b :: r =>
          match take n r with
          | Some (x, y) => Some (b :: x, y)
          | None => None
          end
      end
  end.

(** [&slice[0..n]]: [None] is the panic of the index operation. *)
Definition slice_to (n : nat) (bs : bytes) : option bytes :=
  if Nat.leb n (List.length bs) then Some (firstn n bs) else None.

(** Bytes of a Rust string ([as_bytes]) and back. *)
Definition sbytes (s : string) : bytes := list_byte_of_string s.
Definition bstring (b : bytes) : string := string_of_list_byte b.

(** [str::len]: length in bytes. *)
Definition slen (s : string) : N := N.of_nat (String.length s).

(** [str::is_ascii] on bytes. *)
Definition ascii_bytes (b : bytes) : bool := forallb (fun c => Byte.to_N c <? 128) b.
Definition is_ascii (s : string) : bool := ascii_bytes (sbytes s).

(** Length of a list as a number. *)
Definition lenN {A} (l : list A) : N := N.of_nat (List.length l).

(** Standard integer bounds. *)
Definition u8_max : N := 255.
Definition u16_max : N := 65535.
Definition u24_max : N := 16777215.
Definition u32_max : N := 4294967295.
Definition u64_max : N := 18446744073709551615.

(** ** Facts *)

Lemma b8_to_N n : n < 256 -> Byte.to_N (b8 n) = n.
Proof.
  intros H. unfold b8. destruct (Byte.of_N n) eqn:E.
  - now apply Byte.to_of_N.
  - apply Byte.of_N_None_iff in E. lia.
Qed.

Lemma to_N_b8 b : b8 (Byte.to_N b) = b.
Proof. unfold b8. now rewrite Byte.of_to_N. Qed.

Lemma byte_bound b : Byte.to_N b < 256.
Proof. pose proof (Byte.to_N_bounded b). lia. Qed.

Lemma le_length k n : List.length (le k n) = k.
Proof. revert n; induction k; intros; simpl; auto. Qed.

Lemma unle_le k n : n < 2 ^ (8 * N.of_nat k) -> unle (le k n) = n.
Proof.
  revert n; induction k; intros n H.
  - change (2 ^ (8 * N.of_nat 0)) with 1 in H. simpl. lia.
  - cbn [le unle]. rewrite b8_to_N by (apply N.mod_lt; lia).
    rewrite IHk.
    + pose proof (N.div_mod n 256 ltac:(lia)). lia.
    + replace (8 * N.of_nat (S k)) with (8 + 8 * N.of_nat k) in H by lia.
      rewrite N.pow_add_r in H. change (2 ^ 8) with 256 in H.
      apply N.div_lt_upper_bound; lia.
Qed.

Lemma unle_bound bs : unle bs < 2 ^ (8 * lenN bs).
Proof.
  induction bs as [|b r IH]; unfold lenN in *.
  - simpl. lia.
  - cbn [unle List.length].
    replace (8 * N.of_nat (S (List.length r))) with (8 + 8 * N.of_nat (List.length r)) by lia.
    rewrite N.pow_add_r. change (2 ^ 8) with 256. pose proof (byte_bound b). nia.
Qed.

Lemma le_unle bs : le (List.length bs) (unle bs) = bs.
Proof.
  induction bs as [|b r IH]; [reflexivity|].
  cbn [List.length le unle].
  pose proof (byte_bound b).
  replace ((Byte.to_N b + 256 * unle r) mod 256) with (Byte.to_N b)
    by (apply N.mod_unique with (q := unle r); lia).
  replace ((Byte.to_N b + 256 * unle r) / 256) with (unle r)
    by (apply N.div_unique with (r := Byte.to_N b); lia).
  now rewrite IH, to_N_b8.
Qed.

Lemma take_app a b : take (List.length a) (a ++ b) = Some (a, b).
Proof. induction a; simpl; [reflexivity|now rewrite IHa]. Qed.

Lemma take_app' n a b : List.length a = n -> take n (a ++ b) = Some (a, b).
Proof. intros <-. apply take_app. Qed.

Lemma take_Some n bs a b : take n bs = Some (a, b) -> bs = a ++ b /\ List.length a = n.
Proof.
  revert bs a b; induction n; simpl; intros bs a b H.
  - injection H as <- <-. auto.
  - destruct bs as [|c r]; [discriminate|].
    destruct (take n r) as [[x y]|] eqn:E; [|discriminate].
    injection H as <- <-. apply IHn in E as [-> <-]. auto.
Qed.

Lemma take_frame n bs a b r : take n bs = Some (a, b) -> take n (bs ++ r) = Some (a, b ++ r).
Proof.
  intros H. apply take_Some in H as [-> <-]. rewrite <- app_assoc. apply take_app.
Qed.

Lemma sbytes_bstring b : sbytes (bstring b) = b.
Proof. apply list_byte_of_string_of_list_byte. Qed.

Lemma bstring_sbytes s : bstring (sbytes s) = s.
Proof. apply string_of_list_byte_of_string. Qed.

Lemma sbytes_length s : List.length (sbytes s) = String.length s.
Proof.
  unfold sbytes, list_byte_of_string. induction s; simpl; auto.
Qed.

Lemma sbytes_inj s t : sbytes s = sbytes t -> s = t.
Proof. intros H. rewrite <- (bstring_sbytes s), H. apply bstring_sbytes. Qed.

Lemma pow256_pos k : 0 < 2 ^ (8 * N.of_nat k).
Proof. apply N.neq_0_lt_0, N.pow_nonzero. lia. Qed.

Lemma twos_bound k z : twos k z < 2 ^ (8 * N.of_nat k).
Proof.
  unfold twos.
  assert (0 < 2 ^ (8 * Z.of_nat k))%Z by (apply Z.pow_pos_nonneg; lia).
  pose proof (Z.mod_pos_bound z _ H).
  apply N2Z.inj_lt. rewrite Z2N.id by lia. rewrite N2Z.inj_pow, N2Z.inj_mul, nat_N_Z. lia.
Qed.

Lemma untwos_twos k z : (k > 0)%nat ->
  (- 2 ^ (8 * Z.of_nat k - 1) <= z < 2 ^ (8 * Z.of_nat k - 1))%Z -> untwos k (twos k z) = z.
Proof.
  intros Hk Hz.
  assert (E : (2 ^ (8 * Z.of_nat k) = 2 * 2 ^ (8 * Z.of_nat k - 1))%Z).
  { rewrite <- Z.pow_succ_r by lia. f_equal. lia. }
  unfold untwos, twos. set (h := (2 ^ (8 * Z.of_nat k - 1))%Z) in *. rewrite E.
  assert (0 < h)%Z by (apply Z.pow_pos_nonneg; lia).
  pose proof (Z.mod_pos_bound z (2 * h) ltac:(lia)).
  rewrite Z2N.id by lia.
  destruct (Z.neg_nonneg_cases z) as [N|N].
  - assert (M : (z mod (2 * h) = z + 2 * h)%Z).
    { symmetry. apply Z.mod_unique with (q := (-1)%Z); lia. }
    rewrite M. destruct (Z.ltb_spec (2 * (z + 2 * h)) (2 * h))%Z; lia.
  - rewrite Z.mod_small by lia. destruct (Z.ltb_spec (2 * z) (2 * h))%Z; lia.
Qed.

Lemma twos_untwos k n : n < 2 ^ (8 * N.of_nat k) -> twos k (untwos k n) = n.
Proof.
  intros H. unfold twos, untwos.
  assert (H' : (Z.of_N n < 2 ^ (8 * Z.of_nat k))%Z).
  { apply N2Z.inj_lt in H. rewrite N2Z.inj_pow, N2Z.inj_mul, nat_N_Z in H. exact H. }
  set (m := (2 ^ (8 * Z.of_nat k))%Z) in *.
  destruct (Z.ltb_spec (2 * Z.of_N n) m)%Z.
  - rewrite Z.mod_small by lia. apply N2Z.id.
  - replace ((Z.of_N n - m) mod m)%Z with (Z.of_N n); [apply N2Z.id|].
    apply Z.mod_unique with (q := (-1)%Z); lia.
Qed.

Lemma untwos_range k n : (k > 0)%nat -> n < 2 ^ (8 * N.of_nat k) ->
  (- 2 ^ (8 * Z.of_nat k - 1) <= untwos k n < 2 ^ (8 * Z.of_nat k - 1))%Z.
Proof.
  intros Hk H. unfold untwos.
  assert (H' : (Z.of_N n < 2 ^ (8 * Z.of_nat k))%Z).
  { apply N2Z.inj_lt in H. rewrite N2Z.inj_pow, N2Z.inj_mul, nat_N_Z in H. exact H. }
  assert (E : (2 ^ (8 * Z.of_nat k) = 2 * 2 ^ (8 * Z.of_nat k - 1))%Z).
  { rewrite <- Z.pow_succ_r by lia. f_equal. lia. }
  rewrite E in *. set (h := (2 ^ (8 * Z.of_nat k - 1))%Z) in *.
  destruct (Z.ltb_spec (2 * Z.of_N n) (2 * h))%Z; lia.
Qed.

(** The low [k] bytes of a longer little-endian representation. *)
Lemma firstn_le k m n : (k <= m)%nat -> firstn k (le m n) = le k n.
Proof.
  revert m n; induction k; intros m n H; [reflexivity|].
  destruct m; [lia|]. cbn [le firstn]. f_equal. apply IHk. lia.
Qed.

Lemma slice_le k m n : (k <= m)%nat -> slice_to k (le m n) = Some (le k n).
Proof.
  intros H. unfold slice_to. rewrite le_length.
  destruct (Nat.leb_spec k m); [|lia]. now rewrite firstn_le.
Qed.

(** [le k] depends on the number modulo [2^(8k)] only. *)
Lemma le_mod k n : le k (n mod 2 ^ (8 * N.of_nat k)) = le k n.
Proof.
  revert n; induction k; intros n; [reflexivity|].
  cbn [le].
  replace (8 * N.of_nat (S k)) with (8 + 8 * N.of_nat k) by lia.
  rewrite N.pow_add_r. change (2 ^ 8) with 256.
  pose proof (pow256_pos k).
  rewrite N.mod_mul_r by lia.
  f_equal.
  - f_equal. rewrite (N.mul_comm 256), N.mod_add, N.mod_mod; lia.
  - transitivity (le k ((n / 256) mod 2 ^ (8 * N.of_nat k))); [|apply IHk]. f_equal.
    rewrite N.mul_comm, N.div_add by lia.
    rewrite (N.div_small (n mod 256)) by (apply N.mod_lt; lia).
    reflexivity.
Qed.

Lemma unle_le_mod k n : unle (le k n) = n mod 2 ^ (8 * N.of_nat k).
Proof.
  rewrite <- le_mod. apply unle_le. apply N.mod_lt. pose proof (pow256_pos k). lia.
Qed.

Lemma le_inj k a b : a < 2 ^ (8 * N.of_nat k) -> b < 2 ^ (8 * N.of_nat k) -> le k a = le k b -> a = b.
Proof. intros Ha Hb E. rewrite <- (unle_le k a), <- (unle_le k b), E; auto. Qed.
