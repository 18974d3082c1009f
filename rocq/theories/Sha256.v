(** SHA-256 (FIPS 180-4).

    The crate calls [sha2::Sha256] (src/ast/id.rs:91-99, src/typelib/id.rs:53-66, src/typesys/id.rs).
    Implementing the function, instead of assuming one, makes the ids of the model the real ids, so that
    the model can be compared with ids published in the repository (see [Artifacts.v]). *)
From Coq Require Import NArith List Strings.Byte.
From Verif Require Import Base.
Import ListNotations.
Local Open Scope N_scope.

(** FIPS 180-4, 4.2.2: constants. *)
Definition sha_k : list N :=
  [0x428a2f98; 0x71374491; 0xb5c0fbcf; 0xe9b5dba5; 0x3956c25b; 0x59f111f1; 0x923f82a4; 0xab1c5ed5;
   0xd807aa98; 0x12835b01; 0x243185be; 0x550c7dc3; 0x72be5d74; 0x80deb1fe; 0x9bdc06a7; 0xc19bf174;
   0xe49b69c1; 0xefbe4786; 0x0fc19dc6; 0x240ca1cc; 0x2de92c6f; 0x4a7484aa; 0x5cb0a9dc; 0x76f988da;
   0x983e5152; 0xa831c66d; 0xb00327c8; 0xbf597fc7; 0xc6e00bf3; 0xd5a79147; 0x06ca6351; 0x14292967;
   0x27b70a85; 0x2e1b2138; 0x4d2c6dfc; 0x53380d13; 0x650a7354; 0x766a0abb; 0x81c2c92e; 0x92722c85;
   0xa2bfe8a1; 0xa81a664b; 0xc24b8b70; 0xc76c51a3; 0xd192e819; 0xd6990624; 0xf40e3585; 0x106aa070;
   0x19a4c116; 0x1e376c08; 0x2748774c; 0x34b0bcb5; 0x391c0cb3; 0x4ed8aa4a; 0x5b9cca4f; 0x682e6ff3;
   0x748f82ee; 0x78a5636f; 0x84c87814; 0x8cc70208; 0x90befffa; 0xa4506ceb; 0xbef9a3f7; 0xc67178f2].

(** FIPS 180-4, 5.3.3: initial hash value. *)
Definition sha_h0 : list N :=
  [0x6a09e667; 0xbb67ae85; 0x3c6ef372; 0xa54ff53a; 0x510e527f; 0x9b05688c; 0x1f83d9ab; 0x5be0cd19].

(** Addition of 32-bit words. *)
Definition add32 (a b : N) : N := N.land (a + b) 0xffffffff.

(** FIPS 180-4, 3.2: rotation to the right. *)
Definition rotr (n x : N) : N := N.lor (N.shiftr x n) (N.land (N.shiftl x (32 - n)) 0xffffffff).

(** FIPS 180-4, 4.1.2: functions. *)
Definition sha_ch x y z := N.lxor (N.land x y) (N.land (N.lxor x 0xffffffff) z).
Definition sha_maj x y z := N.lxor (N.lxor (N.land x y) (N.land x z)) (N.land y z).
Definition sha_S0 x := N.lxor (N.lxor (rotr 2 x) (rotr 13 x)) (rotr 22 x).
Definition sha_S1 x := N.lxor (N.lxor (rotr 6 x) (rotr 11 x)) (rotr 25 x).
Definition sha_s0 x := N.lxor (N.lxor (rotr 7 x) (rotr 18 x)) (N.shiftr x 3).
Definition sha_s1 x := N.lxor (N.lxor (rotr 17 x) (rotr 19 x)) (N.shiftr x 10).

(** Message schedule, newest word first: [n] more words are appended. *)
Fixpoint sha_sched (n : nat) (w : list N) : list N :=
  match n with
  | O => w
  | S n =>
      let wt := add32 (add32 (sha_s1 (nth 1 w 0)) (nth 6 w 0))
                      (add32 (sha_s0 (nth 14 w 0)) (nth 15 w 0)) in
      sha_sched n (wt :: w)
  end.

(** One round. *)
Definition sha_round (st : N * N * N * N * N * N * N * N) (kw : N * N) :=
  let '(a, b, c, d, e, f, g, h) := st in
  let t1 := add32 (add32 (add32 h (sha_S1 e)) (add32 (sha_ch e f g) (fst kw))) (snd kw) in
  let t2 := add32 (sha_S0 a) (sha_maj a b c) in
  (add32 t1 t2, a, b, c, add32 d t1, e, f, g).

(** Compression of one block of 16 words (oldest first). *)
Definition sha_block (h : list N) (blk : list N) : list N :=
  let w := rev (sha_sched 48 (rev blk)) in
  match h with
  | [a; b; c; d; e; f; g; i] =>
      let '(a', b', c', d', e', f', g', i') := fold_left sha_round (combine sha_k w) (a, b, c, d, e, f, g, i) in
      [add32 a a'; add32 b b'; add32 c c'; add32 d d'; add32 e e'; add32 f f'; add32 g g'; add32 i i']
  | _ => h
  end.

(** Big-endian bytes. *)
Definition be (k : nat) (n : N) : bytes := rev (le k n).
Definition unbe (b : bytes) : N := unle (rev b).

(** Big-endian 32-bit words of a byte list of a length divisible by four. *)
Fixpoint words (b : bytes) : list N :=
  match b with
  | b0 :: b1 :: b2 :: b3 :: r => unbe [b0; b1; b2; b3] :: words r
  | _ => []
  end.

(** Splitting into blocks of 16 words. *)
Fixpoint sha_blocks (fuel : nat) (h : list N) (w : list N) : list N :=
  match fuel, w with
  | S fuel, _ :: _ => sha_blocks fuel (sha_block h (firstn 16 w)) (skipn 16 w)
  | _, _ => h
  end.

(** FIPS 180-4, 5.1.1: padding. *)
Definition sha_pad (m : bytes) : bytes :=
  let l := lenN m in
  let z := N.to_nat ((119 - l mod 64) mod 64) in
  m ++ [x80] ++ repeat x00 z ++ be 8 (8 * l).

(** The digest: 32 bytes. *)
Definition sha256 (m : bytes) : bytes :=
  let w := words (sha_pad m) in
  flat_map (be 4) (sha_blocks (List.length w) sha_h0 w).

(** Test vectors of FIPS 180-4 / NIST. *)
Example sha256_empty :
  unbe (sha256 []) = 0xe3b0c44298fc1c149afbf4c8996fb92427ae41e4649b934ca495991b7852b855.
Proof. vm_compute. reflexivity. Qed.
Example sha256_abc :
  unbe (sha256 [x61; x62; x63]) = 0xba7816bf8f01cfea414140de5dae2223b00361a396177a9cb410ff61f20015ad.
Proof. vm_compute. reflexivity. Qed.
Example sha256_two_blocks :
  unbe (sha256 (repeat x61 119)) = 0x31eba51c313a5c08226adf18d4a359cfdfd8d2e816b13f4af952f7ea6584dcfb.
Proof. vm_compute. reflexivity. Qed.
Example sha256_three_blocks :
  unbe (sha256 (repeat x61 120)) = 0x2f3d335432c70b580af0e8e1b3674a7c020d683aa5f73aaaedfdc55af904c21c.
Proof. vm_compute. reflexivity. Qed.

(** The digest always has 32 bytes. *)
Lemma sha_block_length h blk : List.length h = 8%nat -> List.length (sha_block h blk) = 8%nat.
Proof.
  intros H. do 8 (destruct h as [|? h]; [discriminate|]). destruct h; [|discriminate].
  cbn [sha_block]. destruct (fold_left _ _ _) as [[[[[[[? ?] ?] ?] ?] ?] ?] ?]. reflexivity.
Qed.

Lemma sha_blocks_length f h w : List.length h = 8%nat -> List.length (sha_blocks f h w) = 8%nat.
Proof.
  revert h w; induction f; intros h w H; [exact H|].
  destruct w; [exact H|]. cbn [sha_blocks]. apply IHf, sha_block_length, H.
Qed.

Lemma be_length k n : List.length (be k n) = k.
Proof. unfold be. now rewrite rev_length, le_length. Qed.

Lemma flat_map_be_length l : List.length (flat_map (be 4) l) = (4 * List.length l)%nat.
Proof.
  induction l as [|x l IH]; [reflexivity|].
  cbn [flat_map]. rewrite app_length, be_length, IH. cbn [List.length]. now rewrite PeanoNat.Nat.mul_succ_r, PeanoNat.Nat.add_comm.
Qed.

Lemma sha256_length m : List.length (sha256 m) = 32%nat.
Proof.
  unfold sha256. rewrite flat_map_be_length, sha_blocks_length by reflexivity. reflexivity.
Qed.

Lemma unbe_be k n : n < 2 ^ (8 * N.of_nat k) -> unbe (be k n) = n.
Proof. intros H. unfold unbe, be. rewrite rev_involutive. now apply unle_le. Qed.

Lemma be_unbe b : be (List.length b) (unbe b) = b.
Proof.
  unfold be, unbe. rewrite <- (rev_length b), le_unle. apply rev_involutive.
Qed.

Lemma unbe_bound b : unbe b < 2 ^ (8 * lenN b).
Proof. unfold unbe. pose proof (unle_bound (rev b)). unfold lenN in *. now rewrite rev_length in H. Qed.

Lemma be_inj k a b : a < 2 ^ (8 * N.of_nat k) -> b < 2 ^ (8 * N.of_nat k) -> be k a = be k b -> a = b.
Proof. intros Ha Hb E. rewrite <- (unbe_be k a), <- (unbe_be k b), E; auto. Qed.
