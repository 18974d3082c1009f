(** The check of UTF-8 in the model agrees with the definition of UTF-8. *)
From Coq Require Import NArith Arith ZArith List Bool String Strings.Byte Lia ZifyN ZifyBool Zify.
From Verif Require Import Base Val SpecUtf8.
Import ListNotations.
Local Open Scope N_scope.
Local Ltac Zify.zify_post_hook ::= Z.to_euclidean_division_equations.

Lemma text_nil : is_text [].
Proof. exists []. split; [constructor|reflexivity]. Qed.

Lemma utf8_two c : 0x80 <= c < 0x800 -> utf8 c = [0xC0 + c / 64; 0x80 + c mod 64].
Proof. intros H. unfold utf8. rewrite (proj2 (N.ltb_ge c 0x80)), (proj2 (N.ltb_lt c 0x800)) by lia. reflexivity. Qed.
Lemma utf8_three c : 0x800 <= c < 0x10000 -> utf8 c = [0xE0 + c / 4096; 0x80 + (c / 64) mod 64; 0x80 + c mod 64].
Proof.
  intros H. unfold utf8. rewrite (proj2 (N.ltb_ge c 0x80)), (proj2 (N.ltb_ge c 0x800)), (proj2 (N.ltb_lt c 0x10000)) by lia. reflexivity.
Qed.
Lemma utf8_four c : 0x10000 <= c ->
  utf8 c = [0xF0 + c / 262144; 0x80 + (c / 4096) mod 64; 0x80 + (c / 64) mod 64; 0x80 + c mod 64].
Proof.
  intros H. unfold utf8.
  rewrite (proj2 (N.ltb_ge c 0x80)), (proj2 (N.ltb_ge c 0x800)), (proj2 (N.ltb_ge c 0x10000)) by lia. reflexivity.
Qed.

(** Reading the parts of a code point back. *)
Lemma parts2 a b : a < 32 -> b < 64 -> (a * 64 + b) / 64 = a /\ (a * 64 + b) mod 64 = b.
Proof. lia. Qed.
Lemma parts3 a b c : a < 16 -> b < 64 -> c < 64 ->
  let n := a * 4096 + b * 64 + c in n / 4096 = a /\ (n / 64) mod 64 = b /\ n mod 64 = c.
Proof. cbn zeta. lia. Qed.
Lemma parts4 a b c d : a < 8 -> b < 64 -> c < 64 -> d < 64 ->
  let n := a * 262144 + b * 4096 + c * 64 + d in
  n / 262144 = a /\ (n / 4096) mod 64 = b /\ (n / 64) mod 64 = c /\ n mod 64 = d.
Proof. cbn zeta. lia. Qed.

Lemma text_cons c l b : scalar c -> map Byte.to_N l = utf8 c -> is_text b -> is_text (l ++ b).
Proof.
  intros S E (cs & F & T). exists (c :: cs). split; [now constructor|]. unfold text_of in *. cbn [flat_map].
  now rewrite map_app, E, T.
Qed.

Ltac split_ands := repeat match goal with H : _ && _ = true |- _ => apply andb_prop in H as [? ?] end.

Lemma valid_text n : forall b, (List.length b <= n)%nat -> utf8_valid b = true -> is_text b.
Proof.
  induction n as [|n IH]; intros b L V; (destruct b as [|x r]; [apply text_nil|]); cbn [List.length] in L; [lia|].
  cbn [utf8_valid] in V. cbn zeta in V. pose proof (byte_bound x).
  destruct (N.ltb_spec (Byte.to_N x) 0x80).
  { apply (text_cons (Byte.to_N x) [x] r); [left; lia| |apply IH; [lia|exact V]].
    cbn [map]. unfold utf8. now rewrite (proj2 (N.ltb_lt (Byte.to_N x) 0x80)). }
  destruct ((0xC2 <=? Byte.to_N x) && (Byte.to_N x <=? 0xDF)) eqn:C2.
  { split_ands. destruct r as [|y r]; [discriminate V|]. split_ands. pose proof (byte_bound y). cbn [List.length] in L.
    destruct (parts2 (Byte.to_N x - 0xC0) (Byte.to_N y - 0x80)) as (P1 & P2); [lia|lia|].
    apply (text_cons ((Byte.to_N x - 0xC0) * 64 + (Byte.to_N y - 0x80)) [x; y] r); [left; lia| |apply IH; [lia|assumption]].
    rewrite utf8_two by lia. rewrite P1, P2. cbn [map]. repeat f_equal; lia. }
  destruct ((0xE0 <=? Byte.to_N x) && (Byte.to_N x <=? 0xEF)) eqn:C3.
  { split_ands. destruct r as [|y [|z r]]; [discriminate V|discriminate V|]. split_ands. cbn [List.length] in L.
    pose proof (byte_bound y). pose proof (byte_bound z).
    assert (Y : 0x80 <= Byte.to_N y <= 0xBF /\ (Byte.to_N x = 0xE0 -> 0xA0 <= Byte.to_N y) /\ (Byte.to_N x = 0xED -> Byte.to_N y <= 0x9F)).
    { destruct (N.eqb_spec (Byte.to_N x) 0xE0); [lia|]. destruct (N.eqb_spec (Byte.to_N x) 0xED); lia. }
    destruct (parts3 (Byte.to_N x - 0xE0) (Byte.to_N y - 0x80) (Byte.to_N z - 0x80)) as (P1 & P2 & P3); [lia|lia|lia|].
    apply (text_cons ((Byte.to_N x - 0xE0) * 4096 + (Byte.to_N y - 0x80) * 64 + (Byte.to_N z - 0x80)) [x; y; z] r);
      [destruct (N.lt_trichotomy (Byte.to_N x) 0xED) as [?|[?|?]]; [left|left|right]; lia| |apply IH; [lia|assumption]].
    rewrite utf8_three by lia. rewrite P1, P2, P3. cbn [map]. repeat f_equal; lia. }
  destruct ((0xF0 <=? Byte.to_N x) && (Byte.to_N x <=? 0xF4)) eqn:C4; [|discriminate V].
  split_ands. destruct r as [|y [|z [|w r]]]; try discriminate V. split_ands. cbn [List.length] in L.
  pose proof (byte_bound y). pose proof (byte_bound z). pose proof (byte_bound w).
  assert (Y : 0x80 <= Byte.to_N y <= 0xBF /\ (Byte.to_N x = 0xF0 -> 0x90 <= Byte.to_N y) /\ (Byte.to_N x = 0xF4 -> Byte.to_N y <= 0x8F)).
  { destruct (N.eqb_spec (Byte.to_N x) 0xF0); [lia|]. destruct (N.eqb_spec (Byte.to_N x) 0xF4); lia. }
  destruct (parts4 (Byte.to_N x - 0xF0) (Byte.to_N y - 0x80) (Byte.to_N z - 0x80) (Byte.to_N w - 0x80)) as (P1 & P2 & P3 & P4); [lia|lia|lia|lia|].
  apply (text_cons ((Byte.to_N x - 0xF0) * 262144 + (Byte.to_N y - 0x80) * 4096 + (Byte.to_N z - 0x80) * 64 + (Byte.to_N w - 0x80)) [x; y; z; w] r);
    [right; lia| |apply IH; [lia|assumption]].
  rewrite utf8_four by lia. rewrite P1, P2, P3, P4. cbn [map]. repeat f_equal; lia.
Qed.

Lemma cons_eq {A} (a b : A) l m : a :: l = b :: m -> a = b /\ l = m.
Proof. intros H. injection H. auto. Qed.
Ltac bools := repeat match goal with
  | |- context [?a <? ?b] => first [rewrite (proj2 (N.ltb_lt a b)) by lia | rewrite (proj2 (N.ltb_ge a b)) by lia]
  | |- context [?a <=? ?b] => first [rewrite (proj2 (N.leb_le a b)) by lia | rewrite (proj2 (N.leb_gt a b)) by lia]
  end; cbn [andb].

Lemma text_valid cs : Forall scalar cs -> forall b, text_of cs b -> utf8_valid b = true.
Proof.
  induction 1 as [|c cs S F IH]; intros b T; unfold text_of in *; cbn [flat_map] in T.
  - destruct b; [reflexivity|discriminate T].
  - destruct (N.ltb_spec c 0x80) as [A|A].
    { unfold utf8 in T. rewrite (proj2 (N.ltb_lt c 0x80) A) in T. destruct b as [|x r]; [discriminate T|].
      apply cons_eq in T as [Ex T]. cbn [utf8_valid]. cbn zeta. rewrite Ex, (proj2 (N.ltb_lt c 0x80) A). now apply IH. }
    destruct (N.ltb_spec c 0x800) as [B|B].
    { rewrite utf8_two in T by lia. destruct b as [|x [|y r]]; [discriminate T|discriminate T|]. apply cons_eq in T as [Ex T]; apply cons_eq in T as [Ey T].
      cbn [utf8_valid]. cbn zeta. rewrite Ex, Ey. bools. now apply IH. }
    destruct (N.ltb_spec c 0x10000) as [D|D].
    { rewrite utf8_three in T by lia. destruct b as [|x [|y [|z r]]]; try discriminate T. apply cons_eq in T as [Ex T]; apply cons_eq in T as [Ey T]; apply cons_eq in T as [Ez T].
      cbn [utf8_valid]. cbn zeta. rewrite Ex, Ey, Ez.
      rewrite (IH _ T). unfold scalar in S. bools.
      destruct (N.eqb_spec (0xE0 + c / 4096) 0xE0); [bools; reflexivity|].
      destruct (N.eqb_spec (0xE0 + c / 4096) 0xED); bools; reflexivity. }
    rewrite utf8_four in T by lia. destruct b as [|x [|y [|z [|w r]]]]; try discriminate T. apply cons_eq in T as [Ex T]; apply cons_eq in T as [Ey T]; apply cons_eq in T as [Ez T]; apply cons_eq in T as [Ew T].
    cbn [utf8_valid]. cbn zeta. rewrite Ex, Ey, Ez, Ew.
    rewrite (IH _ T). unfold scalar in S. bools.
    destruct (N.eqb_spec (0xF0 + c / 262144) 0xF0); [bools; reflexivity|].
    destruct (N.eqb_spec (0xF0 + c / 262144) 0xF4); bools; reflexivity.
Qed.

Lemma utf8_spec b : utf8_valid b = true <-> is_text b.
Proof.
  split.
  - intros V. now apply (valid_text (List.length b)).
  - intros (cs & F & T). now apply (text_valid cs).
Qed.
