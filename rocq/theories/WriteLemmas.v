(** Lemmas on serialization. *)
From Coq Require Import NArith ZArith List Bool String Ascii Strings.Byte Lia.
From Verif Require Import Base Ty Ids Val TypeSys Encode CodecLemmas ReadLemmas ValLemmas.
Import ListNotations.
Local Open Scope N_scope.

(** ** What a debug build writes, any other build writes as well *)

Lemma u64_incr_release {E} c c' n m : dbg c = true -> @u64_incr E c n = Ok m -> @u64_incr E c' n = Ok m.
Proof. unfold u64_incr. intros ->. destruct (n =? u64_max); [discriminate|auto]. Qed.

Lemma rstring_sizing_release c c' sys fs o : dbg c = true ->
  rstring_sizing c sys fs = Ok o -> rstring_sizing c' sys fs = Ok o.
Proof.
  intros D H. unfold rstring_sizing in *. apply bind_Ok in H as [r [H1 H]]. rewrite H1. cbn [bind].
  apply bind_Ok in H as [t [H2 H]]. rewrite H2. cbn [bind]. destruct t; auto.
  apply bind_Ok in H as [mn [H3 H]]. apply bind_Ok in H as [mx [H4 H]].
  rewrite (u64_incr_release _ c' _ _ D H3), (u64_incr_release _ c' _ _ D H4). exact H.
Qed.

Lemma is_rstring_release c c' sys fs b : dbg c = true ->
  is_rstring c sys fs = Ok b -> is_rstring c' sys fs = Ok b.
Proof.
  intros D H. unfold is_rstring in *. destruct (negb (lenN fs =? 2)); auto.
  apply bind_Ok in H as [r [H1 H]]. rewrite H1. cbn [bind].
  apply bind_Ok in H as [o [H2 H]]. rewrite (rstring_sizing_release _ c' _ _ _ D H2). exact H.
Qed.

Lemma expect_ok_Ok {E E' A} (o : outcome E A) (a : A) : expect_ok (E' := E') o = Ok a -> o = Ok a.
Proof. destruct o; cbn; congruence. Qed.

Lemma debug_assert_release {E} c c' b u : dbg c = true -> @debug_assert E c b = Ok u -> @debug_assert E c' b = Ok tt.
Proof. unfold debug_assert. intros ->. destruct b; [|discriminate]. intros _. cbn [negb]. now rewrite andb_false_r. Qed.

Lemma enc_all_impl {E A} (f g : A -> outcome E bytes) l bs :
  Forall (fun x => forall b, f x = Ok b -> g x = Ok b) l -> enc_all f l = Ok bs -> enc_all g l = Ok bs.
Proof.
  intros F. revert bs; induction F as [|x l H F IH]; intros bs E0; [exact E0|]. cbn in *.
  apply bind_Ok in E0 as [b [E1 E2]]. apply bind_Ok in E2 as [b' [E2 E3]].
  rewrite (H _ E1). cbn. rewrite (IH _ E2). exact E3.
Qed.

Lemma enc_zip_impl {E A B} (f g : A -> B -> outcome E bytes) l m bs :
  Forall (fun x => forall y b, f x y = Ok b -> g x y = Ok b) l -> enc_zip f l m = Ok bs -> enc_zip g l m = Ok bs.
Proof.
  intros F. revert m bs; induction F as [|x l H F IH]; intros m bs E0; [exact E0|].
  destruct m as [|y m]; [exact E0|]. cbn in *.
  apply bind_Ok in E0 as [b [E1 E2]]. apply bind_Ok in E2 as [b' [E2 E3]].
  rewrite (H _ _ E1). cbn. rewrite (IH _ _ E2). exact E3.
Qed.

Lemma write_release c c' sys v : dbg c = true -> forall id bs,
  write_val c sys v id = Ok bs -> write_val c' sys v id = Ok bs.
Proof.
  intros D. induction v as [|n|s|b|fs IH|t|t v IH|l IH|l IH|l IH|l IH] using sval_ind'; intros id bs H;
    cbn [write_val] in *; apply bind_Ok in H as [ty [T H]]; rewrite T; cbn [bind].
  - destruct ty; try discriminate. apply bind_Ok in H as [u [H1 H]]. now rewrite (debug_assert_release _ c' _ _ D H1).
  - destruct n, ty; exact H.
  - destruct ty; try discriminate; try exact H.
    + apply bind_Ok in H as [u [H1 H]]. now rewrite (debug_assert_release _ c' _ _ D H1).
    + destruct (is_ascii s); [|discriminate]. apply bind_Ok in H as [r [H1 H]].
      apply expect_ok_Ok in H1. rewrite (is_rstring_release _ c' _ _ _ D H1). cbn [expect_ok bind].
      destruct r; [|discriminate]. apply bind_Ok in H as [o [H2 H]].
      apply expect_ok_Ok in H2. rewrite (rstring_sizing_release _ c' _ _ _ D H2). cbn [expect_ok bind].
      apply bind_Ok in H as [p [H3 H]]. rewrite H3. cbn [bind].
      apply bind_Ok in H as [u [H4 H]]. now rewrite (debug_assert_release _ c' _ _ D H4).
    + apply bind_Ok in H as [u [H1 H]]. now rewrite (debug_assert_release _ c' _ _ D H1).
  - destruct ty; try discriminate; try exact H.
    apply bind_Ok in H as [u [H1 H]]. now rewrite (debug_assert_release _ c' _ _ D H1).
  - destruct ty as [| | | | |fs'| | | | ]; try discriminate.
    apply bind_Ok in H as [u [H1 H]]. rewrite (debug_assert_release _ c' _ _ D H1). cbn [bind].
    eapply enc_all_impl; [|exact H]. apply Forall_forall. intros [n i] _ b. cbn [fst snd].
    rewrite (imap_get_map (fun v id => write_val c sys v id) fs n),
      (imap_get_map (fun v id => write_val c' sys v id) fs n).
    destruct (imap_get fs n) as [v|] eqn:G; cbn [option_map]; [|discriminate].
    unfold imap_get in G. destruct (find (fun e => (fst e =? n)%string) fs) as [e|] eqn:F; [|discriminate].
    apply find_some in F as [F _]. injection G as <-. rewrite Forall_forall in IH. now apply IH.
  - destruct t, ty; try discriminate; try exact H.
    apply bind_Ok in H as [u [H1 H]]. now rewrite (debug_assert_release _ c' _ _ D H1).
  - destruct t, ty; try discriminate; apply bind_Ok in H as [e [H1 H]]; rewrite H1; cbn [bind];
      apply bind_Ok in H as [b [H2 H]]; now rewrite (IH _ _ H2).
  - destruct ty; try discriminate. apply bind_Ok in H as [b [H1 H]].
    erewrite enc_all_impl; [exact H| |exact H1].
    apply Forall_forall. rewrite Forall_forall in IH. auto.
  - destruct ty; try discriminate. apply bind_Ok in H as [b [H1 H]].
    erewrite enc_all_impl; [exact H| |exact H1].
    apply Forall_forall. rewrite Forall_forall in IH. auto.
  - destruct ty; try discriminate. apply bind_Ok in H as [u [H1 H]].
    rewrite (debug_assert_release _ c' _ _ D H1). cbn [bind].
    eapply enc_zip_impl; [|exact H]. apply Forall_forall. rewrite Forall_forall in IH. auto.
  - destruct ty; try discriminate. apply bind_Ok in H as [b [H1 H]].
    erewrite enc_all_impl; [exact H| |exact H1].
    apply Forall_forall. rewrite Forall_forall in IH. intros [x y] I b' E. apply IH in I as [I1 I2].
    cbn [fst snd] in *. apply bind_Ok in E as [a [E1 E]]. apply bind_Ok in E as [a' [E2 E]].
    rewrite (I1 _ _ E1). cbn [bind]. now rewrite (I2 _ _ E2).
Qed.
