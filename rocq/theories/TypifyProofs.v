(** Proofs about typification of values. *)
From Coq Require Import NArith ZArith List Bool String Ascii Strings.Byte Lia Arith.Wf_nat.
From Verif Require Import Base Ty Ids Val TypeSys Encode Decode DecodeShort Typify Spec SpecTypify.
From Verif Require Import CodecLemmas ValLemmas RoundTrip Sound.
Import ListNotations.
Local Open Scope N_scope.

(** ** Equality of typed values *)

Lemma eqb_struct (la lb full : list (string * sval)) :
  NoDup (map fst full) -> (forall e, In e lb -> In e full) ->
  map fst la = map fst lb ->
  Forall2 (fun a b => sval_eqb a b = true -> a = b) (map snd la) (map snd lb) ->
  forallb (fun e => match imap_get full (fst e) with Some w => sval_eqb (snd e) w | None => false end) la = true ->
  la = lb.
Proof.
  intros ND. revert lb. induction la as [|[k a] la IH]; intros [|[k' b] lb] Sub N F E; try discriminate; [reflexivity|].
  cbn in N. injection N as <- N. cbn in F. inversion F; subst. cbn [forallb fst snd] in E.
  apply andb_true_iff in E as [E1 E2].
  rewrite (imap_get_In full k b) in E1; [|exact ND|apply Sub; now left].
  f_equal; [f_equal; auto|]. apply IH; auto. intros; apply Sub; now right.
Qed.

Lemma eqb_list la lb :
  Forall (fun a => forall b, In b lb -> sval_eqb a b = true -> a = b) la ->
  (fix go x y := match x, y with
                 | [], [] => true
                 | a :: x, b :: y => sval_eqb a b && go x y
                 | _, _ => false
                 end) la lb = true -> la = lb.
Proof.
  revert lb. induction la as [|a la IH]; intros [|b lb] F E; try discriminate; [reflexivity|].
  apply andb_true_iff in E as [E1 E2]. inversion F as [|? ? Ha Fl]; subst. f_equal.
  - apply Ha; [now left|exact E1].
  - apply IH; [|exact E2]. eapply Forall_impl; [|exact Fl]. cbn. intros x Hx y Hy. apply Hx. now right.
Qed.

Section Eqb.
Variables (m : mode) (c : config) (sys : type_system).
Local Notation HT := (has_type m c sys).
Hypothesis W : wf_sys sys.

Lemma typed_eqb id a : HT id a -> forall b, HT id b -> sval_eqb a b = true -> a = b.
Proof.
  revert id a.
  apply (has_type_ind' m c sys (fun id a => forall b, HT id b -> sval_eqb a b = true -> a = b)).
  - intros id F b Hb E. destruct b; try discriminate E. reflexivity.
  - intros id p w n F _ _ b Hb E. destruct b; try discriminate E. cbn [sval_eqb] in E. apply snum_eqb_eq in E. now subst.
  - intros id p w n F _ _ b Hb E. destruct b; try discriminate E. cbn [sval_eqb] in E. apply snum_eqb_eq in E. now subst.
  - intros id vs v F _ b Hb E. destruct b; try discriminate E. cbn [sval_eqb] in E. apply etag_eqb_eq in E. now subst.
  - intros id vs v r w F I Hw IH b Hb E. destruct b as [| | | | | |t x| | | |]; try discriminate E.
    cbn [sval_eqb] in E. apply andb_true_iff in E as [E1 E2]. apply etag_eqb_eq in E1. subst t.
    f_equal. apply IH; [|exact E2].
    inversion Hb as [| | | |? ? v' r' ? F' I'| | | | | | | | | | |]; subst.
    rewrite F in F'. injection F' as <-.
    destruct (wf_types _ W _ _ F) as [ND _].
    pose proof (uv_by_name_In vs (v, r) ND I) as E3. pose proof (uv_by_name_In vs (v', r') ND I') as E4.
    cbn [fst] in E3, E4.
    match goal with H : v_name v' = v_name v |- _ => rewrite H in E4 | H : v_name v = v_name v' |- _ => rewrite <- H in E4 end.
    rewrite E3 in E4. injection E4 as <- <-. assumption.
  - intros id fs l F _ _ IH b Hb E. destruct b as [| | | | | | | | |lb|]; try discriminate E.
    f_equal. inversion Hb as [| | | | |? fs' ? F' _ F2| | | | | | | | | |]; subst.
    rewrite F in F'. injection F' as <-. clear F Hb.
    cbn [sval_eqb] in E. revert lb F2 E. induction IH as [|f a fs l Ha Hl IHl]; intros lb F2 E; inversion F2; subst.
    + reflexivity.
    + apply andb_true_iff in E as [E1 E2]. f_equal; auto.
  - intros id fs a1 a2 mn mx s _ _ _ _ _ b Hb E. destruct b; try discriminate E.
    cbn [sval_eqb] in E. apply String.eqb_eq in E. now subst.
  - intros id fs l F N _ IH b Hb E. destruct b as [| | | |lb| | | | | |]; try discriminate E.
    inversion Hb as [| | | | | | |? fs' ? F' N' F2| | | | | | | |]; subst.
    rewrite F in F'. injection F' as <-.
    f_equal. pose proof (wf_types _ W _ _ F) as ND. cbn in ND.
    cbn [sval_eqb] in E. apply andb_true_iff in E as [_ E].
    eapply (eqb_struct l lb lb); [now rewrite N'|auto|congruence| |exact E].
    clear -IH F2. revert F2. generalize (map snd lb). induction IH as [|f a fs' l' Ha Hl IHl]; intros lb0 F2.
    + inversion F2; subst. constructor.
    + inversion F2; subst. constructor; auto.
  - intros id r len b0 _ _ _ _ b Hb E. destruct b; try discriminate E. cbn [sval_eqb] in E. apply bytes_eqb_eq in E. now subst.
  - intros id r len l _ F _ _ _ _ IH b Hb E. destruct b as [| | | | | | |lb| | |]; try discriminate E.
    f_equal. apply eqb_list; [|exact E]. eapply Forall_impl; [|exact IH]. cbn. intros a Ha y Hy. apply Ha.
    inversion Hb as [| | | | | | | | |? r' ? ? _ F' _ _ _ FA| | | |? r' ? ? ? ? F' _ _ _ _ FA| |]; subst.
    + rewrite F in F'. injection F' as <- <-. rewrite Forall_forall in FA. auto.
    + rewrite F in F'. discriminate.
  - intros id r rt a mn mx s _ _ _ _ _ _ b Hb E. destruct b; try discriminate E.
    cbn [sval_eqb] in E. apply String.eqb_eq in E. now subst.
  - intros id r rt mn mx b0 _ _ _ _ _ _ b Hb E. destruct b; try discriminate E. cbn [sval_eqb] in E. apply bytes_eqb_eq in E. now subst.
  - intros id r rt mn mx s _ _ _ _ _ _ _ _ b Hb E. destruct b; try discriminate E.
    cbn [sval_eqb] in E. apply String.eqb_eq in E. now subst.
  - intros id r rt mn mx l F _ _ _ _ _ IH b Hb E. destruct b as [| | | | | | |lb| | |]; try discriminate E.
    f_equal. apply eqb_list; [|exact E]. eapply Forall_impl; [|exact IH]. cbn. intros a Ha y Hy. apply Ha.
    inversion Hb as [| | | | | | | | |? r' ? ? _ F' _ _ _ FA| | | |? r' ? ? ? ? F' _ _ _ _ FA| |]; subst.
    + rewrite F in F'. discriminate.
    + rewrite F in F'. injection F' as <- <- <-. rewrite Forall_forall in FA. auto.
  - intros id r mn mx l F _ _ IH _ b Hb E. destruct b as [| | | | | | | |lb| |]; try discriminate E.
    f_equal. apply eqb_list; [|exact E]. eapply Forall_impl; [|exact IH]. cbn. intros a Ha y Hy. apply Ha.
    inversion Hb as [| | | | | | | | | | | | | |? r' ? ? ? F' _ FA _|]; subst.
    rewrite F in F'. injection F' as <- <- <-. rewrite Forall_forall in FA. auto.
  - intros id k r mn mx l F _ _ IHk _ IHr _ b Hb E. destruct b as [| | | | | | | | | |lb]; try discriminate E.
    f_equal.
    inversion Hb as [| | | | | | | | | | | | | | |? k' r' ? ? ? F' _ FK FR _]; subst.
    rewrite F in F'. injection F' as <- <- <- <-. clear F Hb. cbn [sval_eqb] in E.
    revert lb FK FR E. induction l as [|[ka xa] l IHl]; intros [|[kb xb] lb] FK FR E; try discriminate; [reflexivity|].
    apply andb_true_iff in E as [E E2]. apply andb_true_iff in E as [E0 E1]. cbn in *.
    inversion IHk; inversion IHr; inversion FK; inversion FR; subst.
    f_equal; [f_equal; auto|auto].
Qed.
End Eqb.

(** ** Typing well-typed values *)

Lemma list_max_le (l : list nat) n : (list_max l <= n)%nat -> Forall (fun k => (k <= n)%nat) l.
Proof. apply list_max_le. Qed.

Lemma map_outcome_id {E} (f : sval -> outcome E sval) l :
  Forall (fun x => f x = Ok x) l -> map_outcome f l = Ok l.
Proof. induction 1 as [|x l H _ IH]; [reflexivity|]. cbn. rewrite H. cbn. rewrite IH. reflexivity. Qed.

Lemma typify_zip_id (rec : sval -> semid -> outcome typ_error sval) ids l :
  Forall2 (fun id x => rec x id = Ok x) ids l -> typify_zip rec l ids = Ok l.
Proof. induction 1 as [|id x ids l H _ IH]; [reflexivity|]. cbn. rewrite H. cbn. rewrite IH. reflexivity. Qed.

Lemma typify_set_id rec id r l new :
  Forall (fun x => rec x r = Ok x) l ->
  (forall x y, In x (new ++ l) -> In y (new ++ l) -> sval_eqb x y = true -> x = y) ->
  NoDup (new ++ l) -> typify_set rec id r l new = Ok (new ++ l).
Proof.
  intros F. revert new. induction F as [|x l H F IH]; intros new E ND; cbn.
  - now rewrite app_nil_r.
  - rewrite H. cbn.
    destruct (existsb (fun z => sval_eqb z x) new) eqn:X.
    + exfalso. apply existsb_exists in X as (z & I & Q).
      assert (z = x) as ->.
      { apply E; [apply in_or_app; now left|apply in_or_app; right; now left|exact Q]. }
      apply NoDup_remove_2 in ND. apply ND. apply in_or_app. now left.
    + rewrite IH; rewrite <- app_assoc; auto.
Qed.

Lemma typify_map_id rec id k r l new :
  Forall (fun e => rec (fst e) k = Ok (fst e) /\ rec (snd e) r = Ok (snd e)) l ->
  (forall x y, In x (map fst (new ++ l)) -> In y (map fst (new ++ l)) -> sval_eqb x y = true -> x = y) ->
  NoDup (map fst (new ++ l)) -> typify_map rec id k r l new = Ok (new ++ l).
Proof.
  intros F. revert new. induction F as [|[xk xv] l [H1 H2] F IH]; intros new E ND; cbn.
  - now rewrite app_nil_r.
  - cbn in H1, H2. rewrite H1. cbn. rewrite H2. cbn.
    destruct (existsb (fun z => sval_eqb (fst z) xk) new) eqn:X.
    + exfalso. apply existsb_exists in X as ([z zv] & I & Q). cbn in Q.
      assert (z = xk) as ->.
      { apply E; [|rewrite map_app; apply in_or_app; right; now left|exact Q].
        rewrite map_app; apply in_or_app; left. now apply (in_map fst) in I. }
      rewrite map_app in ND. cbn in ND. apply NoDup_remove_2 in ND. apply ND. apply in_or_app. left.
      now apply (in_map fst) in I.
    + rewrite IH; rewrite <- app_assoc; auto.
Qed.

Lemma nf_ty_by_name_In {R} (fs : list (string * R)) n r :
  NoDup (map fst fs) -> In (n, r) fs -> nf_ty_by_name fs n = Some r.
Proof. apply imap_get_In. Qed.

Lemma typify_struct_id rec req l new :
  NoDup (map fst (new ++ l)) ->
  Forall (fun e => exists id, nf_ty_by_name req (fst e) = Some id /\ rec (snd e) id = Ok (snd e)) l ->
  typify_struct rec req l new = Ok (new ++ l).
Proof.
  intros ND F. revert new ND. induction F as [|[n x] l (id & H1 & H2) F IH]; intros new ND; cbn.
  - now rewrite app_nil_r.
  - cbn in H1, H2. rewrite H1. cbn. rewrite H2. cbn.
    rewrite imap_insert_new; [rewrite IH; rewrite <- app_assoc; auto|].
    rewrite map_app in ND. cbn in ND. apply NoDup_remove_2 in ND. intros I. apply ND, in_or_app. now left.
Qed.

Lemma sizing_check_ok mn mx n : mn <= n <= mx -> sizing_check (mkSizing mn mx) n = true.
Proof. intros [A B]. unfold sizing_check. cbn. apply andb_true_iff. split; now apply N.leb_le. Qed.

Lemma sizing_check_inv sz n : sizing_check sz n = true -> s_min sz <= n <= s_max sz.
Proof. unfold sizing_check. intros H. apply andb_true_iff in H as [A B]. apply N.leb_le in A, B. now split. Qed.

Section Identity.
Variables (a : bool) (c : config) (sys : type_system).
Local Notation HT := (has_type (mkMode true a) c sys).
Hypothesis W : wf_sys sys.
Hypothesis K : known_ids sys.
Hypothesis B : byte_in_strings_only sys.

Lemma typify_unfold fuel v id t : type_of sys id = Some t ->
  typify_val (S fuel) sys v id = typify_ty (typify_val fuel sys) id t v.
Proof. intros H. cbn [typify_val]. rewrite H. reflexivity. Qed.

Lemma uint_width_cases p w : uint_width p = Some w -> is_small_unsigned p = true \/ p = P_BYTE.
Proof.
  unfold uint_width, is_small_unsigned. destruct (N.leb_spec 1 p), (N.leb_spec p 8); cbn; intros X.
  - left. apply N.leb_le. lia.
  - destruct (N.eqb_spec p 0x40); [now right|discriminate].
  - left. apply N.leb_le. lia.
  - lia.
Qed.

Lemma int_width_small p w : int_width p = Some w -> is_small_signed p = true.
Proof.
  unfold int_width. destruct (N.eqb_spec p 0x41); [now subst|].
  destruct (N.eqb_spec p 0x42); [now subst|]. destruct (N.eqb_spec p 0x44); [now subst|].
  destruct (N.eqb_spec p 0x48); [now subst|discriminate].
Qed.

Lemma typify_typed id v : HT id v -> sys_find sys id <> Some (TPrim P_BYTE) ->
  forall fuel, (vdepth v <= fuel)%nat -> typify_val fuel sys v id = Ok v.
Proof.
  revert id v.
  apply (has_type_ind' (mkMode true a) c sys (fun id v => sys_find sys id <> Some (TPrim P_BYTE) ->
    forall fuel, (vdepth v <= fuel)%nat -> typify_val fuel sys v id = Ok v)).
  all: intros id; intros.
  all: match goal with HD : (vdepth _ <= ?fu)%nat |- _ => destruct fu as [|fuel]; [exfalso; cbn in HD; lia|] end.
  all: match goal with F : sys_find sys ?i = Some ?t |- typify_val _ _ _ ?i = _ =>
         rewrite (typify_unfold fuel _ _ t (type_of_find sys i t W F)) end.
  - reflexivity.
  - cbn. destruct (uint_width_cases p w) as [->| ->]; try assumption; [reflexivity|contradiction].
  - cbn. rewrite (int_width_small p w) by assumption. reflexivity.
  - cbn. unfold ev_tag_by_name. destruct (wf_types _ W _ _ H) as [ND _].
    rewrite ev_by_name_In by assumption. reflexivity.
  - cbn. unfold uv_ty_by_name. destruct (wf_types _ W _ _ H) as [ND _].
    pose proof (uv_by_name_In vs (v, r) ND H0) as E. cbn in E. rewrite E. cbn.
    rewrite H2; [reflexivity| |cbn in H4; lia].
    intros X. edestruct (B id) as [_ [[? Y]|[? [Y _]]]]; [exact H| |exact X|discriminate Y|discriminate Y].
    cbn. apply (in_map snd) in H0. exact H0.
  - cbn. replace (lenN l =? lenN fs) with true.
    2: { symmetry. apply N.eqb_eq. unfold lenN. now rewrite (Forall2_len _ _ _ H1). }
    cbn. rewrite (typify_zip_id _ fs l); [reflexivity|].
    assert (L : Forall (fun x => (vdepth x <= fuel)%nat) l).
    { cbn in H4. apply le_S_n in H4. apply list_max_le in H4. now apply Forall_map in H4. }
    assert (NB : Forall (fun f => sys_find sys f <> Some (TPrim P_BYTE)) fs).
    { apply Forall_forall. intros f I X.
      edestruct (B id) as [_ [[? Y]|[? [Y _]]]]; [exact H|exact I|exact X|discriminate Y|discriminate Y]. }
    clear -H2 L NB. induction H2 as [|f x fs l Hx Hl IH]; constructor; inversion L; inversion NB; subst; auto.
  - assert (lenN fs = 2) as L by (destruct H0; subst; reflexivity).
    unfold typify_ty. rewrite (proj1 (ascii_text_iff s)) by assumption. rewrite L. reflexivity.
  - cbn. replace (lenN l =? lenN fs) with true.
    2: { symmetry. apply N.eqb_eq. unfold lenN. rewrite <- (map_length fst l), H0. now rewrite map_length. }
    cbn. rewrite (typify_struct_id _ fs l []); [reflexivity| |].
    + cbn. rewrite H0. apply (wf_types _ W _ _ H).
    + assert (L : Forall (fun e => (vdepth (snd e) <= fuel)%nat) l).
      { cbn in H4. apply le_S_n in H4. apply list_max_le in H4. now apply Forall_map in H4. }
      assert (NB : Forall (fun f => sys_find sys (snd f) <> Some (TPrim P_BYTE)) fs).
      { apply Forall_forall. intros f I X.
        edestruct (B id) as [_ [[? Y]|[? [Y _]]]]; [exact H| |exact X|discriminate Y|discriminate Y].
        cbn. now apply in_map. }
      pose proof (wf_types _ W _ _ H) as ND. cbn in ND.
      assert (Sub : forall e, In e fs -> In e fs) by auto. revert Sub.
      assert (G : forall part, (forall e, In e part -> In e fs) -> map fst l = map fst part ->
        Forall (fun f => sys_find sys (snd f) <> Some (TPrim P_BYTE)) part ->
        Forall2 (fun id v => sys_find sys id <> Some (TPrim P_BYTE) ->
          forall fuel, (vdepth v <= fuel)%nat -> typify_val fuel sys v id = Ok v) (map snd part) (map snd l) ->
        Forall (fun e => exists id, nf_ty_by_name fs (fst e) = Some id /\ typify_val fuel sys (snd e) id = Ok (snd e)) l).
      { clear -ND L. induction L as [|[n x] l Lx L IH]; intros [|[n' r] part] Sub E NB F2; try discriminate; constructor.
        - cbn in E, F2. injection E as <- E. inversion F2; inversion NB; subst. exists r. cbn. split; [|auto].
          apply nf_ty_by_name_In; [exact ND|]. apply Sub. now left.
        - cbn in E, F2. injection E as <- E. inversion F2; inversion NB; subst. apply (IH part); [intros; apply Sub; now right|assumption..]. }
      intros Sub. apply (G fs); auto.
  - cbn. rewrite (proj1 (byte_item_iff r)) by assumption.
    destruct (N.ltb_spec len (lenN b)); [lia|reflexivity].
  - cbn. destruct (N.ltb_spec len (lenN l)); [lia|reflexivity].
  - (* chars *)
    destruct H3 as (_ & _ & L). cbn. rewrite sizing_check_ok by (apply L; reflexivity). cbn.
    destruct (is_unicode_id r); [reflexivity|].
    destruct (is_byte_id r) eqn:IB.
    + exfalso. apply byte_item_iff in IB. destruct K as (K1 & K2 & _).
      destruct IB as [-> | ->]; [rewrite (K1 _ H0) in H1|rewrite (K2 _ H0) in H1]; discriminate.
    + rewrite (proj1 (ascii_text_iff s)) by assumption. reflexivity.
  - destruct H4 as (_ & _ & L). cbn. rewrite sizing_check_ok by (apply L; reflexivity). cbn.
    rewrite (proj1 (byte_item_iff r)) by assumption. reflexivity.
  - destruct H6 as (_ & _ & L). cbn. rewrite sizing_check_ok by (apply L; reflexivity). cbn.
    rewrite (proj1 (unicode_item_iff r)) by assumption. reflexivity.
  - destruct H3 as (_ & _ & L). cbn. rewrite sizing_check_ok by (apply L; reflexivity). cbn.
    rewrite map_outcome_id; [reflexivity|].
    assert (LD : Forall (fun x => (vdepth x <= fuel)%nat) l).
    { cbn in H7. apply le_S_n in H7. apply list_max_le in H7. now apply Forall_map in H7. }
    assert (NB : sys_find sys r <> Some (TPrim P_BYTE)).
    { intros X. edestruct (B id) as [Y [[? Z]|[s [Z Z']]]]; [exact H|left; reflexivity|exact X|discriminate Z|].
      injection Z as <-. cbn in Z'. now apply H2 in Z'. }
    rewrite Forall_forall in *. intros x Ix. apply (H5 x); auto.
  - destruct H0 as (_ & _ & L). cbn. rewrite sizing_check_ok by (apply L; reflexivity). cbn.
    assert (LD : Forall (fun x => (vdepth x <= fuel)%nat) l).
    { cbn in H5. apply le_S_n in H5. apply list_max_le in H5. now apply Forall_map in H5. }
    assert (NB : sys_find sys r <> Some (TPrim P_BYTE)).
    { intros X. edestruct (B id) as [Y [[? Z]|[s [Z Z']]]]; [exact H|left; reflexivity|exact X|discriminate Z|discriminate Z]. }
    rewrite (typify_set_id _ _ _ l []); [reflexivity| | |].
    + rewrite Forall_forall in *. auto.
    + cbn. rewrite Forall_forall in H1. intros x y Ix Iy. apply (typed_eqb (mkMode true a) c sys W r); auto.
    + cbn. now apply H3.
  - destruct H0 as (_ & _ & L). cbn. rewrite sizing_check_ok by (apply L; reflexivity). cbn.
    assert (LD : Forall (fun e => (vdepth (fst e) <= fuel)%nat /\ (vdepth (snd e) <= fuel)%nat) l).
    { cbn in H7. apply le_S_n in H7. apply list_max_le in H7. apply Forall_map in H7.
      eapply Forall_impl; [|exact H7]. cbn. intros; lia. }
    assert (NB : forall q, In q [k; r] -> sys_find sys q <> Some (TPrim P_BYTE)).
    { intros q I X. edestruct (B id) as [Y [[? Z]|[s [Z Z']]]]; [exact H|exact I|exact X|discriminate Z|discriminate Z]. }
    rewrite (typify_map_id _ _ _ _ l []); [reflexivity| | |].
    + rewrite Forall_forall in *. intros [x y] I. destruct (LD _ I). cbn in *. split.
      * apply H2; auto. now apply (in_map fst) in I.
      * apply H4; auto. now apply (in_map snd) in I.
    + cbn. rewrite Forall_forall in H1. intros x y Ix Iy. apply (typed_eqb (mkMode true a) c sys W k); auto.
    + cbn. now apply H5.
Qed.
End Identity.
