(** Exactly the canonical values which hold no number of the type Byte are kept by typification. *)
From Coq Require Import NArith ZArith List Bool String Ascii Strings.Byte Lia.
From Verif Require Import Base Ty Ids Val TypeSys Encode Decode DecodeShort Typify Spec SpecTypify SpecByteNumber.
From Verif Require Import CodecLemmas ValLemmas RoundTrip ReadLemmas Sound TypifyProofs.
Import ListNotations.
Local Open Scope N_scope.

(** ** Lists *)

Lemma Forall2_both {A B} (P Q : A -> B -> Prop) a b : Forall2 P a b ->
  (forall i x y, nth_error a i = Some x -> nth_error b i = Some y -> P x y -> Q x y) -> Forall2 Q a b.
Proof.
  induction 1 as [|x y a b H1 H2 IH]; intros F; constructor; [now apply (F O)|]. apply IH. intros i. apply (F (S i)).
Qed.

Lemma Forall2_at {A B} (P : A -> B -> Prop) a b i x y : Forall2 P a b ->
  nth_error a i = Some x -> nth_error b i = Some y -> P x y.
Proof.
  intros H. revert i. induction H as [|x' y' a b H1 H2 IH]; intros [|i] X Y; try discriminate X; [|now apply (IH i)].
  cbn in X, Y. congruence.
Qed.

Lemma Forall2_diag {A} (P : A -> A -> Prop) l : Forall2 P l l -> Forall (fun x => P x x) l.
Proof. induction l as [|x l IH]; intros H; inversion H; subst; auto. Qed.

(** ** What the loops return *)

Lemma map_outcome_items {E A B} (f : A -> outcome E B) l out : map_outcome f l = Ok out -> Forall2 (fun x y => f x = Ok y) l out.
Proof.
  revert out. induction l as [|x l IH]; intros out H; cbn in H; [injection H as <-; constructor|].
  apply bind_Ok in H as (y & H1 & H). apply bind_Ok in H as (ys & H2 & H). injection H as <-. constructor; auto.
Qed.

Lemma typify_zip_items rec l ids out i x id y : typify_zip rec l ids = Ok out ->
  nth_error l i = Some x -> nth_error ids i = Some id -> nth_error out i = Some y -> rec x id = Ok y.
Proof.
  revert ids out i. induction l as [|a l IH]; intros [|d ids] out [|i] H X D Y; try discriminate X; try discriminate D; cbn in H.
  - apply bind_Ok in H as (b & H1 & H). apply bind_Ok in H as (ys & H2 & H). injection H as <-. cbn in X, D, Y. congruence.
  - apply bind_Ok in H as (b & H1 & H). apply bind_Ok in H as (ys & H2 & H). injection H as <-. cbn in X, D, Y. eauto.
Qed.

Lemma typify_set_items rec id r l new out : typify_set rec id r l new = Ok out ->
  exists ys, out = new ++ ys /\ Forall2 (fun x y => rec x r = Ok y) l ys.
Proof.
  revert new. induction l as [|x l IH]; intros new H; cbn in H.
  - injection H as <-. exists []. now rewrite app_nil_r.
  - apply bind_Ok in H as (y & H1 & H). destruct (existsb _ new); [discriminate H|].
    apply IH in H as (ys & -> & F). exists (y :: ys). split; [now rewrite <- app_assoc|]. now constructor.
Qed.

Lemma typify_map_items rec id k r l new out : typify_map rec id k r l new = Ok out ->
  exists ys, out = new ++ ys /\ Forall2 (fun x y => rec (fst x) k = Ok (fst y) /\ rec (snd x) r = Ok (snd y)) l ys.
Proof.
  revert new. induction l as [|[a b] l IH]; intros new H; cbn in H.
  - injection H as <-. exists []. now rewrite app_nil_r.
  - apply bind_Ok in H as (y & H1 & H). apply bind_Ok in H as (z & H2 & H). destruct (existsb _ new); [discriminate H|].
    apply IH in H as (ys & -> & F). exists ((y, z) :: ys). split; [now rewrite <- app_assoc|]. now constructor.
Qed.

Lemma typify_struct_items rec req l new out : NoDup (map fst (new ++ l)) -> typify_struct rec req l new = Ok out ->
  exists ys, out = new ++ ys
    /\ Forall2 (fun x y => exists id, nf_ty_by_name req (fst x) = Some id /\ rec (snd x) id = Ok (snd y)) l ys.
Proof.
  revert new. induction l as [|[n x] l IH]; intros new ND H; cbn in H.
  - injection H as <-. exists []. now rewrite app_nil_r.
  - destruct (nf_ty_by_name req n) as [id|] eqn:N; [|discriminate H]. cbn in H. apply bind_Ok in H as (y & H1 & H).
    rewrite imap_insert_new in H.
    + apply IH in H as (ys & -> & F).
      * exists ((n, y) :: ys). split; [now rewrite <- app_assoc|]. constructor; [|exact F]. exists id. auto.
      * rewrite !map_app in *. cbn in *. now rewrite <- app_assoc.
    + rewrite map_app in ND. cbn in ND. apply NoDup_remove_2 in ND. intros I. apply ND, in_or_app. now left.
Qed.

Section Exact.
Variables (a : bool) (c : config) (sys : type_system).
Local Notation HT := (has_type (mkMode true a) c sys).
Hypothesis W : wf_sys sys.
Hypothesis K : known_ids sys.

(** ** Values without such numbers are kept *)

Lemma typify_kept id v : HT id v -> ~ holds_byte sys id v ->
  forall fuel, (vdepth v <= fuel)%nat -> typify_val fuel sys v id = Ok v.
Proof.
  revert id v.
  apply (has_type_ind' (mkMode true a) c sys (fun id v => ~ holds_byte sys id v ->
    forall fuel, (vdepth v <= fuel)%nat -> typify_val fuel sys v id = Ok v)).
  all: intros id; intros.
  all: match goal with HD : (vdepth _ <= ?fu)%nat |- _ => destruct fu as [|fuel]; [exfalso; cbn in HD; lia|] end.
  all: match goal with F : sys_find sys ?i = Some ?t |- typify_val _ _ _ ?i = _ =>
         rewrite (typify_unfold sys fuel _ _ t (type_of_find sys i t W F)) end.
  - reflexivity.
  - cbn. destruct (uint_width_cases p w) as [->| ->]; try assumption; [reflexivity|]. exfalso.
    match goal with N : ~ holds_byte sys id _ |- _ => apply N end. now apply HB_number.
  - cbn. rewrite (int_width_small p w) by assumption. reflexivity.
  - cbn. unfold ev_tag_by_name. destruct (wf_types _ W _ _ H) as [ND _].
    rewrite ev_by_name_In by assumption. reflexivity.
  - cbn. unfold uv_ty_by_name. destruct (wf_types _ W _ _ H) as [ND _].
    pose proof (uv_by_name_In vs (v, r) ND H0) as E. cbn in E. rewrite E. cbn.
    rewrite H2; [reflexivity| |cbn in H4; lia].
    intros X. apply H3. now apply (HB_variant sys id vs v r).
  - cbn. replace (lenN l =? lenN fs) with true.
    2: { symmetry. apply N.eqb_eq. unfold lenN. now rewrite (Forall2_len _ _ _ H1). }
    cbn. rewrite (typify_zip_id _ fs l); [reflexivity|].
    assert (L : Forall (fun x => (vdepth x <= fuel)%nat) l).
    { cbn in H4. apply le_S_n in H4. apply list_max_le in H4. now apply Forall_map in H4. }
    apply (Forall2_both _ _ _ _ H2). intros i f x Nf Nx IH. apply IH.
    + intros X. apply H3. now apply (HB_component sys id fs l i f x).
    + rewrite Forall_forall in L. apply L. now apply nth_error_In in Nx.
  - assert (lenN fs = 2) as L by (destruct H0; subst; reflexivity).
    unfold typify_ty. rewrite (proj1 (ascii_text_iff s)) by assumption. rewrite L. reflexivity.
  - cbn. replace (lenN l =? lenN fs) with true.
    2: { symmetry. apply N.eqb_eq. unfold lenN. rewrite <- (map_length fst l), H0. now rewrite map_length. }
    cbn. rewrite (typify_struct_id _ fs l []); [reflexivity| |].
    + cbn. rewrite H0. apply (wf_types _ W _ _ H).
    + assert (L : Forall (fun e => (vdepth (snd e) <= fuel)%nat) l).
      { cbn in H4. apply le_S_n in H4. apply list_max_le in H4. now apply Forall_map in H4. }
      pose proof (wf_types _ W _ _ H) as ND. cbn in ND. rewrite Forall_forall in *. intros [n x] I. cbn [fst snd].
      destruct (In_nth_error _ _ I) as [i Ni].
      pose proof (map_nth_error fst i l Ni) as N1. pose proof (map_nth_error snd i l Ni) as N2. cbn in N1, N2.
      destruct (nth_error fs i) as [[n' f]|] eqn:Nf.
      * pose proof (map_nth_error fst i fs Nf) as M1. pose proof (map_nth_error snd i fs Nf) as M2. cbn in M1, M2.
        rewrite H0, M1 in N1. injection N1 as ->. exists f.
        pose proof (nth_error_In _ _ Nf) as If.
        split; [now apply nf_ty_by_name_In|]. apply (Forall2_at _ _ _ _ _ _ H2 M2 N2); [|exact (L _ I)].
        intros X. apply H3. now apply (HB_field sys id fs l n f x).
      * exfalso. apply (map_nth_error fst) in Ni. rewrite H0 in Ni. apply nth_error_None in Nf.
        assert (i < List.length (map fst fs))%nat by (apply nth_error_Some; congruence). rewrite map_length in *. lia.
  - cbn. rewrite (proj1 (byte_item_iff r)) by assumption.
    destruct (N.ltb_spec len (lenN b)); [lia|reflexivity].
  - cbn. destruct (N.ltb_spec len (lenN l)); [lia|reflexivity].
  - (* chars *)
    destruct H3 as (_ & _ & L). cbn. rewrite sizing_check_ok by (apply L; reflexivity). cbn.
    destruct (is_unicode_id r); [reflexivity|].
    destruct (is_byte_id r) eqn:IB.
    + exfalso. apply byte_item_iff in IB. destruct K as (K1 & K2 & _).
      destruct IB as [-> | ->]; [rewrite (K1 _ H0) in H1|rewrite (K2 _ H0) in H1]; discriminate.
    + rewrite (proj1 (ascii_text_iff s)) by assumption. reflexivity.
  - destruct H4 as (_ & _ & L). cbn. rewrite sizing_check_ok by (apply L; reflexivity). cbn.
    rewrite (proj1 (byte_item_iff r)) by assumption. reflexivity.
  - destruct H6 as (_ & _ & L). cbn. rewrite sizing_check_ok by (apply L; reflexivity). cbn.
    rewrite (proj1 (unicode_item_iff r)) by assumption. reflexivity.
  - destruct H3 as (_ & _ & L). cbn. rewrite sizing_check_ok by (apply L; reflexivity). cbn.
    rewrite map_outcome_id; [reflexivity|].
    assert (LD : Forall (fun x => (vdepth x <= fuel)%nat) l).
    { cbn in H7. apply le_S_n in H7. apply list_max_le in H7. now apply Forall_map in H7. }
    rewrite Forall_forall in *. intros x Ix. apply (H5 x); auto. intros X. apply H6. now apply (HB_item sys id r (mkSizing min max) l x).
  - destruct H0 as (_ & _ & L). cbn. rewrite sizing_check_ok by (apply L; reflexivity). cbn.
    assert (LD : Forall (fun x => (vdepth x <= fuel)%nat) l).
    { cbn in H5. apply le_S_n in H5. apply list_max_le in H5. now apply Forall_map in H5. }
    rewrite (typify_set_id _ _ _ l []); [reflexivity| | |].
    + rewrite Forall_forall in *. intros x Ix. apply (H2 x); auto. intros X. apply H4. now apply (HB_element sys id r (mkSizing min max) l x).
    + cbn. rewrite Forall_forall in H1. intros x y Ix Iy. apply (typed_eqb (mkMode true a) c sys W r); auto.
    + cbn. now apply H3.
  - destruct H0 as (_ & _ & L). cbn. rewrite sizing_check_ok by (apply L; reflexivity). cbn.
    assert (LD : Forall (fun e => (vdepth (fst e) <= fuel)%nat /\ (vdepth (snd e) <= fuel)%nat) l).
    { cbn in H7. apply le_S_n in H7. apply list_max_le in H7. apply Forall_map in H7.
      eapply Forall_impl; [|exact H7]. cbn. intros; lia. }
    rewrite (typify_map_id _ _ _ _ l []); [reflexivity| | |].
    + rewrite Forall_forall in *. intros [x y] I. destruct (LD _ I). cbn in *. split.
      * apply (in_map fst) in I. cbn in I. apply H2; auto. intros X. apply H6. now apply (HB_key sys id k r (mkSizing min max) l x).
      * apply (in_map snd) in I. cbn in I. apply H4; auto. intros X. apply H6. now apply (HB_value sys id k r (mkSizing min max) l y).
    + cbn. rewrite Forall_forall in H1. intros x y Ix Iy. apply (typed_eqb (mkMode true a) c sys W k); auto.
    + cbn. now apply H5.
Qed.

(** ** Values with such numbers are not *)

Lemma typify_not_kept id v : holds_byte sys id v -> HT id v -> forall fuel, typify_val fuel sys v id <> Ok v.
Proof.
  induction 1 as [id n F|id vs v r w F I H IH|id fs l i f x F Nf Nx H IH|id fs l n f x F If Ix H IH|id r sz l x F I H IH
    |id r sz l x F I H IH|id k r sz l x F I H IH|id k r sz l x F I H IH];
    intros T [|fuel] E; try discriminate E; rewrite (typify_unfold sys fuel _ _ _ (type_of_find sys id _ W F)) in E.
  - cbn in E. destruct (N.land n 9223372036854775808 =? 0); discriminate E.
  - cbn in E. destruct (wf_types _ W _ _ F) as [ND _].
    pose proof (uv_by_name_In vs (v, r) ND I) as U. cbn in U. unfold uv_ty_by_name in E. rewrite U in E. cbn in E.
    apply bind_Ok in E as (w' & E & Q). injection Q as ->. revert E. apply IH.
    inversion T as [| | | |? vs' v' r' w' F' I' T' E1 E2| | | | | | | | | | |]; subst. rewrite F in F'. injection F' as <-.
    pose proof (uv_by_name_In vs (v', r') ND I') as U'. cbn in U'. congruence.
  - cbn in E. destruct (negb (lenN l =? lenN fs)); [discriminate E|]. apply bind_Ok in E as (l' & E & Q). injection Q as ->.
    pose proof (typify_zip_items _ _ _ _ _ _ _ _ E Nx Nf Nx) as X. revert X. apply IH.
    inversion T as [| | | | |? fs' ? F' NR' T' E1 E2| | | | | | | | | |]; subst. rewrite F in F'. injection F' as <-.
    exact (Forall2_at _ _ _ _ _ _ T' Nf Nx).
  - cbn in E. destruct (negb (lenN l =? lenN fs)); [discriminate E|]. apply bind_Ok in E as (l' & E & Q). injection Q as ->.
    pose proof (wf_types _ W _ _ F) as ND. cbn in ND.
    inversion T as [| | | | | | |? fs' ? F' EN T' E1 E2| | | | | | | |]; subst. rewrite F in F'. injection F' as <-.
    apply typify_struct_items in E as (ys & Y & E); [|cbn; now rewrite EN]. cbn in Y. subst ys.
    apply Forall2_diag in E. rewrite Forall_forall in E. destruct (E _ Ix) as (f' & G & R). cbn in G, R.
    rewrite (nf_ty_by_name_In fs n f ND If) in G. injection G as <-. revert R. apply IH.
    destruct (In_nth_error _ _ Ix) as [i Ni]. pose proof (map_nth_error fst i l Ni) as N1. pose proof (map_nth_error snd i l Ni) as N2. cbn in N1, N2.
    rewrite EN in N1. destruct (nth_error fs i) as [[n' f']|] eqn:Nf.
    + pose proof (map_nth_error fst i fs Nf) as M1. pose proof (map_nth_error snd i fs Nf) as M2. cbn in M1, M2.
      assert (n' = n) as -> by congruence.
      pose proof (nf_ty_by_name_In fs n f ND If) as A. rewrite (nf_ty_by_name_In fs n f' ND (nth_error_In _ _ Nf)) in A. injection A as ->.
      exact (Forall2_at _ _ _ _ _ _ T' M2 N2).
    + exfalso. apply nth_error_None in Nf. assert (i < List.length (map fst fs))%nat by (apply nth_error_Some; congruence).
      rewrite map_length in *. lia.
  - cbn in E. destruct (negb (sizing_check sz (lenN l))); [discriminate E|]. apply bind_Ok in E as (l' & E & Q). injection Q as ->.
    apply map_outcome_items, Forall2_diag in E. rewrite Forall_forall in E. generalize (E x I). apply IH.
    inversion T; subst; match goal with F' : sys_find sys id = Some _ |- _ => rewrite F in F'; inversion F'; subst end.
    match goal with A : Forall _ l |- _ => rewrite Forall_forall in A; now apply A end.
  - cbn in E. destruct (negb (sizing_check sz (lenN l))); [discriminate E|]. apply bind_Ok in E as (l' & E & Q). injection Q as ->.
    apply typify_set_items in E as (ys & Y & E). cbn in Y. subst ys.
    apply Forall2_diag in E. rewrite Forall_forall in E. generalize (E x I). apply IH.
    inversion T; subst; match goal with F' : sys_find sys id = Some _ |- _ => rewrite F in F'; inversion F'; subst end.
    match goal with A : Forall _ l |- _ => rewrite Forall_forall in A; now apply A end.
  - cbn in E. destruct (negb (sizing_check sz (lenN l))); [discriminate E|]. apply bind_Ok in E as (l' & E & Q). injection Q as ->.
    apply typify_map_items in E as (ys & Y & E). cbn in Y. subst ys.
    apply Forall2_diag in E. rewrite Forall_forall in E. apply in_map_iff in I as (e & <- & Ie). destruct (E e Ie) as [X _]. revert X. apply IH.
    inversion T; subst; match goal with F' : sys_find sys id = Some _ |- _ => rewrite F in F'; inversion F'; subst end.
    match goal with A : Forall _ (map fst l) |- _ => rewrite Forall_forall in A; apply A; now apply in_map end.
  - cbn in E. destruct (negb (sizing_check sz (lenN l))); [discriminate E|]. apply bind_Ok in E as (l' & E & Q). injection Q as ->.
    apply typify_map_items in E as (ys & Y & E). cbn in Y. subst ys.
    apply Forall2_diag in E. rewrite Forall_forall in E. apply in_map_iff in I as (e & <- & Ie). destruct (E e Ie) as [_ X]. revert X. apply IH.
    inversion T; subst; match goal with F' : sys_find sys id = Some _ |- _ => rewrite F in F'; inversion F'; subst end.
    match goal with A : Forall _ (map snd l) |- _ => rewrite Forall_forall in A; apply A; now apply in_map end.
Qed.
End Exact.
