(** Ordered maps with any lawful comparison of keys. *)
From Coq Require Import NArith List Bool String Sorted Lia.
From Verif Require Import Base TypeSys LibCodec SpecLib LibCodecProofs.
Import ListNotations.
Local Open Scope N_scope.

Record lawful {K} (cmp : K -> K -> comparison) : Prop := {
  law_eq : forall a b, cmp a b = Eq <-> a = b;
  law_gt : forall a b, cmp a b = Gt <-> cmp b a = Lt;
  law_trans : forall a b c, cmp a b = Lt -> cmp b c = Lt -> cmp a c = Lt
}.
Definition msorted {K V} (cmp : K -> K -> comparison) (m : list (K * V)) : Prop :=
  StronglySorted (fun a b => cmp (fst a) (fst b) = Lt) m.

Section Maps.
Context {K V : Type} (cmp : K -> K -> comparison) (L : lawful cmp).
Implicit Types (m : list (K * V)).

Lemma cmp_refl a : cmp a a = Eq.
Proof. now apply (law_eq _ L). Qed.
Lemma cmp_irrefl a : cmp a a <> Lt.
Proof. rewrite cmp_refl. discriminate. Qed.
Lemma cmp_case a b : a = b \/ cmp a b = Lt \/ cmp b a = Lt.
Proof.
  destruct (cmp a b) eqn:C; [left; now apply (law_eq _ L)|right; now left|right; right; now apply (law_gt _ L)].
Qed.

Lemma mins_In k (v : V) m e : In e (om_insert cmp k v m) -> e = (k, v) \/ In e m.
Proof.
  induction m as [|[k' v'] m IH]; cbn.
  - intros [<-|[]]. now left.
  - destruct (cmp k k') eqn:C; cbn; intros [<-|I]; auto.
    + apply (law_eq _ L) in C as ->. now left.
    + apply IH in I as [->|I]; auto.
Qed.
Lemma mins_sorted k (v : V) m : msorted cmp m -> msorted cmp (om_insert cmp k v m).
Proof.
  unfold msorted. induction 1 as [|[k' v'] m S IH F]; cbn.
  - repeat constructor.
  - destruct (cmp k k') eqn:C.
    + constructor; assumption.
    + constructor; [constructor; assumption|]. constructor; [exact C|]. eapply Forall_impl; [|exact F].
      cbn. intros a. now apply (law_trans _ L).
    + apply (law_gt _ L) in C. constructor; [exact IH|]. rewrite Forall_forall in *. intros e I. apply mins_In in I as [->|I]; cbn; [exact C|].
      now apply F.
Qed.
Lemma mget_In k (v : V) m : msorted cmp m -> (om_get cmp k m = Some v <-> In (k, v) m).
Proof.
  unfold msorted. induction 1 as [|[k1 v1] m S IH F]; cbn; [split; [discriminate|intros []]|].
  rewrite Forall_forall in F.
  destruct (cmp k k1) eqn:C.
  - apply (law_eq _ L) in C. subst k1. split; [intros [= ->]; now left|]. intros [[= <-]|I]; [reflexivity|].
    apply F in I. cbn in I. now apply cmp_irrefl in I.
  - rewrite IH. split; [now right|]. intros [[= -> ->]|I]; [now apply cmp_irrefl in C|exact I].
  - rewrite IH. split; [now right|]. intros [[= -> ->]|I]; [rewrite cmp_refl in C; discriminate|exact I].
Qed.
Lemma mget_none k m : om_get cmp k m = None <-> ~ In k (map fst m).
Proof.
  induction m as [|[k1 v1] m IH]; cbn; [tauto|].
  destruct (cmp k k1) eqn:C.
  - apply (law_eq _ L) in C. subst. split; [discriminate|]. intros N. exfalso. apply N. now left.
  - rewrite IH. split; [|tauto]. intros N [->|I]; [now apply cmp_irrefl in C|tauto].
  - rewrite IH. split; [|tauto]. intros N [->|I]; [rewrite cmp_refl in C; discriminate|tauto].
Qed.
Lemma mget_key k m : In k (map fst m) -> exists v, om_get cmp k m = Some v.
Proof. intros I. destruct (om_get cmp k m) as [v|] eqn:G; [now exists v|]. now apply mget_none in G. Qed.
Lemma mget_ins k (v : V) m k' : msorted cmp m ->
  om_get cmp k' (om_insert cmp k v m) = match cmp k' k with Eq => Some v | _ => om_get cmp k' m end.
Proof.
  unfold msorted. induction 1 as [|[k1 v1] m S IH F]; cbn; [reflexivity|].
  destruct (cmp k k1) eqn:C; cbn.
  - apply (law_eq _ L) in C. subst. destruct (cmp k' k1); reflexivity.
  - destruct (cmp k' k) eqn:D; [reflexivity| |reflexivity]. destruct (cmp k' k1); reflexivity.
  - rewrite IH. destruct (cmp k' k1) eqn:D; [|reflexivity|reflexivity].
    apply (law_eq _ L) in D. subst. apply (law_gt _ L) in C. rewrite C. reflexivity.
Qed.
Lemma mins_keys k (v : V) m k' : msorted cmp m -> (In k' (map fst (om_insert cmp k v m)) <-> k' = k \/ In k' (map fst m)).
Proof.
  intros S. pose proof (mget_ins k v m k' S) as G. split; intros I.
  - apply mget_key in I as (w & E). rewrite G in E. destruct (cmp k' k) eqn:C.
    + left. now apply (law_eq _ L).
    + right. apply mget_In in E; [|exact S]. now apply (in_map fst) in E.
    + right. destruct (om_get cmp k' m) as [x|] eqn:Q; [|discriminate]. apply mget_In in Q; [|exact S]. now apply (in_map fst) in Q.
  - destruct (om_get cmp k' (om_insert cmp k v m)) as [x|] eqn:Q.
    + apply mget_In in Q; [|now apply mins_sorted]. now apply (in_map fst) in Q.
    + destruct (cmp k' k) eqn:C; [discriminate| |].
      * destruct I as [->|I]; [now apply cmp_irrefl in C|]. symmetry in G. now apply mget_none in G.
      * destruct I as [->|I]; [rewrite cmp_refl in C; discriminate|]. symmetry in G. now apply mget_none in G.
Qed.
Lemma msorted_NoDup m : msorted cmp m -> NoDup (map fst m).
Proof.
  unfold msorted. induction 1 as [|[k v] m S IH F]; cbn; constructor; [|assumption].
  rewrite in_map_iff. intros (e & E & I). rewrite Forall_forall in F. apply F in I. cbn in *. subst k. now apply cmp_irrefl in I.
Qed.
Lemma mins_same k (v : V) m : msorted cmp m -> om_get cmp k m = Some v -> om_insert cmp k v m = m.
Proof.
  unfold msorted. induction 1 as [|[k1 v1] m S IH F]; cbn; [discriminate|].
  destruct (cmp k k1) eqn:C.
  - intros [= ->]. reflexivity.
  - intros G. rewrite mget_In in G by exact S. rewrite Forall_forall in F. apply F in G. cbn in G.
    apply (law_trans _ L _ _ _ C) in G. now apply cmp_irrefl in G.
  - intros G. now rewrite IH.
Qed.
(** The order of keys is determined by their set. *)
Lemma keys_eq (l l' : list K) : StronglySorted (fun a b => cmp a b = Lt) l -> StronglySorted (fun a b => cmp a b = Lt) l' ->
  (forall k, In k l <-> In k l') -> l = l'.
Proof.
  intros S. revert l'. induction S as [|x l S IH F]; intros l' S' E.
  - destruct l' as [|y l']; [reflexivity|]. exfalso. apply (E y). now left.
  - destruct S' as [|y l' S' F']; [exfalso; apply (E x); now left|]. rewrite Forall_forall in F, F'.
    assert (x = y).
    { destruct (proj1 (E x) (or_introl eq_refl)) as [->|I]; [reflexivity|].
      destruct (proj2 (E y) (or_introl eq_refl)) as [->|I']; [reflexivity|].
      apply F' in I. apply F in I'. pose proof (law_trans _ L _ _ _ I I') as X. now apply cmp_irrefl in X. }
    subst y. f_equal. apply IH; [exact S'|]. intros z. specialize (E z). cbn in E. split; intros I.
    + destruct (proj1 E (or_intror I)) as [->|I']; [|exact I']. apply F in I. now apply cmp_irrefl in I.
    + destruct (proj2 E (or_intror I)) as [->|I']; [|exact I']. apply F' in I. now apply cmp_irrefl in I.
Qed.
Lemma msorted_keys m : msorted cmp m -> StronglySorted (fun a b => cmp a b = Lt) (map fst m).
Proof. unfold msorted. induction 1 as [|e m S IH F]; cbn; constructor; [exact IH|]. now rewrite Forall_map. Qed.
Lemma msorted_eq m m' : msorted cmp m -> msorted cmp m' -> (forall k v, In (k, v) m <-> In (k, v) m') -> m = m'.
Proof.
  intros S S' E.
  assert (KE : map fst m = map fst m').
  { apply keys_eq; auto using msorted_keys. intros k. rewrite !in_map_iff. split; intros ([k' v] & <- & I); exists (k', v); (split; [reflexivity|now apply E]). }
  pose proof (msorted_NoDup _ S') as ND. clear S S'.
  revert m' E KE ND. induction m as [|[k v] m IH]; intros [|[k' v'] m'] E KE ND; try discriminate KE; [reflexivity|].
  cbn in KE, ND. injection KE as -> KE. inversion ND as [|? ? N ND']; subst.
  assert (v = v').
  { destruct (proj1 (E k' v) (or_introl eq_refl)) as [[= ->]|I]; [reflexivity|]. exfalso. apply N. now apply (in_map fst) in I. }
  subst v'. f_equal. apply IH; auto. intros a b. specialize (E a b). cbn in E. split; intros I.
  - destruct (proj1 E (or_intror I)) as [[= <- <-]|I']; [|exact I']. exfalso. apply N. rewrite <- KE. now apply (in_map fst) in I.
  - destruct (proj2 E (or_intror I)) as [[= <- <-]|I']; [|exact I']. exfalso. apply N. now apply (in_map fst) in I.
Qed.
Lemma msorted_filter f m : msorted cmp m -> msorted cmp (filter f m).
Proof.
  unfold msorted. induction 1 as [|e m S IH F]; cbn; [constructor|]. destruct (f e); [|exact IH].
  constructor; [exact IH|]. rewrite Forall_forall in *. intros x I. apply filter_In in I as [I _]. now apply F.
Qed.
End Maps.

Lemma N_lawful : lawful N.compare.
Proof.
  split.
  - apply N.compare_eq_iff.
  - intros a b. rewrite N.compare_gt_iff, N.compare_lt_iff. reflexivity.
  - intros a b c. rewrite !N.compare_lt_iff. lia.
Qed.
Lemma string_lawful : lawful String.compare.
Proof.
  split.
  - apply String.compare_eq_iff || (intros a b; split; [apply String.compare_eq_iff|intros ->; induction b as [|c b IH]; cbn; [reflexivity|]; unfold Ascii.compare; now rewrite N.compare_refl]).
  - apply string_gt_lt.
  - apply string_lt_trans.
Qed.
