(** Extraction from type systems and their union. *)
From Coq Require Import NArith List Bool String Sorted Lia.
From Verif Require Import Base Ty Ids TypeSys Spec SpecSys TyProofs.
Import ListNotations.
Local Open Scope N_scope.

(** ** Ordered sets *)

Lemma os_insert_In k x s : In x (os_insert k s) <-> x = k \/ In x s.
Proof.
  induction s as [|y s IH]; cbn; [intuition|]. destruct (N.compare_spec k y); cbn; subst; [|intuition|]; [intuition|].
  rewrite IH. intuition.
Qed.

Lemma os_insert_sorted k s : StronglySorted N.lt s -> StronglySorted N.lt (os_insert k s).
Proof.
  induction 1 as [|y s S IH F]; cbn; [repeat constructor|].
  destruct (N.compare_spec k y) as [->|L|L].
  - now constructor.
  - constructor; [now constructor|]. constructor; [assumption|].
    eapply Forall_impl; [|exact F]. intros z Z. cbn in Z. lia.
  - constructor; [assumption|]. apply Forall_forall. intros z Z. apply os_insert_In in Z as [->|Z]; [assumption|].
    rewrite Forall_forall in F. auto.
Qed.

Lemma os_extend_In l : forall s x, In x (os_extend s l) <-> In x s \/ In x l.
Proof.
  unfold os_extend. induction l as [|k l IH]; intros s x; cbn; [intuition|]. rewrite IH, os_insert_In. intuition.
Qed.

Lemma os_extend_sorted l : forall s, StronglySorted N.lt s -> StronglySorted N.lt (os_extend s l).
Proof. unfold os_extend. induction l as [|k l IH]; intros s S; cbn; [assumption|]. apply IH. now apply os_insert_sorted. Qed.

Lemma os_mem_In k s : os_mem k s = true <-> In k s.
Proof.
  unfold os_mem. rewrite existsb_exists. split.
  - intros (x & I & E). apply N.eqb_eq in E. now subst.
  - intros I. exists k. split; [assumption|apply N.eqb_refl].
Qed.

Lemma sorted_NoDup l : StronglySorted N.lt l -> NoDup l.
Proof.
  induction 1 as [|x l S IH F]; constructor; auto. intros I. rewrite Forall_forall in F. specialize (F x I). lia.
Qed.

(** ** Ordered maps by id *)

Lemma ordered_keys (s : type_system) : ordered s -> StronglySorted N.lt (map fst s).
Proof.
  induction 1 as [|e s S IH F]; cbn; constructor; auto.
  apply Forall_forall. intros x I. apply in_map_iff in I as (e' & <- & I). rewrite Forall_forall in F. now apply F.
Qed.

Lemma keys_ordered (s : type_system) : StronglySorted N.lt (map fst s) -> ordered s.
Proof.
  induction s as [|e s IH]; cbn; intros S; constructor; inversion S; subst; [now apply IH|].
  apply Forall_forall. intros e' I. match goal with H : Forall _ _ |- _ => rewrite Forall_forall in H; apply H end.
  now apply in_map.
Qed.

Lemma ordered_unique (s : type_system) id t t' : ordered s -> In (id, t) s -> In (id, t') s -> t = t'.
Proof.
  induction 1 as [|e s S IH F]; [intros []|]. intros [->|I] [E|I'].
  - congruence.
  - rewrite Forall_forall in F. specialize (F _ I'). cbn in F. lia.
  - subst e. rewrite Forall_forall in F. specialize (F _ I). cbn in F. lia.
  - auto.
Qed.

Lemma sys_get_In (s : type_system) id t : ordered s -> sys_get s id = Some t <-> In (id, t) s.
Proof.
  unfold sys_get. induction 1 as [|[k v] s S IH F]; cbn; [split; [discriminate|intros []]|].
  destruct (N.compare_spec id k) as [->|L|L].
  - split; [intros [= ->]; auto|]. intros [[= ->]|I]; [reflexivity|].
    rewrite Forall_forall in F. specialize (F _ I). cbn in F. lia.
  - rewrite IH. split; [auto|]. intros [[= -> ->]|I]; [lia|assumption].
  - rewrite IH. split; [auto|]. intros [[= -> ->]|I]; [lia|assumption].
Qed.

Lemma sys_get_None (s : type_system) id : ordered s -> sys_get s id = None <-> ~ In id (map fst s).
Proof.
  intros O. split.
  - intros E I. apply in_map_iff in I as ([k t] & <- & I). apply sys_get_In in I; [|assumption]. cbn in E. congruence.
  - intros N. destruct (sys_get s id) as [t|] eqn:E; [|reflexivity]. apply sys_get_In in E; [|assumption].
    destruct N. apply in_map_iff. exists (id, t). auto.
Qed.

Lemma om_insert_keys id t (s : type_system) : map fst (om_insert N.compare id t s) = os_insert id (map fst s).
Proof. induction s as [|[k v] s IH]; cbn; [reflexivity|]. destruct (id ?= k); cbn; [reflexivity|reflexivity|]. now rewrite IH. Qed.

Lemma om_insert_ordered id t (s : type_system) : ordered s -> ordered (om_insert N.compare id t s).
Proof. intros O. apply keys_ordered. rewrite om_insert_keys. apply os_insert_sorted. now apply ordered_keys. Qed.

Lemma om_insert_In id t (s : type_system) e : ordered s ->
  In e (om_insert N.compare id t s) <-> e = (id, t) \/ In e s /\ fst e <> id.
Proof.
  induction 1 as [|[k v] s S IH F]; cbn; [intuition|]. rewrite Forall_forall in F.
  destruct (N.compare_spec id k) as [->|L|L]; cbn.
  - split.
    + intros [<-|I]; [auto|]. right. split; [auto|]. specialize (F _ I). cbn in F. lia.
    + intros [->|[[<-|I] N]]; auto. now destruct N.
  - split.
    + intros [<-|[<-|I]]; [auto| |]; right; (split; [auto|]); cbn; [lia|]. specialize (F _ I). cbn in F. lia.
    + intros [->|[I N]]; auto.
  - rewrite IH. split.
    + intros [<-|[->|[I N]]]; auto. right. split; [auto|]. cbn. lia.
    + intros [->|[[<-|I] N]]; auto.
Qed.

Lemma ordered_ext (s s' : type_system) : ordered s -> ordered s' -> (forall e, In e s <-> In e s') -> s = s'.
Proof.
  intros O. revert s'. induction O as [|e s S IH F]; intros s' O' H.
  - destruct s' as [|e s']; [reflexivity|]. destruct (proj2 (H e)). now left.
  - destruct O' as [|e' s' S' F']; [destruct (proj1 (H e)); now left|].
    rewrite Forall_forall in F, F'.
    assert (E : e = e').
    { destruct (proj1 (H e)) as [<-|I]; [now left|reflexivity|]. destruct (proj2 (H e')) as [<-|I']; [now left|reflexivity|].
      specialize (F _ I'). specialize (F' _ I). lia. }
    subst e'. f_equal. apply IH; [assumption|]. intros x. split; intros I.
    + destruct (proj1 (H x)) as [<-|I']; [now right| |assumption]. specialize (F _ I). lia.
    + destruct (proj2 (H x)) as [<-|I']; [now right| |assumption]. specialize (F' _ I). lia.
Qed.

(** ** Extraction *)

Record invariant (s : type_system) (roots ids found : list semid) (acc : type_system) : Prop := {
  i_ids : StronglySorted N.lt ids;
  i_keys : map fst acc = found;
  i_ord : ordered acc;
  i_sub : forall e, In e acc -> In e s;
  i_dis : forall id, In id ids -> ~ In id found;
  i_ids_re : forall id, In id ids -> reachable s roots id;
  i_found_re : forall id, In id found -> reachable s roots id;
  i_closed : forall id t r, In (id, t) acc -> In r (refs t) -> In r ids \/ In r found;
  i_roots : forall id, In id roots -> In id ids \/ In id found
}.

Lemma type_refs_fst c (s : type_system) id t : iterable (dbg c) s -> In (id, t) s ->
  exists l, @no_err unknown_type _ (type_refs (dbg c) t) = Ok l /\ map fst l = refs t.
Proof.
  intros I H. unfold iterable in I. rewrite Forall_forall in I. specialize (I _ H). cbn in I.
  destruct (type_refs_ok (dbg c) t) as (l & -> & E & _); [assumption|]. exists l. auto.
Qed.

Lemma invariant_step s roots id rest found acc t :
  ordered s -> invariant s roots (id :: rest) found acc -> In (id, t) s ->
  invariant s roots
    (os_extend rest (filter (fun r => negb (os_mem r (os_insert id found))) (refs t)))
    (os_insert id found) (om_insert N.compare id t acc).
Proof.
  intros O [A B C D E F G H I] T. inversion A as [|? ? A1 A2]; subst.
  assert (X : forall r, In r (os_extend rest (filter (fun r => negb (os_mem r (os_insert id (map fst acc)))) (refs t)))
              <-> In r rest \/ In r (refs t) /\ ~ In r (os_insert id (map fst acc))).
  { intros r. rewrite os_extend_In, filter_In. rewrite negb_true_iff.
    split; intros [K|[K1 K2]]; auto; right; (split; [assumption|]).
    - intros J. apply os_mem_In in J. congruence.
    - destruct os_mem eqn:Q; [|reflexivity]. now apply os_mem_In in Q. }
  constructor.
  - now apply os_extend_sorted.
  - apply om_insert_keys.
  - now apply om_insert_ordered.
  - intros e J. apply om_insert_In in J; [|assumption]. destruct J as [->|[J _]]; auto.
  - intros r J. apply X in J as [J|[_ J]]; [|assumption]. rewrite os_insert_In. intros [->|K].
    + rewrite Forall_forall in A2. specialize (A2 _ J). lia.
    + apply (E r); [now right|assumption].
  - intros r J. apply X in J as [J|[J _]]; [apply F; now right|]. eapply Re_ref; [apply F; now left|exact T|exact J].
  - intros r J. apply os_insert_In in J as [->|J]; [apply F; now left|auto].
  - intros k u r J K. rewrite X, !os_insert_In. apply om_insert_In in J; [|assumption]. destruct J as [[= -> ->]|[J _]].
    + destruct (in_dec N.eq_dec r (os_insert id (map fst acc))) as [Y|Y]; [rewrite os_insert_In in Y; auto|].
      rewrite os_insert_In in Y. left. right. auto.
    + destruct (H _ _ _ J K) as [[->|L]|L]; auto.
  - intros r J. rewrite X, !os_insert_In. destruct (I r J) as [[->|L]|L]; auto.
Qed.

Lemma os_insert_length k s : ~ In k s -> List.length (os_insert k s) = S (List.length s).
Proof.
  induction s as [|x s IH]; cbn; [reflexivity|]. intros N. destruct (N.compare_spec k x) as [->|L|L]; cbn.
  - destruct N. now left.
  - reflexivity.
  - rewrite IH; [reflexivity|]. intros I. apply N. now right.
Qed.

Lemma extract_loop_spec c s roots : ordered s -> iterable (dbg c) s ->
  forall fuel ids found acc, invariant s roots ids found acc ->
  (List.length s - List.length found < fuel)%nat ->
  (exists s', extract_loop fuel c s ids found acc = Ok s' /\ invariant s roots [] (map fst s') s')
  \/ (exists id, extract_loop fuel c s ids found acc = Err (UnknownType id) /\ reachable s roots id /\ ~ In id (map fst s)).
Proof.
  intros O IT. induction fuel as [|fuel IH]; intros ids found acc INV L; [lia|].
  destruct ids as [|id rest].
  - left. exists acc. cbn. split; [reflexivity|]. now rewrite (i_keys _ _ _ _ _ INV).
  - cbn [extract_loop]. destruct (sys_get s id) as [t|] eqn:G.
    + apply sys_get_In in G; [|assumption]. cbn [ok_or bind].
      destruct (type_refs_fst c s id t IT G) as (l & E1 & E2). rewrite E1. cbn [bind]. rewrite E2.
      pose proof (invariant_step s roots id rest found acc t O INV G) as INV'.
      apply IH; [assumption|].
      assert (NI : ~ In id found) by (apply (i_dis _ _ _ _ _ INV); now left).
      rewrite os_insert_length by assumption.
      assert (IN : incl (os_insert id found) (map fst s)).
      { intros k K. rewrite <- (i_keys _ _ _ _ _ INV') in K. apply in_map_iff in K as (e & <- & K).
        apply in_map. now apply (i_sub _ _ _ _ _ INV'). }
      assert (ND : NoDup (os_insert id found)).
      { apply sorted_NoDup. rewrite <- (i_keys _ _ _ _ _ INV'). apply ordered_keys, (i_ord _ _ _ _ _ INV'). }
      pose proof (NoDup_incl_length ND IN) as LE. rewrite os_insert_length, map_length in LE by assumption. unfold semid in *. lia.
    + right. exists id. split; [reflexivity|]. split; [apply (i_ids_re _ _ _ _ _ INV); now left|].
      now apply sys_get_None.
Qed.

Lemma invariant_init s ids : invariant s ids (os_extend [] ids) [] [].
Proof.
  constructor; cbn; try (intros; contradiction); auto.
  - apply os_extend_sorted. constructor.
  - constructor.
  - intros id I. apply os_extend_In in I as [[]|I]. now constructor.
  - intros id I. left. apply os_extend_In. auto.
Qed.

Lemma invariant_result s roots s' : ordered s -> invariant s roots [] (map fst s') s' ->
  forall id, In id (map fst s') <-> reachable s roots id.
Proof.
  intros O INV id. split; [apply (i_found_re _ _ _ _ _ INV)|]. induction 1 as [id I|id t r R IH T I].
  - destruct (i_roots _ _ _ _ _ INV id I) as [[]|J]; exact J.
  - apply in_map_iff in IH as ([k t'] & E & J). cbn in E. subst k.
    pose proof (ordered_unique s id t t' O T (i_sub _ _ _ _ _ INV _ J)). subst t'.
    destruct (i_closed _ _ _ _ _ INV _ _ _ J I) as [[]|K]; exact K.
Qed.

Definition extracted (s : type_system) (ids : list semid) (s' : type_system) : Prop :=
  ordered s' /\ forall id t, In (id, t) s' <-> reachable s ids id /\ In (id, t) s.

Lemma extract_spec c s ids : ordered s -> iterable (dbg c) s -> forall fuel, (List.length s < fuel)%nat ->
  (exists s', extract fuel c s ids = Ok s' /\ extracted s ids s' /\ (forall id, reachable s ids id -> In id (map fst s)))
  \/ (exists id, extract fuel c s ids = Err (UnknownType id) /\ reachable s ids id /\ ~ In id (map fst s)).
Proof.
  intros O IT fuel L. unfold extract.
  destruct (extract_loop_spec c s ids O IT fuel _ _ _ (invariant_init s ids)) as [(s' & E & INV)|H]; [cbn; lia| |auto].
  left. exists s'. split; [assumption|]. pose proof (invariant_result s ids s' O INV) as K.
  split; [split; [exact (i_ord _ _ _ _ _ INV)|]|].
  - intros id t. split.
    + intros J. split; [apply K; apply in_map_iff; exists (id, t); auto|]. now apply (i_sub _ _ _ _ _ INV).
    + intros [R J]. apply K in R. apply in_map_iff in R as ([k t'] & E' & J'). cbn in E'. subst k.
      pose proof (ordered_unique s id t t' O J (i_sub _ _ _ _ _ INV _ J')). now subst t'.
  - intros id R. apply K in R. apply in_map_iff in R as (e & <- & J). apply in_map. now apply (i_sub _ _ _ _ _ INV).
Qed.

Lemma extracted_unique s ids s1 s2 : extracted s ids s1 -> extracted s ids s2 -> s1 = s2.
Proof.
  intros [O1 H1] [O2 H2]. apply ordered_ext; auto. intros [id t]. now rewrite H1, H2.
Qed.

(** The outcome does not depend on the fuel. *)
Lemma extract_returns c s ids : ordered s -> iterable (dbg c) s ->
  (exists s', returns (fun fuel => extract fuel c s ids) (Ok s') /\ extracted s ids s' /\ (forall id, reachable s ids id -> In id (map fst s)))
  \/ (exists id, returns (fun fuel => extract fuel c s ids) (Err (UnknownType id)) /\ reachable s ids id /\ ~ In id (map fst s)).
Proof.
  intros O IT.
  assert (M : forall fuel ids found acc r, extract_loop fuel c s ids found acc = r -> r <> Diverge ->
     forall fuel', (fuel <= fuel')%nat -> extract_loop fuel' c s ids found acc = r).
  { induction fuel as [|fuel IH]; intros is found acc r E ND fuel' LE.
    - destruct is; cbn in E; [destruct fuel'; exact E|congruence].
    - destruct fuel' as [|fuel']; [lia|]. destruct is as [|id rest]; [exact E|]. cbn [extract_loop] in *.
      destruct (sys_get s id); cbn [ok_or bind] in *; [|exact E].
      destruct (no_err _) as [a| | |]; cbn [bind] in *; try exact E. apply IH with (r := r); auto. lia. }
  destruct (extract_spec c s ids O IT (S (List.length s)) (le_n _)) as [(s' & E & X)|(id & E & X)]; [left|right];
    eexists; (split; [|exact X]); exists (S (List.length s)); intros fuel LE; unfold extract in *;
    (eapply M; [exact E|discriminate|exact LE]).
Qed.

Lemma returns_fun {E A} (f : nat -> outcome E A) r r' : returns f r -> returns f r' -> r = r'.
Proof. intros [n H] [m K]. rewrite <- (H (Nat.max n m)), <- (K (Nat.max n m)) by lia. reflexivity. Qed.

Lemma extracted_reachable s ids s' : extracted s ids s' -> ordered s -> (forall id, reachable s ids id -> In id (map fst s)) ->
  forall id, reachable s' ids id <-> reachable s ids id.
Proof.
  intros [O' H] O K id. split.
  - induction 1 as [id I|id t r R IH T I]; [now constructor|]. apply H in T as [_ T]. eapply Re_ref; eauto.
  - induction 1 as [id I|id t r R IH T I]; [now constructor|]. eapply Re_ref; [exact IH| |exact I]. apply H. auto.
Qed.

Lemma extracted_iterable dbg s ids s' : extracted s ids s' -> iterable dbg s -> iterable dbg s'.
Proof.
  intros [_ H] I. unfold iterable in *. rewrite Forall_forall in *. intros [id t] J. apply H in J as [_ J]. exact (I _ J).
Qed.

Lemma extract_again c s ids s' : ordered s -> iterable (dbg c) s ->
  returns (fun fuel => extract fuel c s ids) (Ok s') -> returns (fun fuel => extract fuel c s' ids) (Ok s').
Proof.
  intros O IT R. destruct (extract_returns c s ids O IT) as [(s1 & R1 & X & K)|(id & R1 & _)];
    pose proof (returns_fun _ _ _ R R1) as E; [|discriminate]. injection E as <-.
  pose proof (extracted_reachable s ids s' X O K) as RE. destruct X as [O' H].
  destruct (extract_returns c s' ids O') as [(s2 & R2 & X2 & K2)|(id & R2 & N1 & N2)].
  - eapply extracted_iterable; [split; eassumption|assumption].
  - enough (E : s2 = s') by (rewrite E in R2; exact R2). destruct X2 as [O2 H2]. apply ordered_ext; auto. intros [id t].
    rewrite H2, RE, H. tauto.
  - exfalso. apply N2. apply RE in N1. pose proof (K _ N1) as I. apply in_map_iff in I as ([k t] & E & I). cbn in E. subst k.
    apply in_map_iff. exists (id, t). split; [reflexivity|]. apply H. auto.
Qed.

Lemma reachable_mono s ids ids' id : incl ids ids' -> reachable s ids id -> reachable s ids' id.
Proof. intros L. induction 1; [constructor; auto|eapply Re_ref; eauto]. Qed.

Lemma extract_mono c s ids ids' s' : ordered s -> iterable (dbg c) s -> incl ids ids' ->
  returns (fun fuel => extract fuel c s ids') (Ok s') ->
  exists s'', returns (fun fuel => extract fuel c s ids) (Ok s'') /\ incl s'' s'.
Proof.
  intros O IT L R. destruct (extract_returns c s ids' O IT) as [(s1 & R1 & X & K)|(id & R1 & _)];
    pose proof (returns_fun _ _ _ R R1) as E; [|discriminate]. injection E as <-.
  destruct (extract_returns c s ids O IT) as [(s2 & R2 & X2 & K2)|(id & R2 & N1 & N2)].
  - exists s2. split; [assumption|]. intros [id t] I. apply (proj2 X2) in I as [I1 I2]. apply (proj2 X).
    split; [|assumption]. eapply reachable_mono; eassumption.
  - destruct N2. apply K. eapply reachable_mono; eassumption.
Qed.

(** ** Extraction when some types have too many components to iterate over them *)

Lemma type_refs_cases c (s : type_system) id t : small s -> In (id, t) s ->
  (exists l, @no_err unknown_type _ (type_refs (dbg c) t) = Ok l /\ map fst l = refs t /\ lenN (refs t) <= if dbg c then 254 else 255)
  \/ @no_err unknown_type _ (type_refs (dbg c) t) = Panic /\ dbg c = true /\ lenN (refs t) = 255.
Proof.
  intros I H. unfold small in I. rewrite Forall_forall in I. specialize (I _ H). cbn in I.
  destruct (N.le_gt_cases (lenN (refs t)) (if dbg c then 254 else 255)) as [L|L].
  - left. destruct (type_refs_ok (dbg c) t L) as (l & -> & E & _). exists l. auto.
  - right. destruct (dbg c); [|lia]. assert (L' : lenN (refs t) = 255) by lia. rewrite (type_refs_panic t L'). auto.
Qed.

Lemma extract_loop_cases c s roots : ordered s -> small s ->
  forall fuel ids found acc, invariant s roots ids found acc -> iterable (dbg c) acc ->
  (List.length s - List.length found < fuel)%nat ->
  (exists s', extract_loop fuel c s ids found acc = Ok s' /\ invariant s roots [] (map fst s') s' /\ iterable (dbg c) s')
  \/ (exists id, extract_loop fuel c s ids found acc = Err (UnknownType id) /\ reachable s roots id /\ ~ In id (map fst s))
  \/ (extract_loop fuel c s ids found acc = Panic /\ dbg c = true /\ exists id t, reachable s roots id /\ In (id, t) s /\ lenN (refs t) = 255).
Proof.
  intros O SM. induction fuel as [|fuel IH]; intros ids found acc INV IT L; [lia|].
  destruct ids as [|id rest].
  - left. exists acc. cbn. split; [reflexivity|]. now rewrite (i_keys _ _ _ _ _ INV).
  - cbn [extract_loop]. destruct (sys_get s id) as [t|] eqn:G.
    + apply sys_get_In in G; [|assumption]. cbn [ok_or bind].
      destruct (type_refs_cases c s id t SM G) as [(l & E1 & E2 & LT)|(E1 & E2 & E3)].
      2:{ right; right. rewrite E1. split; [reflexivity|]. split; [exact E2|]. exists id, t. split; [|auto]. apply (i_ids_re _ _ _ _ _ INV). now left. }
      rewrite E1. cbn [bind]. rewrite E2.
      pose proof (invariant_step s roots id rest found acc t O INV G) as INV'.
      apply IH; [assumption| |].
      { unfold iterable in *. rewrite Forall_forall in *. intros [k u] J. apply om_insert_In in J; [|exact (i_ord _ _ _ _ _ INV)].
        destruct J as [[= -> ->]|[J _]]; [exact LT|exact (IT _ J)]. }
      assert (NI : ~ In id found) by (apply (i_dis _ _ _ _ _ INV); now left).
      rewrite os_insert_length by assumption.
      assert (IN : incl (os_insert id found) (map fst s)).
      { intros k K. rewrite <- (i_keys _ _ _ _ _ INV') in K. apply in_map_iff in K as (e & <- & K).
        apply in_map. now apply (i_sub _ _ _ _ _ INV'). }
      assert (ND : NoDup (os_insert id found)).
      { apply sorted_NoDup. rewrite <- (i_keys _ _ _ _ _ INV'). apply ordered_keys, (i_ord _ _ _ _ _ INV'). }
      pose proof (NoDup_incl_length ND IN) as LE. rewrite os_insert_length, map_length in LE by assumption. unfold semid in *. lia.
    + right; left. exists id. split; [reflexivity|]. split; [apply (i_ids_re _ _ _ _ _ INV); now left|].
      now apply sys_get_None.
Qed.

Lemma extract_loop_mono c s : forall fuel ids found acc r, extract_loop fuel c s ids found acc = r -> r <> Diverge ->
  forall fuel', (fuel <= fuel')%nat -> extract_loop fuel' c s ids found acc = r.
Proof.
  induction fuel as [|fuel IH]; intros is found acc r E ND fuel' LE.
  - destruct is; cbn in E; [destruct fuel'; exact E|congruence].
  - destruct fuel' as [|fuel']; [lia|]. destruct is as [|id rest]; [exact E|]. cbn [extract_loop] in *.
    destruct (sys_get s id); cbn [ok_or bind] in *; [|exact E].
    destruct (no_err _) as [a| | |]; cbn [bind] in *; try exact E. apply IH with (r := r); auto. lia.
Qed.

Lemma extract_cases c s ids : ordered s -> small s ->
  (exists s', returns (fun fuel => extract fuel c s ids) (Ok s') /\ extracted s ids s' /\ iterable (dbg c) s' /\ (forall id, reachable s ids id -> In id (map fst s)))
  \/ (exists id, returns (fun fuel => extract fuel c s ids) (Err (UnknownType id)) /\ reachable s ids id /\ ~ In id (map fst s))
  \/ (returns (fun fuel => extract fuel c s ids) Panic /\ dbg c = true /\ exists id t, reachable s ids id /\ In (id, t) s /\ lenN (refs t) = 255).
Proof.
  intros O SM.
  assert (M : forall r, extract_loop (S (List.length s)) c s (os_extend [] ids) [] [] = r -> r <> Diverge -> returns (fun fuel => extract fuel c s ids) r).
  { intros r E ND. exists (S (List.length s)). intros fuel LE. unfold extract. eapply extract_loop_mono; eassumption. }
  destruct (extract_loop_cases c s ids O SM (S (List.length s)) _ _ _ (invariant_init s ids)) as [(s' & E & INV & IT)|[(id & E & X)|(E & X)]];
    [constructor|cbn; lia|left|right; left|right; right].
  - exists s'. split; [apply M; [exact E|discriminate]|]. pose proof (invariant_result s ids s' O INV) as K.
    split; [split; [exact (i_ord _ _ _ _ _ INV)|]|split; [exact IT|]].
    + intros id t. split.
      * intros J. split; [apply K; apply in_map_iff; exists (id, t); auto|]. now apply (i_sub _ _ _ _ _ INV).
      * intros [R J]. apply K in R. apply in_map_iff in R as ([k t'] & E' & J'). cbn in E'. subst k.
        pose proof (ordered_unique s id t t' O J (i_sub _ _ _ _ _ INV _ J')). now subst t'.
    + intros id R. apply K in R. apply in_map_iff in R as (e & <- & J). apply in_map. now apply (i_sub _ _ _ _ _ INV).
  - exists id. split; [apply M; [exact E|discriminate]|exact X].
  - split; [apply M; [exact E|discriminate]|exact X].
Qed.

(** ** Union *)


Lemma om_insert_length_le id t (s : type_system) :
  (List.length s <= List.length (om_insert N.compare id t s) <= S (List.length s))%nat.
Proof.
  induction s as [|[k v] s IH]; cbn; [lia|]. destruct (id ?= k); cbn [List.length]; unfold type_system, semid in *; lia.
Qed.

Lemma sys_extend_spec other : forall s, ordered s -> ordered other ->
  match sys_extend s other with
  | Ok s' => ordered s' /\ forall id t, In (id, t) s' <-> In (id, t) other \/ In (id, t) s /\ ~ In id (map fst other)
  | Err _ => u24_max <= lenN s + lenN other \/ u24_max < lenN s
  | _ => False
  end.
Proof.
  induction other as [|[id t] other IH]; intros s O OO; cbn [sys_extend].
  - split; [assumption|]. intros id t. cbn. tauto.
  - unfold insert_unchecked, confined_insert. match goal with |- context [?x =? u24_max] => destruct (N.eqb_spec x u24_max) as [E|E] end; cbn [bind].
    + left. unfold lenN, semid in *. lia.
    + inversion OO as [|? ? OO1 OO2]; subst. specialize (IH _ (om_insert_ordered id t s O) OO1).
      destruct sys_extend as [s'|e| |] eqn:X; auto.
      * destruct IH as [O' H]. split; [assumption|]. intros k u. rewrite H, om_insert_In by assumption. cbn.
        assert (NI : forall u, ~ In (id, u) other).
        { intros v I. rewrite Forall_forall in OO2. specialize (OO2 _ I). cbn in OO2. lia. }
        assert (NK : ~ In id (map fst other)).
        { intros I. apply in_map_iff in I as ([? v] & Q & I). cbn in Q. subst. now apply (NI v). }
        split.
        -- intros [I|[[[= -> ->]|[I N]] M]]; auto. right. split; [assumption|]. intros [Q|Q]; auto.
        -- intros [[[= -> ->]|I]|[I N]]; auto. right. split; [|tauto]. right. split; [assumption|]. intros Q. apply N. now left.
      * assert (LE := om_insert_length_le id t s). unfold lenN in *. cbn [List.length] in *. unfold type_system, semid in *. lia.
Qed.

Lemma sys_extend_fits other : forall s, lenN s + lenN other <= u24_max -> exists s', sys_extend s other = Ok s'.
Proof.
  induction other as [|[id t] other IH]; intros s L; cbn [sys_extend]; [eauto|].
  unfold insert_unchecked, confined_insert. unfold lenN, type_system, semid in *. cbn [List.length] in L.
  match goal with |- context [?x =? u24_max] => destruct (N.eqb_spec x u24_max) as [E|E] end; [lia|]. cbn [bind]. apply IH.
  assert (LE := om_insert_length_le id t s). unfold type_system, semid in *. lia.
Qed.
