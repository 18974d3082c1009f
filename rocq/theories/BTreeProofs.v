(** Insertion of variants into search trees, in the order of tags. *)
From Coq Require Import NArith Arith List Bool String Strings.Byte Sorted Lia.
From Verif Require Import Base Sha256 Ty Ids TypeSys Typify LibCodec SpecIds SpecLib LibCodecProofs.
Import ListNotations.
Local Open Scope N_scope.

Definition up_items {E} (up : list (list (list E * E))) : list E := flat_map node_items (rev up).

Lemma up_items_cons {E} n (up : list (list (list E * E))) : up_items (n :: up) = (up_items up ++ node_items n)%list.
Proof. unfold up_items. cbn [rev]. rewrite flat_map_app. cbn [flat_map]. now rewrite app_nil_r. Qed.
Lemma node_items_app {E} (a b : list (list E * E)) : node_items (a ++ b)%list = (node_items a ++ node_items b)%list.
Proof. apply flat_map_app. Qed.
Lemma node_items_one {E} (s : list E * E) : node_items [s] = (fst s ++ [snd s])%list.
Proof. unfold node_items. cbn [flat_map]. apply app_nil_r. Qed.

Lemma up_push_items {E} (up : list (list (list E * E))) : forall s, up_items (up_push s up) = (up_items up ++ fst s ++ [snd s])%list.
Proof.
  induction up as [|n up IH]; intros s; cbn [up_push].
  - rewrite up_items_cons. cbn [up_items rev flat_map app]. apply node_items_one.
  - destruct (Nat.ltb (List.length n) 11).
    + rewrite !up_items_cons, node_items_app, node_items_one. now rewrite <- !app_assoc.
    + destruct (skipn 6 n) as [|m r] eqn:K.
      * rewrite !up_items_cons, node_items_app, node_items_one. now rewrite <- !app_assoc.
      * rewrite !up_items_cons, IH. cbn [fst snd]. rewrite <- (firstn_skipn 6 n) at 2. rewrite K.
        change (m :: r) with ([m] ++ r)%list. rewrite !node_items_app, !node_items_one. now rewrite <- !app_assoc.
Qed.

Lemma bt_push_items {E} (e : E) t : bt_items (bt_push e t) = (bt_items t ++ [e])%list.
Proof.
  unfold bt_items, bt_push. destruct (Nat.ltb (List.length (bt_leaf t)) 11); cbn [bt_up bt_leaf]; [now rewrite app_assoc|].
  destruct (skipn 6 (bt_leaf t)) as [|m r] eqn:K; cbn [bt_up bt_leaf]; [now rewrite app_assoc|].
  fold (up_items (up_push (firstn 6 (bt_leaf t), m) (bt_up t))). rewrite up_push_items. cbn [fst snd]. fold (up_items (bt_up t)).
  rewrite <- (firstn_skipn 6 (bt_leaf t)) at 2. rewrite K. now rewrite <- !app_assoc.
Qed.

(** An equal key: its value is replaced. *)
Definition replaced {K V} (cmp : K -> K -> comparison) k v (l l' : list (K * V)) : Prop :=
  exists l1 k' v' l2, l = (l1 ++ (k', v') :: l2)%list /\ cmp k k' = Eq /\ l' = (l1 ++ (k', v) :: l2)%list.

Lemma replaced_app {K V} cmp k v (l l' a b : list (K * V)) : replaced cmp k v l l' -> replaced cmp k v (a ++ l ++ b) (a ++ l' ++ b).
Proof.
  intros (l1 & k' & v' & l2 & -> & E & ->). exists (a ++ l1)%list, k', v', (l2 ++ b)%list. rewrite <- !app_assoc. cbn [app]. auto.
Qed.

Lemma leaf_set_cases {K V} cmp k v (l : list (K * V)) :
  match leaf_set cmp k v l with Some l' => replaced cmp k v l l' | None => Forall (fun e => cmp k (fst e) <> Eq) l end.
Proof.
  induction l as [|e l IH]; cbn [leaf_set]; [constructor|].
  destruct (cmp k (fst e)) eqn:C.
  - exists [], (fst e), (snd e), l. rewrite <- surjective_pairing. auto.
  - destruct (leaf_set cmp k v l) as [l'|]; cbn [option_map]; [|constructor; [congruence|exact IH]].
    apply (replaced_app cmp k v _ _ [e] []) in IH. rewrite !app_nil_r in IH. exact IH.
  - destruct (leaf_set cmp k v l) as [l'|]; cbn [option_map]; [|constructor; [congruence|exact IH]].
    apply (replaced_app cmp k v _ _ [e] []) in IH. rewrite !app_nil_r in IH. exact IH.
Qed.

Lemma node_set_some {K V} cmp k v (n n' : list (list (K * V) * (K * V))) : node_set cmp k v n = Some n' -> replaced cmp k v (node_items n) (node_items n').
Proof.
  revert n'; induction n as [|s n IH]; intros n' E; cbn [node_set] in E; [discriminate|].
  assert (T : forall n1, node_set cmp k v n = Some n1 -> replaced cmp k v (node_items (s :: n)) (node_items (s :: n1))).
  { intros n1 E1. apply IH, (replaced_app cmp k v _ _ (fst s ++ [snd s])%list []) in E1. rewrite !app_nil_r in E1. exact E1. }
  destruct (cmp k (fst (snd s))) eqn:C.
  - injection E as <-. exists (fst s), (fst (snd s)), (snd (snd s)), (node_items n). unfold node_items. cbn [flat_map fst snd].
    rewrite <- surjective_pairing, <- !app_assoc. auto.
  - destruct (node_set cmp k v n); [|discriminate]. injection E as <-. now apply T.
  - destruct (node_set cmp k v n); [|discriminate]. injection E as <-. now apply T.
Qed.

Lemma up_set_some {K V} cmp k v (up up' : list (list (list (K * V) * (K * V)))) : up_set cmp k v up = Some up' ->
  replaced cmp k v (up_items up) (up_items up') /\ up <> [].
Proof.
  revert up'; induction up as [|n up IH]; intros up' E; cbn [up_set] in E; [discriminate|]. split; [|discriminate].
  destruct (up_set cmp k v up) as [u|].
  - injection E as <-. destruct (IH u eq_refl) as [H _]. rewrite !up_items_cons.
    now apply (replaced_app cmp k v _ _ []) with (b := node_items n) in H.
  - destruct (node_set cmp k v n) as [n'|] eqn:N; [|discriminate]. injection E as <-. apply node_set_some in N. rewrite !up_items_cons.
    apply (replaced_app cmp k v _ _ (up_items up) []) in N. now rewrite !app_nil_r in N.
Qed.

(** Insertion adds the entry at the end, or replaces a value. While all entries are in one node, no two keys are equal. *)
Lemma bt_insert_cases {K V} cmp (k : K) (v : V) t :
  bt_items (bt_insert cmp k v t) = (bt_items t ++ [(k, v)])%list /\ (bt_up t = [] -> Forall (fun e => cmp k (fst e) <> Eq) (bt_items t))
    /\ bt_insert cmp k v t = bt_push (k, v) t
  \/ replaced cmp k v (bt_items t) (bt_items (bt_insert cmp k v t)) /\ (bt_up (bt_insert cmp k v t) = [] <-> bt_up t = []).
Proof.
  unfold bt_insert. destruct (up_set cmp k v (bt_up t)) as [u|] eqn:U.
  - right. apply up_set_some in U as [R N]. split.
    + unfold bt_items. cbn [bt_up bt_leaf]. fold (up_items u). fold (up_items (bt_up t)). now apply (replaced_app cmp k v _ _ []).
    + cbn [bt_up]. split; [|congruence]. intros ->. destruct R as (l1 & ? & ? & ? & _ & _ & R). cbn in R. destruct l1; discriminate.
  - pose proof (leaf_set_cases cmp k v (bt_leaf t)) as L. destruct (leaf_set cmp k v (bt_leaf t)) as [l|].
    + right. split; [|reflexivity]. unfold bt_items. cbn [bt_up bt_leaf]. apply (replaced_app cmp k v _ _ (up_items (bt_up t)) []) in L. rewrite !app_nil_r in L. exact L.
    + left. split; [apply bt_push_items|]. split; [|reflexivity]. intros E. unfold bt_items. rewrite E. cbn [rev flat_map app]. exact L.
Qed.

Lemma bt_insert_new {K V} cmp (k : K) (v : V) t : Forall (fun e => cmp k (fst e) <> Eq) (bt_items t) ->
  bt_items (bt_insert cmp k v t) = (bt_items t ++ [(k, v)])%list.
Proof.
  intros F. destruct (bt_insert_cases cmp k v t) as [[H _]|[(l1 & k' & v' & l2 & E & C & _) _]]; [exact H|].
  rewrite E in F. apply Forall_app in F as [_ F]. inversion F; subst. now destruct H1.
Qed.

(** A tree with more than one node has more than eleven entries. *)
Definition grown {E} (t : btree E) : Prop := bt_up t <> [] -> (11 < List.length (bt_items t))%nat.

Lemma grown_push {E} (e : E) t : grown t -> grown (bt_push e t).
Proof.
  unfold grown. intros G U. rewrite bt_push_items, app_length. cbn [List.length].
  destruct (bt_up t) as [|n up] eqn:T; [|specialize (G ltac:(discriminate)); lia].
  unfold bt_push in U. destruct (Nat.ltb_spec (List.length (bt_leaf t)) 11) as [L|L]; cbn [bt_up] in U; [congruence|].
  unfold bt_items. rewrite T. cbn [rev flat_map app]. lia.
Qed.

Lemma replaced_length {K V} cmp k v (l l' : list (K * V)) : replaced cmp k v l l' -> List.length l' = List.length l.
Proof. intros (l1 & k' & v' & l2 & -> & _ & ->). rewrite !app_length. reflexivity. Qed.
Lemma replaced_keys {K V} cmp k v (l l' : list (K * V)) : replaced cmp k v l l' -> map fst l' = map fst l.
Proof. intros (l1 & k' & v' & l2 & -> & _ & ->). rewrite !map_app. reflexivity. Qed.

(** ** Variants *)

Definition vok (v : variant) : Prop := field_name (v_name v) /\ v_tag v < 256.
Definition names {R} (l : list (variant * R)) : list string := map v_name (map fst l).
Definition tags {R} (l : list (variant * R)) : list N := map v_tag (map fst l).

Definition good {R} (ok : R -> Prop) (t : btree (variant * R)) : Prop :=
  StronglySorted N.lt (tags (bt_items t)) /\ Forall (fun e => vok (fst e) /\ ok (snd e)) (bt_items t)
  /\ grown t /\ (bt_up t = [] -> NoDup (names (bt_items t))).

Lemma good_few {R} ok (t : btree (variant * R)) : good ok t -> few_distinct (names (bt_items t)).
Proof.
  intros (_ & _ & G & N) L. apply N. destruct (bt_up t) as [|n u] eqn:E; [reflexivity|]. unfold grown in G. rewrite E in G.
  specialize (G ltac:(discriminate)). unfold names, lenN in L. rewrite !map_length in L. lia.
Qed.

Lemma sorted_snoc l n : StronglySorted N.lt l -> Forall (fun x => x < n) l -> StronglySorted N.lt (l ++ [n])%list.
Proof.
  induction l as [|x l IH]; intros S F; cbn; [repeat constructor|]. inversion S; inversion F; subst. constructor; auto. apply Forall_app. auto.
Qed.

Lemma good_insert {R} (ok : R -> Prop) (enc : variant * R -> bytes) t k v :
  (forall k k' v v', (List.length (enc (k, v)) < List.length (enc (k, v')) + List.length (enc (k', v)))%nat) ->
  good ok t -> Forall (fun x => x < v_tag k) (tags (bt_items t)) -> vok k -> ok v ->
  let t' := bt_insert variant_cmp k v t in
  good ok t'
  /\ (bt_items t' = (bt_items t ++ [(k, v)])%list
      \/ (List.length (bt_items t') = List.length (bt_items t)
          /\ List.length (flat_map enc (bt_items t')) < List.length (flat_map enc (bt_items t)) + List.length (enc (k, v)))%nat)
  /\ incl (tags (bt_items t')) (v_tag k :: tags (bt_items t)).
Proof.
  intros EL (S & F & G & N) B K V. cbn zeta.
  destruct (bt_insert_cases variant_cmp k v t) as [(I & D & P)|[RP U]].
  - rewrite I. split; [split; [|split; [|split]]|split; [auto|]].
    + rewrite I. unfold tags in *. rewrite !map_app. cbn [map fst]. now apply sorted_snoc.
    + rewrite I. apply Forall_app. auto.
    + rewrite P. now apply grown_push.
    + intros E. rewrite I. assert (E0 : bt_up t = []).
      { destruct (bt_up t) as [|n u] eqn:T; [reflexivity|]. rewrite P in E. unfold bt_push in E. rewrite T in E.
        destruct (Nat.ltb _ _); [discriminate|]. destruct (skipn 6 (bt_leaf t)); [discriminate|]. cbn [bt_up up_push] in E.
        destruct (Nat.ltb _ _); [discriminate|]. destruct (skipn 6 n); discriminate. }
      specialize (N E0). specialize (D E0). unfold names in *. rewrite !map_app. cbn [map fst].
      apply (NoDup_Add (a := v_name k) (l := map v_name (map fst (bt_items t)))).
      * rewrite <- (app_nil_r (map v_name (map fst (bt_items t)))) at 1. apply Add_app.
      * split; [exact N|]. intros J. rewrite map_map in J. apply in_map_iff in J as (e & E1 & J). rewrite Forall_forall in D. apply (D e J).
        unfold variant_cmp. rewrite E1, String.eqb_refl, orb_true_r. reflexivity.
    + unfold tags. rewrite !map_app. cbn [map fst]. intros x J. apply in_app_or in J as [J|[J|[]]]; [right; exact J|left; exact J].
  - pose proof (replaced_keys _ _ _ _ _ RP) as KS. pose proof (replaced_length _ _ _ _ _ RP) as LS.
    split; [split; [|split; [|split]]|split; [right|]].
    + unfold tags in *. now rewrite KS.
    + destruct RP as (l1 & k' & v' & l2 & E1 & _ & ->). rewrite E1 in F. apply Forall_app in F as [F1 F2]. inversion F2; subst.
      apply Forall_app. split; auto. constructor; auto. cbn [fst snd] in *. tauto.
    + unfold grown in *. rewrite LS. intros X. apply G. intros Y. apply X. now apply U.
    + intros X. unfold names in *. rewrite KS. apply N. now apply U.
    + split; [exact LS|]. destruct RP as (l1 & k' & v' & l2 & E1 & _ & ->). rewrite E1. rewrite !flat_map_app, !app_length. cbn [flat_map]. rewrite !app_length.
      pose proof (EL k' k v v'). lia.
    + unfold tags. rewrite KS. intros x J. right. exact J.
Qed.

Lemma tags_bound {R} (l : list (variant * R)) k : StronglySorted N.lt (tags l) ->
  match last_key l with Some k' => variant_cmp k k' = Gt | None => True end -> Forall (fun x => x < v_tag k) (tags l).
Proof.
  intros S H. destruct (last_key_cases l) as [[-> _]|(l' & e & -> & E)]; [constructor|]. rewrite E in H. apply variant_cmp_gt in H as [H _].
  unfold tags in *. rewrite !map_app in *. cbn [map] in *. apply Forall_app. split; [|auto].
  apply Forall_forall. intros x X. assert (x < v_tag (fst e)); [|lia].
  clear - S X. induction (map v_tag (map fst l')) as [|y ys IH]; [destruct X|]. cbn [app] in S. inversion S as [|? ? S1 S2]; subst.
  destruct X as [->|X]; [|auto]. rewrite Forall_forall in S2. apply S2. apply in_or_app. right. now left.
Qed.

Lemma app_bounds {R} (l : list (variant * R)) e l2 : StronglySorted N.lt (tags (l ++ e :: l2)) -> NoDup (names (l ++ e :: l2)) ->
  Forall (fun x => variant_cmp (fst e) (fst x) = Gt) l.
Proof.
  intros S N. apply Forall_forall. intros x X. apply variant_cmp_gt. split.
  - unfold tags in S. rewrite !map_app in S. cbn [map] in S. apply (in_map fst), (in_map v_tag) in X. clear N.
    induction (map v_tag (map fst l)) as [|y ys IH]; [destruct X|]. cbn [app] in S. inversion S as [|? ? S1 S2]; subst.
    destruct X as [->|X]; [|auto]. rewrite Forall_forall in S2. apply S2. apply in_or_app. right. now left.
  - unfold names in N. rewrite !map_app in N. cbn [map] in N. apply NoDup_remove_2 in N. intros E. apply N. apply in_or_app. left.
    rewrite <- E. now apply in_map, in_map.
Qed.

Lemma insert_end {R} t (e : variant * R) l : StronglySorted N.lt (tags (bt_items t ++ e :: l)) -> NoDup (names (bt_items t ++ e :: l)) ->
  bt_items (bt_insert variant_cmp (fst e) (snd e) t) = (bt_items t ++ [e])%list.
Proof.
  intros S N. rewrite bt_insert_new; [now rewrite <- surjective_pairing|]. eapply Forall_impl; [|exact (app_bounds _ _ _ S N)].
  cbn. intros x ->. discriminate.
Qed.

Lemma dec_tree_rt (l : list (variant * unit)) : forall t r, StronglySorted N.lt (tags (bt_items t ++ l)) -> NoDup (names (bt_items t ++ l)) ->
  Forall (fun e => vok (fst e)) l ->
  exists t', dec_tree variant_cmp (dec_entry dec_variant dec_unit) (List.length l) t (flat_map enc_variant (map fst l) ++ r) = Some (t', r)
    /\ bt_items t' = (bt_items t ++ l)%list.
Proof.
  induction l as [|[k []] l IH]; intros t r S N F; cbn [List.length dec_tree map flat_map].
  - exists t. rewrite app_nil_r. auto.
  - inversion F as [|? ? F1 F2]; subst. rewrite <- app_assoc. cbn [fst] in *.
    assert (DE : forall r, dec_entry dec_variant dec_unit (enc_variant k ++ r)%list = Some ((k, tt), r)).
    { intros r0. unfold dec_entry. rewrite (proj1 codec_variant) by exact F1. reflexivity. }
    rewrite DE. cbn [obind fst snd]. pose proof (insert_end t (k, tt) l S N) as I. cbn [fst snd] in I.
    destruct (IH (bt_insert variant_cmp k tt t) r) as (t' & E & Q).
    { now rewrite I, <- app_assoc. } { now rewrite I, <- app_assoc. } { exact F2. }
    exists t'. rewrite E, Q, I, <- app_assoc. split; [|reflexivity].
    destruct (last_key_cases (bt_items t)) as [[_ ->]|(m & x & X & ->)]; [reflexivity|].
    pose proof (app_bounds _ _ _ S N) as G. rewrite X in G. apply Forall_app in G as [_ G]. inversion G as [|? ? G1 _]; subst. cbn [fst] in G1. now rewrite G1.
Qed.

Definition enc_unit_variant (e : variant * unit) : bytes := enc_variant (fst e).

Lemma enc_unit_map l : flat_map enc_unit_variant l = flat_map enc_variant (map fst l).
Proof. induction l as [|e l IH]; [reflexivity|]. cbn [flat_map map]. now rewrite IH. Qed.

Lemma dec_tree_can n : forall t b t' r, good (fun _ => True) t ->
  dec_tree variant_cmp (dec_entry dec_variant dec_unit) n t b = Some (t', r) ->
  good (fun _ => True) t'
  /\ (List.length (bt_items t') = List.length (bt_items t) + n
        /\ flat_map enc_unit_variant (bt_items t) ++ b = flat_map enc_unit_variant (bt_items t') ++ r
      \/ List.length (flat_map enc_unit_variant (bt_items t')) + List.length r < List.length (flat_map enc_unit_variant (bt_items t)) + List.length b)%nat.
Proof.
  induction n as [|n IH]; intros t b t' r G E; cbn [dec_tree] in E.
  - injection E as <- <-. split; [exact G|]. left. split; [lia|reflexivity].
  - step. destruct p as [k []]. unfold dec_entry, dec_unit in D. step. cbn [obind] in D. injection D as -> ->.
    pose proof codec_variant as CV. use CV. cbn [fst snd] in E.
    assert (X : match last_key (bt_items t) with Some k' => variant_cmp k k' = Gt | None => True end
                /\ dec_tree variant_cmp (dec_entry dec_variant dec_unit) n (bt_insert variant_cmp k tt t) b0 = Some (t', r)).
    { destruct (last_key (bt_items t)); [|auto]. destruct (variant_cmp k v); try discriminate. auto. }
    clear E. destruct X as [X E]. pose proof (tags_bound _ _ (proj1 G) X) as B.
    destruct (good_insert (fun _ => True) enc_unit_variant t k tt) as (G' & S & _); auto.
    { intros k1 k2 [] []. unfold enc_unit_variant. cbn [fst]. assert (0 < List.length (enc_variant k2))%nat by (unfold enc_variant; cbn; lia). lia. }
    apply IH in E as [G2 Q]; [|exact G']. split; [exact G2|].
    assert (Z : enc_unit_variant (k, tt) = enc_variant k) by reflexivity.
    destruct S as [S|[S1 S2]].
    + rewrite S in Q. rewrite flat_map_app, app_length in Q. cbn [flat_map List.length] in Q. rewrite app_nil_r, Z in Q.
      destruct Q as [[Q1 Q2]|Q].
      * destruct H0 as [->|H0].
        -- left. split; [lia|]. rewrite app_assoc. exact Q2.
        -- right. apply (f_equal (@List.length _)) in Q2. rewrite !app_length in Q2. lia.
      * right. rewrite app_length in Q. destruct H0 as [->|H0]; rewrite ?app_length; lia.
    + right. rewrite Z in S2. assert (List.length b0 + List.length (enc_variant k) <= List.length b)%nat.
      { destruct H0 as [->|H0]; rewrite ?app_length; lia. }
      destruct Q as [[_ Q]|Q]; [|lia]. apply (f_equal (@List.length _)) in Q. rewrite !app_length in Q. lia.
Qed.

Lemma tags_increasing vs : StronglySorted N.lt (map v_tag vs) <-> increasing (fun a b => v_tag a < v_tag b) vs.
Proof.
  unfold increasing. induction vs as [|v vs IH]; cbn; split; intros H; try constructor; inversion H; subst; try tauto.
  - now rewrite Forall_map in H3.
  - now rewrite Forall_map.
Qed.

Lemma good_empty {R} (ok : R -> Prop) : good ok bt_empty.
Proof. split; [constructor|]. split; [constructor|]. split; [intros X; now destruct X|]. constructor. Qed.

Lemma codec_variants : codec2 (variants_with distinct) (variants_with few_distinct) (enc_set 1 enc_variant) dec_variants.
Proof.
  unfold dec_variants, enc_set, enc_list. split.
  - intros vs r (S & I & N & F). unfold sized in S. rewrite <- app_assoc, (proj1 codec_u8) by lia. cbn [obind].
    destruct (dec_tree_rt (map (fun k => (k, tt)) vs) bt_empty r) as (t & E & Q).
    { cbn [bt_empty bt_items bt_up bt_leaf rev flat_map app]. unfold tags. rewrite map_fst_pair. now apply tags_increasing. }
    { cbn [bt_empty bt_items bt_up bt_leaf rev flat_map app]. unfold names. rewrite map_fst_pair. exact N. }
    { rewrite Forall_map. exact F. }
    rewrite map_fst_pair, map_length in E. replace (N.to_nat (lenN vs)) with (List.length vs) by (unfold lenN; lia).
    rewrite E. cbn [obind]. rewrite Q. cbn [bt_empty bt_items bt_up bt_leaf rev flat_map app]. rewrite map_fst_pair.
    now rewrite (proj2 (within_iff 1 u8_max (lenN vs)) S).
  - intros b vs r E. repeat step. destruct (within 1 u8_max _) eqn:W; [|discriminate]. injection E as <- <-. apply within_iff in W.
    pose proof (codec_uint 1) as CU. use CU. apply dec_tree_can in D0 as [G Q]; [|apply good_empty].
    pose proof (good_few _ _ G) as FD. destruct G as (S & F & _ & _). split.
    + split; [exact W|]. split; [now apply tags_increasing|]. split; [exact FD|]. rewrite Forall_map. eapply Forall_impl; [|exact F]. intros e [X _]. exact X.
    + cbn [bt_empty bt_items bt_up bt_leaf rev flat_map app List.length plus] in Q. rewrite !enc_unit_map in Q.
      rewrite app_length. unfold enc_uint in *. rewrite le_length in *. destruct Q as [[Q1 ->]|Q].
      * assert (lenN (map fst (bt_items b1)) = n) as -> by (unfold lenN; rewrite map_length; lia).
        destruct H0 as [->|H0]; [left; now rewrite app_assoc|]. right. rewrite app_length in H0. lia.
      * right. destruct H0 as [->|H0]; rewrite ?app_length, ?le_length; lia.
Qed.

(** ** Unions *)

Definition conv {R} (e : N * (string * R)) : variant * R := (mkVariant (fst (snd e)) (fst e), snd (snd e)).
Definition unconv {R} (e : variant * R) : N * (string * R) := (v_tag (fst e), (v_name (fst e), snd e)).
Definition add_variant {R} (t : btree (variant * R)) (e : N * (string * R)) : btree (variant * R) :=
  bt_insert variant_cmp (mkVariant (fst (snd e)) (fst e)) (snd (snd e)) t.

Lemma conv_unconv {R} (l : list (variant * R)) : map conv (map unconv l) = l.
Proof. induction l as [|[[n t] r] l IH]; cbn; [reflexivity|]. now rewrite IH. Qed.

Lemma enc_conv {R} (er : R -> bytes) l :
  flat_map (enc_entry (enc_uint 1) (enc_entry enc_name er)) l = flat_map (enc_union_variant er) (map conv l).
Proof. induction l as [|e l IH]; [reflexivity|]. cbn [flat_map map]. now rewrite IH. Qed.

Lemma fold_union_rt {R} (l : list (variant * R)) : forall t, StronglySorted N.lt (tags (bt_items t ++ l)) -> NoDup (names (bt_items t ++ l)) ->
  bt_items (fold_left add_variant (map unconv l) t) = (bt_items t ++ l)%list.
Proof.
  induction l as [|e l IH]; intros t S N; cbn [map fold_left]; [now rewrite app_nil_r|].
  assert (I : bt_items (add_variant t (unconv e)) = (bt_items t ++ [e])%list).
  { pose proof (insert_end t e l S N) as I. destruct e as [[n x] r]. exact I. }
  rewrite IH; rewrite I, <- app_assoc; auto.
Qed.

Lemma fold_union {R} (ok : R -> Prop) er (l : list (N * (string * R))) : forall t,
  increasing (by_key N.lt) l -> (forall x e, In x (tags (bt_items t)) -> In e l -> x < fst e) -> good ok t ->
  Forall (fun e => fst e < 256 /\ field_name (fst (snd e)) /\ ok (snd (snd e))) l ->
  let t' := fold_left add_variant l t in
  good ok t'
  /\ (bt_items t' = (bt_items t ++ map conv l)%list
      \/ (List.length (bt_items t') < List.length (bt_items t) + List.length l /\ List.length (flat_map (enc_union_variant er) (bt_items t'))
          < List.length (flat_map (enc_union_variant er) (bt_items t)) + List.length (flat_map (enc_union_variant er) (map conv l)))%nat).
Proof.
  induction l as [|e l IH]; intros t I B G F; cbn zeta; cbn [fold_left map].
  - rewrite app_nil_r. auto.
  - inversion I as [|? ? I1 I2]; subst. inversion F as [|? ? [F1 [F2 F3]] F4]; subst.
    destruct (good_insert ok (enc_union_variant er) t (mkVariant (fst (snd e)) (fst e)) (snd (snd e))) as (G' & S & J); auto.
    { intros k1 k2 v v'. unfold enc_union_variant. cbn [fst snd]. rewrite !app_length. unfold enc_uint. rewrite !le_length. lia. }
    { cbn [v_tag]. apply Forall_forall. intros x X. apply (B x e X). now left. }
    { split; auto. }
    fold (add_variant t e) in *.
    destruct (IH (add_variant t e)) as (G2 & Q); auto.
    { intros x y X Y. rewrite Forall_forall in I2. specialize (I2 y Y). unfold by_key in I2.
      apply J in X. cbn [v_tag] in X. destruct X as [<-|X]; [exact I2|]. specialize (B x e X (or_introl eq_refl)). lia. }
    split; [exact G2|]. cbn [flat_map]. rewrite app_length.
    change (enc_union_variant er (conv e)) with (enc_union_variant er (mkVariant (fst (snd e)) (fst e), snd (snd e))).
    destruct S as [S|[S1 S2]].
    + rewrite S in *. destruct Q as [Q|[Q1 Q2]].
      * left. rewrite Q, <- app_assoc. reflexivity.
      * right. rewrite app_length in Q1. rewrite flat_map_app, app_length in Q2. cbn [flat_map List.length] in Q1, Q2.
        rewrite app_nil_r in Q2. cbn [List.length]. split; lia.
    + right. cbn [List.length]. destruct Q as [Q|[Q1 Q2]].
      * rewrite Q, flat_map_app, !app_length. split; [rewrite map_length; lia|]. lia.
      * split; lia.
Qed.

Lemma codec_union {R} (ok ok' : R -> Prop) er dr : codec2 ok ok' er dr ->
  codec2 (fun vs => variants_with distinct (map fst vs) /\ Forall ok (map snd vs))
    (fun vs => variants_with few_distinct (map fst vs) /\ Forall ok' (map snd vs)) (enc_union er) (dec_union dr).
Proof.
  intros C.
  pose proof (codec_map (fun n => n < 256) (fun n => n < 256) (fun e => field_name (fst e) /\ ok (snd e)) (fun e => field_name (fst e) /\ ok' (snd e))
                (enc_uint 1) (enc_entry enc_name er)
                (dec_uint 1) (dec_entry (dec_name Typify.name_ok) dr) N.compare 1 0 u8_max codec_u8
                (codec_entry _ _ _ _ _ _ _ _ codec_field_name C) ltac:(intros a; unfold enc_uint; rewrite le_length; lia) lax_N ltac:(now vm_compute)) as [R1 C1].
  unfold enc_union, dec_union. split.
  - intros vs r [(S & I & N & F) O].
    replace (enc_list 1 (enc_union_variant er) vs) with (enc_map 1 (enc_uint 1) (enc_entry enc_name er) (map unconv vs)).
    2: { unfold enc_map, enc_list. rewrite enc_conv, conv_unconv. unfold lenN. now rewrite map_length. }
    rewrite Forall_map in F, O.
    rewrite R1; cbn [obind].
    + change (fold_left _ (map unconv vs) bt_empty) with (fold_left (@add_variant R) (map unconv vs) bt_empty).
      rewrite fold_union_rt.
      * cbn [bt_empty bt_items bt_up bt_leaf rev flat_map app].
        unfold sized, lenN in S. rewrite map_length in S. fold (lenN vs) in S.
        now rewrite (proj2 (within_iff 1 u8_max (lenN vs)) S).
      * cbn [bt_empty bt_items bt_up bt_leaf rev flat_map app]. now apply tags_increasing.
      * exact N.
    + unfold sized, lenN in *. rewrite map_length in *. split; [split; [lia|apply S]|]. split.
      * unfold ascends, increasing in *. clear - I. induction vs as [|v vs IH]; cbn in *; [constructor|]. inversion I; subst.
        constructor; auto. rewrite Forall_map in *. eapply Forall_impl; [|exact H2]. cbn. intros. now apply N.compare_gt_iff.
      * rewrite Forall_map. cbn. rewrite Forall_forall in *. intros x X. specialize (F x X). specialize (O x X). cbn in *. tauto.
  - intros b vs r E. step. apply C1 in D as ((S & A & F) & Q).
    change (fold_left _ l bt_empty) with (fold_left (@add_variant R) l bt_empty) in E.
    destruct (within 1 u8_max (lenN (bt_items (fold_left add_variant l bt_empty)))) eqn:W; [|discriminate]. injection E as <- <-.
    apply within_iff in W. apply ascends_N in A.
    destruct (fold_union ok' er l bt_empty) as (G & P); auto; [intros x e []|apply good_empty|].
    pose proof (good_few _ _ G) as FD. destruct G as (S2 & F2 & _ & _). split.
    + split.
      * split; [unfold sized, lenN in *; rewrite map_length; exact W|]. split; [now apply tags_increasing|]. split; [exact FD|].
        rewrite Forall_map. eapply Forall_impl; [|exact F2]. intros e [X _]. exact X.
      * rewrite Forall_map. eapply Forall_impl; [|exact F2]. cbn. tauto.
    + unfold enc_map, enc_list in *. rewrite enc_conv in Q. rewrite !app_length in *. unfold enc_uint in *. rewrite !le_length in *.
      destruct P as [P|[P1 P2]].
      * cbn [bt_empty bt_items bt_up bt_leaf rev flat_map app] in P. rewrite P. unfold lenN in *. rewrite map_length. exact Q.
      * right. cbn [bt_empty bt_items bt_up bt_leaf rev flat_map app List.length plus] in P2. destruct Q as [->|Q]; rewrite ?app_length, ?le_length; lia.
Qed.
