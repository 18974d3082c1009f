(** Proofs about type trees: if the iteration over a type ends, there is a (finite) tree of the type. *)
From Coq Require Import Arith NArith List Bool String Relations Lia.
From Verif Require Import Base Ty Ids TypeSys LibCodec Build Layout Spec SpecSys SpecLayout CodecLemmas TyProofs ExtractProofs
  LayoutProofs LayoutProofs2.
Import ListNotations.
Local Open Scope string_scope.
Local Open Scope list_scope.
Local Open Scope N_scope.

(** ** Rounds of the iteration *)

Inductive round : Type :=
| Silent (st : tree_iter)
| Emit (i : type_info) (st : tree_iter)
| End
| Stop.

Section Rounds.
Variables (dbg : bool) (sys : symbolic_sys).
Notation types := (ss_types sys).
Notation name := (lookup (ss_symbols sys)).

Definition step (st : tree_iter) : round :=
  match ti_ty st with
  | Some t =>
      match visit_type dbg sys (name (ti_id st)) t with
      | Ok p =>
          let depth := if p_dive p then ti_depth st + 1 else ti_depth st in
          let path := if p_push p then (depth, (t, p_pos p)) :: ti_path st else ti_path st in
          let nested := ti_nested st ++ p_nested p in
          if p_ret p then
            if lenN nested <=? u8_max then
              Emit (mkInfo (ti_depth st) t (name (ti_id st)) (ti_item st) nested) (mkIter (ti_id st) None None depth path [])
            else Stop
          else Silent (mkIter (ti_id st) None (ti_item st) depth path nested)
      | _ => Stop
      end
  | None =>
      match ti_path st with
      | [] => End
      | (depth, (t, pos)) :: rest =>
          match iter_next dbg t pos with
          | Ok (None, _) => Silent (mkIter (ti_id st) None (ti_item st) depth rest [])
          | Ok (Some (id, case), pos') =>
              Silent (mkIter id (sys_get types id)
                (match last (map Some (ti_nested st)) None with Some (NNewType _) => ti_item st | _ => case end)
                depth ((depth, (t, pos')) :: rest) (ti_nested st))
          | _ => Stop
          end
      end
  end.

Lemma next_step f st r : tree_next (S f) dbg sys st = Ok r ->
  match step st with
  | Silent st' => tree_next f dbg sys st' = Ok r
  | Emit i st' => r = (Some i, st')
  | End => fst r = None
  | Stop => False
  end.
Proof.
  unfold step. cbn [tree_next]. destruct (ti_ty st) as [t|].
  - destruct (visit_type dbg sys (name (ti_id st)) t) as [p|e| |]; cbn [bind]; try discriminate.
    destruct (p_ret p); [|auto]. destruct (_ <=? u8_max); [intros [= <-]; reflexivity|discriminate].
  - destruct (ti_path st) as [|[d [t pos]] rest]; [intros [= <-]; reflexivity|].
    destruct (iter_next dbg t pos) as [[[[id c]|] pos']|e| |]; cbn [bind]; try discriminate; auto.
Qed.

(** The rounds come to an end after [n] of them. *)
Inductive ends : nat -> tree_iter -> Prop :=
| En_end st : step st = End -> ends 0 st
| En_silent n st st' : step st = Silent st' -> ends n st' -> ends (S n) st
| En_emit n st st' i : step st = Emit i st' -> ends n st' -> ends (S n) st.

Lemma next_ends f : forall st r, tree_next f dbg sys st = Ok r -> (fst r <> None -> exists n, ends n (snd r)) -> exists n, ends n st.
Proof.
  induction f as [|f IH]; intros st r E H; [discriminate|]. pose proof (next_step f st r E) as S1.
  destruct (step st) as [st'|i st'| |] eqn:Q; [| | |contradiction].
  - destruct (IH st' r S1 H) as [n K]. exists (S n). eapply En_silent; eassumption.
  - subst r. destruct H as [n K]; [discriminate|]. exists (S n). eapply En_emit; eassumption.
  - exists 0%nat. now constructor.
Qed.
Lemma collect_ends f : forall st l, tree_collect f dbg sys st = Ok l -> exists n, ends n st.
Proof.
  induction f as [|f IH]; intros st l E; [discriminate|]. rewrite tree_collect_S in E.
  destruct (tree_next f dbg sys st) as [[info st']|e| |] eqn:N; cbn [bind fst snd] in E; try discriminate.
  apply (next_ends f st _ N). cbn [fst snd]. destruct info as [i|]; [|congruence]. intros _.
  destruct (tree_collect f dbg sys st') as [l'|e| |] eqn:C; cbn [bind] in E; try discriminate. exact (IH _ _ C).
Qed.

Lemma ends_silent n st st' : step st = Silent st' -> ends n st -> exists m, (m < n)%nat /\ ends m st'.
Proof. intros S1 E. inversion E; subst; try congruence. rewrite S1 in H. injection H as <-. eauto. Qed.
Lemma ends_emit n st st' i : step st = Emit i st' -> ends n st -> exists m, (m < n)%nat /\ ends m st'.
Proof. intros S1 E. inversion E; subst; try congruence. rewrite S1 in H. injection H as <- <-. eauto. Qed.
Lemma ends_stop n st : step st = Stop -> ~ ends n st.
Proof. intros S1 E. inversion E; subst; congruence. Qed.

(** ** Kinds of types *)

Hypothesis ORD : ordered types.
Hypothesis COMPLETE : complete types.
Hypothesis WF : consistent types.
Hypothesis ITER : iterable dbg types.

Definition leaf id t : Prop :=
  exists p, visit_type dbg sys (name id) t = Ok p /\ p_ret p = true /\ (p_push p = true -> p_pos p = lenN (refs t))
    /\ forall role outer, laid sys id role outer (Tree t (name id) role (outer ++ p_nested p) []).

Lemma kinds id t : In (id, t) types ->
  (exists r, t = TTuple [r]) \/ (exists r, option_type t r) \/ plain types t \/ leaf id t.
Proof.
  intros I. destruct t as [p| |vs|vs|fs|fs|r len|r s|r s|k r s]; try (right; right; left; exact Logic.I).
  - destruct (as_some (TUnion vs)) as [r|] eqn:A.
    + right. left. exists r. now apply as_some_iff.
    + right; right; left. intros r O. apply as_some_iff in O. congruence.
  - destruct (restricted_dec sys fs) as [(a1 & a2 & mi & ma & R)|NR].
    + right; right; right. destruct R as [first rest r t1 t2 Q F1 C1 F2 F3 C2]. subst fs.
      destruct (WF _ _ I) as [_ W]. cbn in W. rewrite F2 in W. cbn in W.
      rewrite find_In in F1, F2, F3 by exact ORD.
      destruct (WF _ _ F2) as [[W2 W3] _]. cbn in W2, W3.
      assert (M1 : mi < u64_max) by (unfold u64_max; lia). assert (M2 : ma < u64_max) by (unfold u64_max; lia).
      eexists. split; [|split; [|split]].
      * unfold visit_type. cbn [is_newtype is_option as_some lenN List.length].
        rewrite (get_In sys ORD _ _ F1), (get_In sys ORD _ _ F2), (get_In sys ORD _ _ F3), (chars_enum _ _ C1), (chars_enum _ _ C2). cbn [andb s_min s_max].
        rewrite !incr64_ok by assumption. reflexivity.
      * reflexivity.
      * reflexivity.
      * intros role outer. cbn [p_nested]. eapply La_string; eauto.
    + destruct fs as [|r [|r' fs]]; [right; right; left|left; eauto|right; right; left]; (split; [|exact NR]).
      * discriminate.
      * unfold lenN. cbn. lia.
  - destruct (is_byte_id r) eqn:B.
    + right; right; right. apply byte_item_iff in B. eexists. split; [|split; [|split]].
      * unfold visit_type. cbn [is_newtype is_option as_some is_byte_array]. rewrite (proj1 (byte_item_iff r) B). reflexivity.
      * reflexivity.
      * discriminate.
      * intros role outer. cbn [p_nested]. rewrite app_nil_r. eapply La_byte_array; eauto.
    + right; right; left. now apply byte_item_false.
  - assert (K : In r (map fst types)) by (eapply COMPLETE; [exact I|cbn; auto]).
    apply in_map_iff in K. destruct K as [[r' rt] [E J]]. cbn in E. subst r'.
    assert (V : forall p, (if char_enum rt then mkPlan [NAsciiStr (name r)] false false true 0
      else if is_byte_ty rt then mkPlan [NByteStr] false false true 0
      else if is_unicode_ty rt then mkPlan [NUniStr] false false true 0
      else mkPlan [] true true true 0) = p -> visit_type dbg sys (name id) (TList r s) = Ok p).
    { intros p E. unfold visit_type. cbn [is_newtype is_option as_some]. rewrite (get_In sys ORD _ _ J). cbn [expect bind]. rewrite <- E.
      destruct (char_enum rt); [reflexivity|]. destruct (is_byte_ty rt); [reflexivity|]. now destruct (is_unicode_ty rt). }
    destruct (chars_type rt) as [a|] eqn:C.
    { right; right; right. eexists. split; [apply V; rewrite (chars_enum _ _ C); reflexivity|].
      split; [reflexivity|]. split; [discriminate|]. intros role outer. eapply La_chars; eauto. }
    assert (D : rt = TUnicode \/ rt = TPrim P_U8 \/ rt = TPrim P_BYTE \/ (rt <> TUnicode /\ rt <> TPrim P_U8 /\ rt <> TPrim P_BYTE)).
    { destruct rt as [c| | | | | | | | |]; auto; try (right; right; right; repeat split; discriminate).
      destruct (N.eq_dec c P_U8) as [->|]; auto. destruct (N.eq_dec c P_BYTE) as [->|]; auto.
      right; right; right. repeat split; congruence. }
    destruct D as [-> | [-> | [-> | (N1 & N2 & N3)]]].
    + right; right; right. eexists. split; [apply V; reflexivity|]. split; [reflexivity|]. split; [discriminate|].
      intros role outer. eapply La_text; eauto.
    + right; right; right. eexists. split; [apply V; reflexivity|]. split; [reflexivity|]. split; [discriminate|].
      intros role outer. eapply La_bytes; eauto.
    + right; right; right. eexists. split; [apply V; reflexivity|]. split; [reflexivity|]. split; [discriminate|].
      intros role outer. eapply La_bytes; eauto.
    + right; right; left. exists rt. auto.
Qed.

(** ** The tree *)

(** The rounds go on from the path and come to an end in less than [n]. *)
Definition goes_on n path := exists m id item depth, (m < n)%nat /\ ends m (mkIter id None item depth path []).

Lemma goes_on_le n n' path : (n <= n')%nat -> goes_on n path -> goes_on n' path.
Proof. intros L (m & id & item & depth & K & E). exists m, id, item, depth. split; [lia|exact E]. Qed.
Lemma pop n id t d path nested id' item depth : In (id, t) types ->
  ends n (mkIter id' None item depth ((d, (t, lenN (refs t))) :: path) nested) -> goes_on n path.
Proof.
  intros I E. destruct (iter_next_none dbg sys ITER t (lenN (refs t))) as [p' Q].
  - eapply bound; eauto.
  - rewrite ty_at_refs. apply nth_error_None. unfold lenN. lia.
  - eapply ends_silent in E as (m & L & E); [|unfold step; cbn [ti_ty ti_path]; rewrite Q; reflexivity].
    exists m, id', item, d. split; [exact L|exact E].
Qed.
Lemma present id t r : In (id, t) types -> In r (refs t) -> exists rt, In (r, rt) types.
Proof. intros I J. pose proof (COMPLETE _ _ _ I J) as K. apply in_map_iff in K as ([k rt] & <- & K). eauto. Qed.

Definition treed n := forall id t role outer depth path, In (id, t) types ->
  ends n (mkIter id (Some t) role depth path outer) ->
  (exists tr, laid sys id role outer tr /\ few_wrappers tr) /\ goes_on n path.

Lemma children n id t : In (id, t) types -> (forall m, (m < n)%nat -> treed m) ->
  forall k pos d path m id' item depth, (m < n)%nat -> (pos + k = List.length (components t))%nat ->
  ends m (mkIter id' None item depth ((d, (t, N.of_nat pos)) :: path) []) ->
  (exists trs, Forall2 (fun c tr => laid sys (fst c) (known_role (snd c)) [] tr) (skipn pos (components t)) trs
     /\ fold_right (fun tr P => few_wrappers tr /\ P) True trs) /\ goes_on m path.
Proof.
  intros I IH. induction k as [|k IHk]; intros pos d path m id' item depth L K E.
  - replace (N.of_nat pos) with (lenN (refs t)) in E by (unfold lenN; rewrite <- components_len; f_equal; lia).
    split; [|exact (pop _ _ _ _ _ _ _ _ _ I E)]. exists []. rewrite skipn_all2 by lia. split; constructor.
  - destruct (nth_error (components t) pos) as [[r c]|] eqn:Q; [|apply nth_error_None in Q; lia].
    destruct (case_known sys id t pos r c I Q) as [A B].
    assert (J : In r (refs t)) by (rewrite <- components_refs; apply nth_error_In in Q; now apply (in_map fst) in Q).
    destruct (present id t r I J) as [rt R].
    eapply ends_silent in E as (m1 & L1 & E).
    2:{ unfold step. cbn [ti_ty ti_path ti_nested ti_item map last]. rewrite (iter_next_some dbg sys ITER t _ r (bound dbg sys ITER _ _ I) A), (get_In sys ORD _ _ R), B. reflexivity. }
    destruct (IH m1 ltac:(lia) _ _ _ _ _ _ R E) as [(tr & T & W) (m2 & i2 & it2 & d2 & L2 & E2)].
    replace (N.of_nat pos + 1) with (N.of_nat (S pos)) in E2 by lia.
    destruct (IHk (S pos) d path m2 i2 it2 d2 ltac:(lia) ltac:(lia) E2) as [(trs & F & WS) G].
    split; [|apply (goes_on_le m2); [lia|exact G]].
    exists (tr :: trs). rewrite (skipn_nth _ _ _ Q). split; [constructor; [exact T|exact F]|split; assumption].
Qed.

Lemma treed_all : forall n, treed n.
Proof.
  induction n as [n IH] using lt_wf_ind. intros id t role outer depth path I E.
  destruct (kinds id t I) as [(r & ->)|[(r & O)|[P|(p & V & PR & PP & LA)]]].
  - eapply ends_silent in E as (m1 & L1 & E); [|unfold step; cbn [ti_ty ti_id]; rewrite visit_newtype; reflexivity].
    cbn [ti_path ti_nested ti_item ti_depth p_dive p_push p_nested p_pos] in E.
    destruct (present _ _ r I (or_introl eq_refl)) as [rt R].
    eapply ends_silent in E as (m2 & L2 & E).
    2:{ unfold step. cbn [ti_ty ti_path ti_nested ti_item]. rewrite (iter_next_some dbg sys ITER (TTuple [r]) 0 r (bound dbg sys ITER _ _ I) eq_refl).
        rewrite (last_in_newtype (outer ++ _)), in_newtype_snoc, (get_In sys ORD _ _ R). reflexivity. }
    destruct (IH m2 ltac:(lia) _ _ _ _ _ _ R E) as [(tr & T & W) (m3 & i3 & it3 & d3 & L3 & E3)].
    split; [exists tr; split; [eapply La_newtype; eauto|exact W]|].
    apply (goes_on_le m3); [lia|]. exact (pop _ _ (TTuple [r]) _ _ _ _ _ _ I E3).
  - eapply ends_silent in E as (m1 & L1 & E); [|unfold step; cbn [ti_ty ti_id]; rewrite (visit_option dbg sys _ _ _ O); reflexivity].
    cbn [ti_path ti_nested ti_item ti_depth p_dive p_push p_nested p_pos] in E.
    assert (J : In r (refs t)) by (destruct O as [r0 ->]; cbn; auto).
    destruct (present _ _ r I J) as [rt R].
    eapply ends_silent in E as (m2 & L2 & E).
    2:{ unfold step. cbn [ti_ty ti_path ti_nested ti_item]. rewrite (iter_next_some dbg sys ITER t 1 r (bound dbg sys ITER _ _ I)) by (destruct O as [r0 ->]; reflexivity).
        rewrite (last_in_newtype (outer ++ _)), in_newtype_snoc, (get_In sys ORD _ _ R). reflexivity. }
    replace (case_at t 1) with (Some (CUnionVariant 1 "some")) in E by (destruct O as [r0 ->]; reflexivity).
    destruct (IH m2 ltac:(lia) _ _ _ _ _ _ R E) as [(tr & T & W) (m3 & i3 & it3 & d3 & L3 & E3)].
    split; [exists tr; split; [eapply La_option; eauto|exact W]|].
    apply (goes_on_le m3); [lia|].
    replace (1 + 1) with (lenN (refs t)) in E3 by (destruct O as [r0 ->]; reflexivity). exact (pop _ _ t _ _ _ _ _ _ I E3).
  - assert (S1 : step (mkIter id (Some t) role depth path outer) = if lenN outer <=? u8_max then
        Emit (mkInfo depth t (name id) role outer) (mkIter id None None (depth + 1) ((depth + 1, (t, 0)) :: path) []) else Stop).
    { unfold step. cbn [ti_ty ti_id]. rewrite (visit_plain dbg sys ORD _ _ P). cbn [p_ret p_nested p_dive p_push p_pos ti_nested ti_path ti_depth ti_item].
      now rewrite app_nil_r. }
    destruct (N.leb_spec (lenN outer) u8_max) as [LO|LO]; [|destruct (ends_stop _ _ S1 E)].
    eapply ends_emit in E as (m1 & L1 & E); [|exact S1].
    destruct (children n id t I IH (List.length (components t)) 0%nat (depth + 1) path m1 id None (depth + 1) L1 eq_refl E) as [(trs & F & WS) G].
    split; [|apply (goes_on_le m1); [lia|exact G]]. eexists. split; [eapply La_node; eauto|]. split; [exact LO|exact WS].
  - set (d' := if p_dive p then depth + 1 else depth).
    assert (S1 : step (mkIter id (Some t) role depth path outer) = if lenN (outer ++ p_nested p) <=? u8_max then
        Emit (mkInfo depth t (name id) role (outer ++ p_nested p)) (mkIter id None None d' (if p_push p then (d', (t, p_pos p)) :: path else path) []) else Stop).
    { unfold step. cbn [ti_ty ti_id]. rewrite V, PR. reflexivity. }
    destruct (N.leb_spec (lenN (outer ++ p_nested p)) u8_max) as [LO|LO]; [|destruct (ends_stop _ _ S1 E)].
    eapply ends_emit in E as (m1 & L1 & E); [|exact S1].
    split; [eexists; split; [apply LA|split; [exact LO|exact Logic.I]]|].
    destruct (p_push p) eqn:PQ.
    + rewrite (PP eq_refl) in E. apply (goes_on_le m1); [lia|]. exact (pop _ _ t _ _ _ _ _ _ I E).
    + exists m1, id, None, d'. split; [exact L1|exact E].
Qed.

Lemma layout_tree id l f : to_layout f dbg sys id = Ok l -> exists tr, laid sys id None [] tr /\ few_wrappers tr.
Proof.
  intros E. unfold to_layout, tree_start in E. destruct (sys_get types id) as [t|] eqn:G; cbn [expect bind] in E; [|discriminate].
  apply sys_get_In in G; [|exact ORD]. apply collect_ends in E as [n E]. exact (proj1 (treed_all n id t None [] 0 [] G E)).
Qed.

(** ** Trees and cycles *)

Definition finite (id : semid) : Prop := Acc (fun r id => shows sys id r) id.

Lemma laid_finite id role outer tr : laid sys id role outer tr -> finite id.
Proof.
  assert (N : forall id t, In (id, t) types ->
    (forall r, t = TTuple [r] -> finite r) -> (forall r, option_type t r -> finite r) -> (plain types t -> forall r, In r (refs t) -> finite r) -> finite id).
  { intros i t I H1 H2 H3. constructor. intros r S1. inversion S1 as [? ? J|? u ? J O|? u ? J P K]; subst.
    - apply H1. eapply ordered_unique; eauto.
    - apply H2. now rewrite (ordered_unique _ _ _ _ ORD I J).
    - pose proof (ordered_unique _ _ _ _ ORD I J). subst u. now apply H3. }
  apply (laid_ind' sys (fun id _ _ _ => finite id)); clear id role outer tr.
  - intros id r role outer tr I L IH. apply (N id _ I); [intros r' [= <-]; exact IH|intros r' [r0 Q]; discriminate Q|].
    intros [P _]. destruct P. reflexivity.
  - intros id t r role outer tr I O L IH. apply (N id _ I).
    + intros r' ->. destruct O as [r0 Q]. discriminate Q.
    + intros r' [r0 Q]. destruct O as [r1 Q1]. rewrite Q in Q1. injection Q1 as _ <-. exact IH.
    + intros P. exfalso. destruct O as [r0 ->]. cbn in P. apply (P r). now exists r0.
  - intros id first rest r t1 t2 a1 a2 mi ma role outer I I1 C1 I2 I3 C2 M1 M2. apply (N id _ I).
    + discriminate.
    + intros r' [r0 Q]. discriminate Q.
    + intros [_ P]. exfalso. apply (P a1 a2 mi ma). econstructor; [reflexivity|apply find_In; [exact ORD|exact I1]|exact C1|apply find_In; [exact ORD|exact I2]|apply find_In; [exact ORD|exact I3]|exact C2].
  - intros id r rt a s role outer I I1 C. apply (N id _ I); [discriminate|intros r' [r0 Q]; discriminate Q|].
    intros (rt' & J & Q & _). exfalso. rewrite (ordered_unique _ _ _ _ ORD I1 J) in C. congruence.
  - intros id r p s role outer I I1 C. apply (N id _ I); [discriminate|intros r' [r0 Q]; discriminate Q|].
    intros (rt' & J & Q & N1 & N2 & _). exfalso. pose proof (ordered_unique _ _ _ _ ORD I1 J). subst rt'. destruct C as [-> | ->]; congruence.
  - intros id r s role outer I I1. apply (N id _ I); [discriminate|intros r' [r0 Q]; discriminate Q|].
    intros (rt' & J & Q & N1 & N2 & N3). exfalso. pose proof (ordered_unique _ _ _ _ ORD I1 J). congruence.
  - intros id r len role outer I B. apply (N id _ I); [discriminate|intros r' [r0 Q]; discriminate Q|].
    intros P. destruct (P B).
  - intros id t role outer trs I P F. apply (N id _ I).
    + intros r ->. destruct P as [P _]. destruct P. reflexivity.
    + intros r O. exfalso. destruct O as [r0 ->]. cbn in P. apply (P r). now exists r0.
    + intros _ r J. rewrite <- components_refs in J. apply in_map_iff in J as (c & <- & J).
      clear - F J. induction F as [|c' tr cs trs [L A] F IH]; [destruct J|]. destruct J as [->|J]; auto.
Qed.

Lemma finite_laid id : finite id -> In id (map fst types) -> forall role outer, exists tr, laid sys id role outer tr.
Proof.
  induction 1 as [id _ IH]. intros K role outer. apply in_map_iff in K as ([k t] & E & I). cbn in E. subst k.
  assert (SUB : forall r, shows sys id r -> In r (refs t) -> forall role outer, exists tr, laid sys r role outer tr).
  { intros r S1 J. apply IH; [exact S1|]. exact (COMPLETE _ _ _ I J). }
  destruct (kinds id t I) as [(r & ->)|[(r & O)|[P|(p & _ & _ & _ & LA)]]].
  - destruct (SUB r (Sh_newtype sys id r I) (or_introl eq_refl) role (outer ++ [NNewType (name id)])) as [tr L]. exists tr. eapply La_newtype; eauto.
  - destruct (SUB r (Sh_option sys id t r I O)) with (role := Some (CUnionVariant 1 "some")) (outer := outer ++ [NOption]) as [tr L].
    { destruct O as [r0 ->]. cbn. auto. }
    exists tr. eapply La_option; eauto.
  - assert (F : exists trs, Forall2 (fun c tr => laid sys (fst c) (known_role (snd c)) [] tr) (components t) trs).
    { assert (S' : forall c, In c (components t) -> In (fst c) (refs t)).
      { intros c J. rewrite <- components_refs. now apply in_map. }
      revert S'. generalize (components t) as cs. induction cs as [|c cs IHc]; intros S'; [exists []; constructor|].
      destruct (SUB (fst c)) with (role := known_role (snd c)) (outer := @nil nested_case) as [tr T]; [eapply Sh_node; eauto; apply S'; now left|apply S'; now left|].
      destruct IHc as [trs F]; [intros; apply S'; now right|]. exists (tr :: trs). now constructor. }
    destruct F as [trs F]. eexists. eapply La_node; eauto.
  - eexists. apply LA.
Qed.

Notation inside := (shows sys).
Lemma finite_acyclic id : finite id -> forall r, clos_refl_trans _ inside id r -> ~ clos_trans _ inside r r.
Proof.
  intros F.
  assert (T : forall r, clos_refl_trans _ inside id r -> finite r).
  { intros r H. apply clos_rt_rt1n in H. induction H as [x|x y z S1 _ IH]; [exact F|]. apply IH. now apply (Acc_inv F). }
  intros r H C. apply T in H. clear - H C.
  assert (A : Acc (fun r id => clos_trans _ inside id r) r).
  { clear C. induction H as [x _ IH]. constructor. intros y C. apply clos_trans_t1n in C. destruct C as [y S1|y z S1 C].
    - now apply IH.
    - apply (Acc_inv (IH y S1)). now apply clos_t1n_trans. }
  induction A as [x _ IH]. exact (IH x C H C).
Qed.
Lemma shows_present id r : inside id r -> In id (map fst types) /\ In r (map fst types).
Proof.
  intros S1. assert (G : forall t, In (id, t) types -> In r (refs t) -> In id (map fst types) /\ In r (map fst types)).
  { intros t I J. split; [now apply (in_map fst) in I|exact (COMPLETE _ _ _ I J)]. }
  destruct S1 as [id r I|id t r I O|id t r I P J]; apply (G _ I); auto; [cbn; auto|]. destruct O as [r0 ->]. cbn. auto.
Qed.
Lemma acyclic_finite : forall k (seen : list semid) id, NoDup seen -> incl seen (map fst types) -> (forall s, In s seen -> clos_trans _ inside s id) ->
  In id (map fst types) -> (forall r, clos_refl_trans _ inside id r -> ~ clos_trans _ inside r r) ->
  (List.length types - List.length seen <= k)%nat -> finite id.
Proof.
  induction k as [|k IH]; intros seen id ND SUB B K A L.
  - exfalso. assert (N : ~ In id seen) by (intros J; apply (A id); [apply rt_refl|now apply B]).
    assert (ND' : NoDup (id :: seen)) by now constructor.
    pose proof (NoDup_incl_length ND' (incl_cons K SUB)) as X. rewrite map_length in X. cbn [List.length] in X. unfold semid in *. lia.
  - constructor. intros r S1. assert (N : ~ In id seen) by (intros J; apply (A id); [apply rt_refl|now apply B]).
    apply (IH (id :: seen)).
    + now constructor.
    + exact (incl_cons K SUB).
    + intros s [<-|J]; [now apply t_step|]. eapply t_trans; [now apply B|now apply t_step].
    + exact (proj2 (shows_present _ _ S1)).
    + intros q H. apply A. eapply rt_trans; [apply rt_step; exact S1|exact H].
    + assert (ND' : NoDup (id :: seen)) by now constructor.
      pose proof (NoDup_incl_length ND' (incl_cons K SUB)) as X. rewrite map_length in X. cbn [List.length] in *. unfold semid in *. lia.
Qed.
End Rounds.
