(** Proofs about type trees and layouts. *)
From Coq Require Import Arith NArith List Bool String Lia.
From Verif Require Import Base Ty Ids TypeSys LibCodec Build Layout Spec SpecSys SpecLayout CodecLemmas TyProofs ExtractProofs.
Import ListNotations.
Local Open Scope string_scope.
Local Open Scope list_scope.
Local Open Scope N_scope.

(** ** Induction over trees *)

Lemma tree_ind' (P : tree -> Prop) :
  (forall t n role ws trs, Forall P trs -> P (Tree t n role ws trs)) -> forall tr, P tr.
Proof.
  intros H. fix IH 1. intros [t n role ws trs]. apply H. induction trs as [|tr trs IHl]; constructor; [apply IH|exact IHl].
Qed.

Section Laid.
Variable sys : symbolic_sys.
Notation types := (ss_types sys).
Notation name := (lookup (ss_symbols sys)).

Lemma laid_ind' (P : semid -> option item_case -> list nested_case -> tree -> Prop) :
  (forall id r role outer tr, In (id, TTuple [r]) types ->
     laid sys r role (outer ++ [NNewType (name id)]) tr -> P r role (outer ++ [NNewType (name id)]) tr -> P id role outer tr) ->
  (forall id t r role outer tr, In (id, t) types -> option_type t r ->
     laid sys r (Some (CUnionVariant 1 "some")) (outer ++ [NOption]) tr ->
     P r (Some (CUnionVariant 1 "some")) (outer ++ [NOption]) tr -> P id role outer tr) ->
  (forall id first rest r t1 t2 a1 a2 min max role outer,
     In (id, TTuple [first; rest]) types -> In (first, t1) types -> chars_type t1 = Some a1 ->
     In (rest, TList r (mkSizing min max)) types -> In (r, t2) types -> chars_type t2 = Some a2 ->
     min < u64_max -> max < u64_max ->
     P id role outer (Tree (TTuple [first; rest]) (name id) role
         (outer ++ [NRStr (name first) (name r) (mkSizing (min + 1) (max + 1))]) [])) ->
  (forall id r rt a s role outer, In (id, TList r s) types -> In (r, rt) types -> chars_type rt = Some a ->
     P id role outer (Tree (TList r s) (name id) role (outer ++ [NAsciiStr (name r)]) [])) ->
  (forall id r p s role outer, In (id, TList r s) types -> In (r, TPrim p) types -> p = P_U8 \/ p = P_BYTE ->
     P id role outer (Tree (TList r s) (name id) role (outer ++ [NByteStr]) [])) ->
  (forall id r s role outer, In (id, TList r s) types -> In (r, TUnicode) types ->
     P id role outer (Tree (TList r s) (name id) role (outer ++ [NUniStr]) [])) ->
  (forall id r len role outer, In (id, TArray r len) types -> byte_item r ->
     P id role outer (Tree (TArray r len) (name id) role outer [])) ->
  (forall id t role outer trees, In (id, t) types -> plain types t ->
     Forall2 (fun c tr => laid sys (fst c) (known_role (snd c)) [] tr /\ P (fst c) (known_role (snd c)) [] tr) (components t) trees ->
     P id role outer (Tree t (name id) role outer trees)) ->
  forall id role outer tr, laid sys id role outer tr -> P id role outer tr.
Proof.
  intros H1 H2 H3 H4 H5 H6 H7 H8. fix IH 5. intros id role outer tr L.
  destruct L as [?????? L|???????? L| | | | | |? ? ? ? trees I PL F].
  - eapply H1; eauto.
  - eapply H2; eauto.
  - eapply H3; eauto.
  - eapply H4; eauto.
  - eapply H5; eauto.
  - eapply H6; eauto.
  - eapply H7; eauto.
  - apply H8; [assumption|assumption|]. clear -IH F. induction F; constructor; auto.
Qed.

Lemma laid_In id role outer tr : laid sys id role outer tr -> exists t, In (id, t) types.
Proof. destruct 1; eauto. Qed.

End Laid.

(** ** Fuel *)

Lemma tree_next_mono dbg sys : forall f st r, tree_next f dbg sys st = r -> r <> Diverge -> tree_next (S f) dbg sys st = r.
Proof.
  induction f as [|f IH]; intros st r E ND; [cbn in E; congruence|].
  change (tree_next (S (S f)) dbg sys st = r). cbn [tree_next] in E. remember (S f) as f' eqn:F. cbn [tree_next]. 
  destruct (ti_ty st) as [t|].
  - destruct (visit_type dbg sys (lookup (ss_symbols sys) (ti_id st)) t) as [p| | |]; cbn [bind] in *; auto.
    destruct (p_ret p); [exact E|]. apply IH; auto.
  - destruct (ti_path st) as [|[d [t pos]] rest]; [exact E|].
    destruct (iter_next dbg t pos) as [[item pos']| | |]; cbn [bind] in *; auto.
    destruct item as [[id case]|]; apply IH; auto.
Qed.

Lemma tree_next_mono' dbg sys f f' st r : (f <= f')%nat -> tree_next f dbg sys st = Ok r -> tree_next f' dbg sys st = Ok r.
Proof.
  intros L E. induction L as [|f' _ IH]; [exact E|]. apply tree_next_mono; [exact IH|discriminate].
Qed.

Lemma tree_collect_mono dbg sys : forall f st l, tree_collect f dbg sys st = Ok l -> tree_collect (S f) dbg sys st = Ok l.
Proof.
  induction f as [|f IH]; intros st l E; [discriminate|].
  change (tree_collect (S (S f)) dbg sys st = Ok l). cbn [tree_collect] in E. remember (S f) as f' eqn:F. cbn [tree_collect].
  destruct (tree_next f dbg sys st) as [[info st']| | |] eqn:N; cbn [bind] in E; try discriminate.
  subst f'. rewrite (tree_next_mono _ _ _ _ _ N) by discriminate. cbn [bind].
  destruct info as [i|]; [|exact E].
  destruct (tree_collect f dbg sys st') as [l'| | |] eqn:C; cbn [bind] in E; try discriminate.
  now rewrite (IH _ _ C).
Qed.

(** The items collected from a state of the iterator. *)
Definition collected dbg sys st l := returns (fun fuel => tree_collect fuel dbg sys st) (Ok l).

Lemma collected_intro dbg sys st l f : tree_collect f dbg sys st = Ok l -> collected dbg sys st l.
Proof.
  intros E. exists f. intros f' L. induction L as [|f' _ IH]; [exact E|]. now apply tree_collect_mono.
Qed.

Lemma tree_collect_S f dbg sys st : tree_collect (S f) dbg sys st =
  bind (tree_next f dbg sys st) (fun r =>
    match fst r with
    | None => Ok []
    | Some i => bind (tree_collect f dbg sys (snd r)) (fun l => Ok (i :: l))
    end).
Proof. cbn [tree_collect]. destruct (tree_next f dbg sys st) as [[[i|] st']| | |]; reflexivity. Qed.

(** A silent round. *)
Lemma collected_step dbg sys st st' l :
  (forall f, tree_next (S f) dbg sys st = tree_next f dbg sys st') -> collected dbg sys st' l -> collected dbg sys st l.
Proof.
  intros S1 [n H]. apply (collected_intro _ _ _ _ (S (S n))).
  specialize (H (S n) (le_S _ _ (le_n _))). cbv beta in H. rewrite tree_collect_S in H |- *.
  rewrite S1. destruct (tree_next n dbg sys st') as [[info st2]| | |]; cbn [bind fst snd] in *; try discriminate.
  destruct info as [i|]; [|exact H].
  destruct (tree_collect n dbg sys st2) as [l'| | |] eqn:C; cbn [bind] in H; try discriminate.
  now rewrite (tree_collect_mono _ _ _ _ _ C).
Qed.

(** A round giving an item. *)
Lemma collected_emit dbg sys st st' i l :
  (forall f, tree_next (S f) dbg sys st = Ok (Some i, st')) -> collected dbg sys st' l -> collected dbg sys st (i :: l).
Proof.
  intros S1 [n H]. apply (collected_intro _ _ _ _ (S (S n))).
  rewrite tree_collect_S, S1. cbn [bind fst snd]. now rewrite (H (S n)) by lia.
Qed.

(** ** The iterator visits the tree *)

(** Directly inside a new type. *)
Definition in_newtype (outer : list nested_case) : bool :=
  match rev outer with NNewType _ :: _ => true | _ => false end.

Lemma last_in_newtype outer (A : Type) (x y : A) :
  match last (map Some outer) None with Some (NNewType _) => x | _ => y end = if in_newtype outer then x else y.
Proof.
  unfold in_newtype. destruct outer as [|n outer] using rev_ind; [reflexivity|].
  rewrite map_app, rev_app_distr. cbn. rewrite last_last. now destruct n.
Qed.

Lemma in_newtype_snoc outer n : in_newtype (outer ++ [n]) = match n with NNewType _ => true | _ => false end.
Proof. unfold in_newtype. rewrite rev_app_distr. cbn. now destruct n. Qed.

Lemma options_app a b : options (a ++ b) = options a + options b.
Proof. unfold options, lenN. rewrite filter_app, app_length. lia. Qed.

Lemma as_some_iff (t : ty semid) r : as_some t = Some r <-> option_type t r.
Proof.
  unfold option_type. split.
  - destruct t as [| | |vs| | | | | |]; try discriminate. destruct vs as [|[v0 r0] [|[v1 r1] [|]]]; try discriminate.
    cbn. destruct ((v_name v0 =? "none")%string) eqn:A; [|discriminate].
    destruct (v_tag v0 =? 0) eqn:B; [|discriminate].
    destruct ((v_name v1 =? "some")%string) eqn:C; [|discriminate].
    destruct (v_tag v1 =? 1) eqn:D; [|discriminate].
    cbn. apply String.eqb_eq in A, C. apply N.eqb_eq in B, D. intros [= ->]. exists r0.
    destruct v0, v1. cbn in *. subst. reflexivity.
  - intros [r0 ->]. reflexivity.
Qed.

Section Visit.
Variables (dbg : bool) (sys : symbolic_sys).
Hypothesis ORD : ordered (ss_types sys).
Hypothesis ITER : iterable dbg (ss_types sys).
Notation types := (ss_types sys).
Notation name := (lookup (ss_symbols sys)).

Lemma get_In id t : In (id, t) types -> sys_get types id = Some t.
Proof. intros I. now apply sys_get_In. Qed.

Lemma find_In id t : sys_find types id = Some t <-> In (id, t) types.
Proof.
  unfold sys_find. split.
  - destruct (find (fun e => fst e =? id) types) as [[i t']|] eqn:F; [|discriminate]. intros [= ->]. apply find_some in F. destruct F as [I E].
    apply N.eqb_eq in E. cbn in E. now subst i.
  - intros I. destruct (find (fun e => fst e =? id) types) as [[i t']|] eqn:F.
    + apply find_some in F. destruct F as [I' E]. apply N.eqb_eq in E. cbn in E. subst i. cbn. f_equal. eapply ordered_unique; eauto.
    + apply (find_none _ _ F) in I. cbn in I. rewrite N.eqb_refl in I. discriminate.
Qed.

(** From a path the collection goes on with [l], whatever the rest of the state. *)
Definition resumes path l := forall id item depth, collected dbg sys (mkIter id None item depth path []) l.

Lemma resumes_end : resumes [] [].
Proof. intros id item depth. apply (collected_intro _ _ _ _ 2). reflexivity. Qed.

Lemma iter_next_some {R} (t : ty R) pos r : lenN (refs t) <= (if dbg then 254 else 255) -> ty_at t pos = Some r ->
  iter_next dbg t pos = Ok (Some (r, case_at t pos), pos + 1).
Proof.
  intros B E. unfold iter_next. rewrite E. unfold u8_incr.
  assert (pos < lenN (refs t)).
  { rewrite ty_at_refs in E. assert (H : nth_error (refs t) (N.to_nat pos) <> None) by congruence.
    apply nth_error_Some in H. unfold lenN. lia. }
  destruct (N.eqb_spec pos 255) as [->|]; [destruct dbg; lia|reflexivity].
Qed.

Lemma iter_next_none {R} (t : ty R) pos : pos <= (if dbg then 254 else 255) -> ty_at t pos = None ->
  exists pos', iter_next dbg t pos = Ok (None, pos').
Proof.
  intros B E. unfold iter_next. rewrite E. unfold u8_incr.
  destruct (N.eqb_spec pos 255) as [->|]; [destruct dbg; [lia|]|]; eexists; reflexivity.
Qed.

Lemma bound id t : In (id, t) types -> lenN (refs t) <= (if dbg then 254 else 255).
Proof. intros I. pose proof (proj1 (Forall_forall _ _) ITER _ I) as B. exact B. Qed.

(** An exhausted iterator is popped. *)
Lemma resumes_pop id t d path l nested id' item depth : In (id, t) types -> resumes path l ->
  collected dbg sys (mkIter id' None item depth ((d, (t, lenN (refs t))) :: path) nested) l.
Proof.
  intros I R. destruct (iter_next_none t (lenN (refs t))) as [p' E].
  - eapply bound, I.
  - rewrite ty_at_refs. apply nth_error_None. unfold lenN. lia.
  - eapply collected_step; [|apply (R id' item d)]. intros f. cbn [tree_next ti_ty ti_path]. now rewrite E.
Qed.

Lemma case_known id t pos r c : In (id, t) types -> nth_error (components t) pos = Some (r, c) ->
  ty_at t (N.of_nat pos) = Some r /\ case_at t (N.of_nat pos) = known_role c.
Proof.
  intros I E. destruct (match t with TTuple _ => true | _ => false end) eqn:T.
  - destruct t as [| | | |fs| | | | |]; try discriminate. unfold components in E. rewrite number_nth in E.
    destruct (nth_error fs pos) as [x|] eqn:F; [|discriminate]. injection E as <- <-. cbn [known_role].
    rewrite ty_at_refs, Nnat.Nat2N.id. split; [exact F|].
    destruct (case_at (TTuple fs) (N.of_nat pos)) as [c|] eqn:C; [|reflexivity]. exfalso. apply (case_tuple fs (N.of_nat pos) c); [|exact C].
    assert (H : nth_error fs pos <> None) by congruence. apply nth_error_Some in H. unfold lenN. lia.
  - assert (NT : forall fs, t <> TTuple fs) by (intros fs ->; discriminate).
    pose proof (components_nth t (N.of_nat pos) NT) as Q. rewrite Nnat.Nat2N.id, E in Q.
    destruct (ty_at t (N.of_nat pos)) as [r'|] eqn:A; [|discriminate].
    destruct (case_at t (N.of_nat pos)) as [c'|] eqn:B; [|discriminate].
    injection Q as <- <-. split; [reflexivity|].
    destruct t; try discriminate T; cbn [case_at] in B; try discriminate B;
      repeat match type of B with
             | context [option_map _ ?x] => destruct x; cbn [option_map] in B
             | context [if ?x then _ else _] => destruct x
             end; try discriminate B; try (injection B as <-; reflexivity).
Qed.

Lemma components_len {R} (t : ty R) : List.length (components t) = List.length (refs t).
Proof.
  assert (N : forall A B (f : N -> A -> B) l pos, List.length (number f pos l) = List.length l).
  { intros A B f l. induction l; intros; cbn; auto. }
  destruct t; cbn; rewrite ?N, ?map_length; reflexivity.
Qed.

(** What is visited when the iterator comes to a type. *)
Definition visits id role outer tr := forall t depth path l,
  In (id, t) types -> few_wrappers tr -> resumes path l ->
  collected dbg sys (mkIter id (Some t) role (depth + options outer) path outer) (items_of depth tr ++ l).

Lemma visit_children id t depth path l : In (id, t) types -> resumes path l ->
  forall (cs : list (semid * item_case)) trs,
  Forall2 (fun c tr => laid sys (fst c) (known_role (snd c)) [] tr /\ visits (fst c) (known_role (snd c)) [] tr) cs trs ->
  forall pos, (pos <= List.length (components t))%nat -> skipn pos (components t) = cs ->
  fold_right (fun tr P => few_wrappers tr /\ P) True trs ->
  resumes ((depth, (t, N.of_nat pos)) :: path) (flat_map (items_of depth) trs ++ l).
Proof.
  intros I R cs trs F. induction F as [|[r c] tr cs trs [L V] F IH]; intros pos LE S W id' item dp.
  - cbn [flat_map app].
    replace (N.of_nat pos) with (lenN (refs t)). { eapply resumes_pop; eauto. }
    unfold lenN. rewrite <- components_len. f_equal. apply (f_equal (@List.length _)) in S. rewrite skipn_length in S. cbn in S. lia.
  - assert (E : nth_error (components t) pos = Some (r, c)).
    { rewrite <- (firstn_skipn pos (components t)), S, nth_error_app2, firstn_length_le, Nat.sub_diag; [reflexivity|exact LE|].
      rewrite firstn_length_le by exact LE. lia. }
    destruct (case_known _ _ _ _ _ I E) as [A B].
    destruct (laid_In _ _ _ _ _ L) as [rt It]. cbn [fst] in It.
    cbn [fold_right] in W. destruct W as [W1 W2].
    eapply collected_step with (st' := mkIter r (Some rt) (known_role c) (depth + options []) ((depth, (t, N.of_nat (Datatypes.S pos))) :: path) []).
    + intros f. cbn [tree_next ti_ty ti_path]. rewrite (iter_next_some t _ r (bound _ _ I) A). cbn [bind ti_nested map last].
      rewrite (get_In _ _ It), B. repeat f_equal; unfold options; cbn; lia.
    + cbn [flat_map]. rewrite <- app_assoc. apply V; [exact It|exact W1|]. apply IH; [| |exact W2].
      * apply nth_error_Some. congruence.
      * rewrite (skipn_nth _ _ _ E) in S. now injection S.
Qed.

Lemma visit_leaf id t role outer tr ws depth path l p : In (id, t) types -> resumes path l ->
  tr = Tree t (name id) role (outer ++ ws) [] -> options ws = 0 ->
  visit_type dbg sys (name id) t = Ok p -> p_nested p = ws -> p_ret p = true ->
  (p_push p = true -> p_pos p = lenN (refs t)) -> few_wrappers tr ->
  collected dbg sys (mkIter id (Some t) role (depth + options outer) path outer) (items_of depth tr ++ l).
Proof.
  intros I R -> O V P1 P2 P3 [W _]. cbn [items_of flat_map app].
  set (d' := if p_dive p then depth + options outer + 1 else depth + options outer).
  apply collected_emit with
    (st' := mkIter id None None d' (if p_push p then (d', (t, p_pos p)) :: path else path) []).
  - intros f. cbn [tree_next ti_ty ti_id ti_depth ti_path ti_nested ti_item]. rewrite V. cbn [bind]. rewrite P2, P1. fold d'.
    destruct (N.leb_spec (lenN (outer ++ ws)) u8_max) as [|X]; [|exfalso; revert X W; unfold u8_max; lia].
    rewrite options_app, O. repeat f_equal. lia.
  - destruct (p_push p) eqn:PP; [|apply R]. rewrite P3 by reflexivity. eapply resumes_pop; eauto.
Qed.

Lemma visit_newtype r fqn : visit_type dbg sys fqn (TTuple [r]) = Ok (mkPlan [NNewType fqn] false true false 0).
Proof. reflexivity. Qed.

Lemma visit_option t r fqn : option_type t r -> visit_type dbg sys fqn t = Ok (mkPlan [NOption] true true false 1).
Proof. intros [r0 ->]. reflexivity. Qed.

Lemma chars_enum t a : chars_type t = Some a -> char_enum t = true.
Proof. intros E. rewrite char_enum_spec, E. reflexivity. Qed.

Lemma incr64_ok E x : x < u64_max -> @incr64 E dbg x = Ok (x + 1).
Proof. intros L. unfold incr64. destruct (N.eqb_spec x u64_max); [lia|reflexivity]. Qed.

Lemma visit_plain t fqn : plain types t -> visit_type dbg sys fqn t = Ok (mkPlan [] true true true 0).
Proof.
  intros P. unfold visit_type. destruct t as [p| |vs|vs|fs|fs|r len|r s|r s|k r s]; try reflexivity.
  - cbn [is_newtype]. unfold is_option. destruct (as_some (TUnion vs)) as [r|] eqn:A; [|reflexivity].
    apply as_some_iff in A. destruct (P r A).
  - destruct P as [P1 P2]. cbn [is_newtype]. rewrite (proj2 (N.eqb_neq _ _) P1).
    cbn [is_option as_some]. destruct fs as [|a [|b [|]]]; try reflexivity.
    destruct (sys_get types a) as [ta|] eqn:A; [|reflexivity].
    destruct (sys_get types b) as [tb|] eqn:B; [|reflexivity].
    destruct tb as [| | | | | | |r s| |]; try reflexivity.
    destruct (char_enum ta) eqn:C; [|reflexivity]. cbn [andb].
    destruct (sys_get types r) as [tr|] eqn:G; [|reflexivity].
    destruct (char_enum tr) eqn:D; [|reflexivity]. exfalso.
    rewrite char_enum_spec in C, D.
    destruct (chars_type ta) as [a1|] eqn:C1; [|discriminate]. destruct (chars_type tr) as [a2|] eqn:D1; [|discriminate].
    destruct s as [mi ma]. apply (P2 a1 a2 mi ma).
    apply (Restricted _ _ _ _ _ _ a b r ta tr eq_refl); try assumption; apply find_In; apply sys_get_In; assumption.
  - cbn. destruct (is_byte_id r) eqn:B; [|reflexivity]. apply byte_item_iff in B. now destruct (P B).
  - destruct P as (rt & I & C & N1 & N2 & N3). cbn [is_newtype is_option as_some].
    rewrite (get_In _ _ I). cbn [expect bind]. rewrite char_enum_spec, C.
    destruct rt as [c| | | | | | | | |]; try reflexivity; try congruence. cbn [is_byte_ty].
    destruct (N.eqb_spec c P_BYTE) as [->|]; [congruence|]. destruct (N.eqb_spec c P_U8) as [->|]; [congruence|]. reflexivity.
Qed.

Theorem visits_all id role outer tr : laid sys id role outer tr -> visits id role outer tr.
Proof.
  apply laid_ind'; clear id role outer tr.
  - intros id r role outer tr I L IH t depth path l I' W R.
    assert (t = TTuple [r]) as -> by (eapply ordered_unique; eauto).
    eapply collected_step; [intros f; cbn [tree_next ti_ty]; rewrite visit_newtype; reflexivity|].
    destruct (laid_In _ _ _ _ _ L) as [rt Ir].
    cbn [bind p_dive p_push p_nested p_pos ti_id ti_item ti_depth ti_path ti_nested].
    eapply collected_step.
    + intros f. cbn [tree_next ti_ty ti_path]. rewrite (iter_next_some (TTuple [r]) 0 r (bound _ _ I) eq_refl). cbn [bind ti_nested ti_item].
      rewrite (last_in_newtype (outer ++ _)), in_newtype_snoc, (get_In _ _ Ir). reflexivity.
    + replace (depth + options outer) with (depth + options (outer ++ [NNewType (name id)])).
      2:{ rewrite options_app. unfold options. cbn. lia. }
      apply IH; [exact Ir|exact W|]. intros id' item d. 
      exact (resumes_pop _ _ _ _ _ _ _ _ _ I R).
  - intros id t r role outer tr I O L IH t' depth path l I' W R.
    assert (t' = t) as -> by (eapply ordered_unique; eauto).
    eapply collected_step; [intros f; cbn [tree_next ti_ty]; rewrite (visit_option _ _ _ O); reflexivity|].
    destruct (laid_In _ _ _ _ _ L) as [rt Ir].
    cbn [bind p_dive p_push p_nested p_pos ti_id ti_item ti_depth ti_path ti_nested].
    eapply collected_step.
    + intros f. cbn [tree_next ti_ty ti_path].
      rewrite (iter_next_some t 1 r (bound _ _ I)) by (destruct O as [r0 ->]; reflexivity). cbn [bind ti_nested ti_item].
      rewrite (last_in_newtype (outer ++ _)), in_newtype_snoc, (get_In _ _ Ir). reflexivity.
    + replace (depth + options outer + 1) with (depth + options (outer ++ [NOption])).
      2:{ rewrite options_app. unfold options. cbn. lia. }
      replace (case_at t 1) with (Some (CUnionVariant 1 "some")) by (destruct O as [r0 ->]; reflexivity).
      apply IH; [exact Ir|exact W|]. intros id' item d.
      replace (1 + 1) with (lenN (refs t)) by (destruct O as [r0 ->]; reflexivity).
      exact (resumes_pop _ _ _ _ _ _ _ _ _ I R).
  - intros id first rest r t1 t2 a1 a2 mi ma role outer I I1 C1 I2 I3 C2 M1 M2 t depth path l I' W R.
    assert (t = TTuple [first; rest]) as -> by (eapply ordered_unique; eauto).
    eapply visit_leaf; [exact I|exact R|reflexivity|reflexivity| | | | |exact W].
    + unfold visit_type. cbn [is_newtype is_option as_some lenN List.length].
      rewrite (get_In _ _ I1), (get_In _ _ I2), (get_In _ _ I3), (chars_enum _ _ C1), (chars_enum _ _ C2). cbn [andb s_min s_max].
      rewrite !incr64_ok by assumption. reflexivity.
    + reflexivity.
    + reflexivity.
    + reflexivity.
  - intros id r rt a s role outer I I1 C t depth path l I' W R.
    assert (t = TList r s) as -> by (eapply ordered_unique; eauto).
    eapply visit_leaf; [exact I|exact R|reflexivity|reflexivity| | | | |exact W].
    + unfold visit_type. cbn [is_newtype is_option as_some]. rewrite (get_In _ _ I1). cbn [expect bind]. rewrite (chars_enum _ _ C). reflexivity.
    + reflexivity.
    + reflexivity.
    + discriminate.
  - intros id r p s role outer I I1 C t depth path l I' W R.
    assert (t = TList r s) as -> by (eapply ordered_unique; eauto).
    eapply visit_leaf; [exact I|exact R|reflexivity|reflexivity| | | | |exact W].
    + unfold visit_type. cbn [is_newtype is_option as_some]. rewrite (get_In _ _ I1). destruct C as [-> | ->]; reflexivity.
    + reflexivity.
    + reflexivity.
    + discriminate.
  - intros id r s role outer I I1 t depth path l I' W R.
    assert (t = TList r s) as -> by (eapply ordered_unique; eauto).
    eapply visit_leaf; [exact I|exact R|reflexivity|reflexivity| | | | |exact W].
    + unfold visit_type. cbn [is_newtype is_option as_some]. rewrite (get_In _ _ I1). reflexivity.
    + reflexivity.
    + reflexivity.
    + discriminate.
  - intros id r len role outer I B t depth path l I' W R.
    assert (t = TArray r len) as -> by (eapply ordered_unique; eauto).
    eapply visit_leaf with (ws := []); [exact I|exact R|now rewrite app_nil_r|reflexivity| | | | |exact W].
    + unfold visit_type. cbn [is_newtype is_option as_some is_byte_array]. rewrite (proj1 (byte_item_iff r) B). reflexivity.
    + reflexivity.
    + reflexivity.
    + discriminate.
  - intros id t role outer trs I P F t' depth path l I' W R.
    assert (t' = t) as -> by (eapply ordered_unique; eauto). destruct W as [W1 W2].
    cbn [items_of]. rewrite <- app_comm_cons.
    eapply collected_emit.
    + intros f. cbn [tree_next ti_ty ti_id]. rewrite (visit_plain _ _ P). cbn [bind p_ret p_nested p_dive p_push p_pos ti_nested ti_path ti_depth].
      rewrite app_nil_r. destruct (N.leb_spec (lenN outer) u8_max) as [|X]; [|exfalso; revert X W1; unfold u8_max; lia]. reflexivity.
    + apply (visit_children id t _ path l I R _ _ F 0%nat); [lia|reflexivity|exact W2].
Qed.
End Visit.
