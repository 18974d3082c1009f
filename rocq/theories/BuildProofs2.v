(** Proofs about assembled type systems. *)
From Coq Require Import NArith List Bool String Sorted Permutation Lia.
From Verif Require Import Base Ty Ids TypeSys Spec SpecIds SpecSys TyProofs LibCodec Build SpecBuild BuildProofs.
Import ListNotations.
Local Open Scope N_scope.
Local Opaque tagged_hash.

Lemma build_eq dbg ls : exists b, built ls b /\ build dbg ls = finalize dbg b.
Proof.
  destruct (built_all ls [] builder_new built_new) as (b & E & B). exists b. split; [exact B|].
  unfold build. now rewrite E.
Qed.

Lemma built_sorted ls b : built ls b -> sorted (b_types b).
Proof. intros B. rewrite (built_types _ _ B). apply add_defs_sorted. constructor. Qed.

(** The systems which come out. *)
Lemma finalize_ok dbg ls b s : built ls b -> finalize dbg b = Ok s ->
  b_pending b = [] /\ lenN (b_imported b) <= u16_max /\ lenN (b_types b) <= u24_max
  /\ s = mkSymSys (mkSymbols (b_imported b) (plain_symbols (b_types b))) (plain_types (b_types b)).
Proof.
  intros B F. unfold finalize in F. destruct (inner_errors _ _ _) as [es|[]| |]; cbn [no_err bind] in F; try discriminate F.
  destruct (b_pending b) as [|p ps]; cbn [map app] in F; [|discriminate F]. split; [reflexivity|].
  destruct es as [|e es]; [|discriminate F].
  unfold symsys_with, symbols_with in F. rewrite (fold_insert_id (b_imported b) []) in F by apply (built_order _ _ B).
  cbn [app] in F. destruct (N.leb_spec (lenN (b_imported b)) u16_max) as [L|L]; [|discriminate F]. split; [exact L|].
  cbn [bind] in F. pose proof (with_loop_eq (b_imported b) (b_types b) [] (built_sorted _ _ B)) as W.
  cbn [app plain_types plain_symbols map] in W.
  unfold types_map, definition, type_system, semid in *. rewrite W in F by (cbv; discriminate).
  destruct (N.leb_spec (@lenN (N * sym_ty) (b_types b)) u24_max) as [L2|L2]; [|discriminate F].
  split; [exact L2|]. injection F as <-. reflexivity.
Qed.

Lemma types_get ls b id : built ls b ->
  om_get N.compare id (b_types b) = option_map snd (find (fun d => def_id d =? id) (rev (libs_defs ls))).
Proof.
  intros B. rewrite (built_types _ _ B), add_defs_get by constructor. unfold def_id.
  unfold definition, semid in *. destruct (find _ _); reflexivity.
Qed.

Lemma types_keys ls b id : built ls b -> (In id (map fst (b_types b)) <-> In id (map def_id (libs_defs ls))).
Proof.
  intros B. pose proof (types_get ls b id B) as G. split; intros I.
  - destruct (find _ _) as [d|] eqn:F; cbn in G.
    + apply find_some in F as [F E]. apply N.eqb_eq in E. apply in_rev in F. rewrite <- E. now apply in_map.
    + now apply get_none in G.
  - apply in_map_iff in I as (d & <- & I). destruct (find _ _) as [d'|] eqn:F; cbn in G.
    + apply get_In in G; [|now apply (built_sorted ls)]. now apply (in_map fst) in G.
    + exfalso. apply in_rev in I. apply (find_none _ _ F) in I. rewrite N.eqb_refl in I. discriminate I.
Qed.

Lemma types_In ls b id i : built ls b -> In (id, i) (b_types b) -> In (id, i) (libs_defs ls).
Proof.
  intros B I. apply get_In in I; [|now apply (built_sorted ls)]. rewrite (types_get ls b id B) in I.
  destruct (find _ _) as [d|] eqn:F; cbn in I; [|discriminate]. injection I as <-.
  apply find_some in F as [F E]. apply N.eqb_eq in E. apply in_rev in F. subst id. unfold def_id. now destruct d.
Qed.

Lemma types_one ls b d : built ls b -> In d (libs_defs ls) ->
  (forall d', In d' (libs_defs ls) -> def_id d' = def_id d -> snd d' = snd d) -> In d (b_types b).
Proof.
  intros B I U. assert (K : In (def_id d) (map fst (b_types b))) by (apply (types_keys ls b _ B); now apply in_map).
  apply in_map_iff in K as ([id i] & E & K). pose proof (types_In _ _ _ _ B K) as K'. cbn in E.
  pose proof (U _ K' E) as X. cbn in X. destruct d as [id' i']. unfold def_id in E. cbn in E, X. subst id' i'. exact K.
Qed.

Lemma types_consistent ls b d : built ls b -> consistent (libs_defs ls) -> In d (libs_defs ls) ->
  In (def_id d, def_ty d) (plain_types (b_types b)).
Proof.
  intros B C I. assert (K : In (def_id d) (map fst (b_types b))) by (apply (types_keys ls b _ B); now apply in_map).
  apply in_map_iff in K as ([id i] & E & K). pose proof (types_In _ _ _ _ B K) as K'.
  unfold plain_types. apply in_map_iff. exists (id, i). split; [|exact K]. cbn in *.
  rewrite <- (C _ _ K' I E). now rewrite E.
Qed.

Lemma plain_sorted m : sorted m -> sorted (plain_types m).
Proof.
  unfold sorted. induction 1 as [|e m S IH F]; cbn; constructor; [exact IH|].
  unfold plain_types. rewrite Forall_map. exact F.
Qed.
Lemma plain_get m id : om_get N.compare id (plain_types m) = option_map st_ty (om_get N.compare id m).
Proof. induction m as [|[k v] m IH]; cbn; [reflexivity|]. destruct (id ?= k); auto. Qed.
Lemma plain_keys m : map fst (plain_types m) = map fst m.
Proof. unfold plain_types. now rewrite map_map. Qed.

(** The order of imports. *)
Lemma libs_defs_perm ls ls' : Permutation ls ls' -> Permutation (libs_defs ls) (libs_defs ls').
Proof. apply Permutation_flat_map. Qed.

Lemma types_perm ls ls' b b' : built ls b -> built ls' b' -> Permutation ls ls' -> consistent (libs_defs ls) ->
  plain_types (b_types b') = plain_types (b_types b).
Proof.
  intros B B' P C. pose proof (libs_defs_perm _ _ P) as PD.
  assert (C' : consistent (libs_defs ls')).
  { pose proof (Permutation_sym PD) as DP. intros d d' I I'. apply C; eapply Permutation_in; eauto. }
  assert (X : forall ls0 ls1 b0 b1, built ls0 b0 -> built ls1 b1 -> Permutation (libs_defs ls0) (libs_defs ls1) ->
    consistent (libs_defs ls1) -> forall id t, In (id, t) (plain_types (b_types b0)) -> In (id, t) (plain_types (b_types b1))).
  { intros ls0 ls1 b0 b1 B0 B1 P0 C1 id t I. unfold plain_types in I. apply in_map_iff in I as ([id' i] & [= -> <-] & I).
    apply (types_In _ _ _ _ B0) in I. apply (types_consistent ls1 b1 (id, i) B1 C1). eapply Permutation_in; eauto. }
  apply sorted_eq; [apply plain_sorted; now apply (built_sorted ls')|apply plain_sorted; now apply (built_sorted ls)|].
  intros k. pose proof (plain_sorted _ (built_sorted _ _ B)) as S. pose proof (plain_sorted _ (built_sorted _ _ B')) as S'.
  destruct (om_get N.compare k (plain_types (b_types b'))) as [t|] eqn:G.
  - symmetry. apply get_In; [exact S|]. apply get_In in G; [|exact S']. apply (X ls' ls b' b); auto. now apply Permutation_sym.
  - destruct (om_get N.compare k (plain_types (b_types b))) as [t|] eqn:G'; [|reflexivity].
    apply get_In in G'; [|exact S]. apply (X ls ls' b b' B B' PD C') in G'. apply get_In in G'; [|exact S']. congruence.
Qed.

Lemma inner_errors_plain dbg types types' todo todo' : sorted types -> sorted types' -> incl todo types -> incl todo' types' ->
  plain_types todo = plain_types todo' -> inner_errors dbg types todo = inner_errors dbg types' todo'.
Proof.
  intros S S'. revert todo'. induction todo as [|[id i] todo IH]; intros [|[id' i'] todo'] I I' E; try discriminate E; [reflexivity|].
  cbn [plain_types map fst snd] in E. injection E as E1 E2 E3. cbn [inner_errors]. rewrite E2.
  rewrite (proj2 (get_In id i types S)) by (apply I; now left).
  rewrite (proj2 (get_In id' i' types' S')) by (apply I'; now left).
  rewrite (IH todo'); [reflexivity| | |exact E3]; intros x X; [apply I|apply I']; now right.
Qed.

Lemma imported_perm ls ls' b b' : built ls b -> built ls' b' -> Permutation ls ls' ->
  lenN (b_imported b) = lenN (b_imported b').
Proof.
  intros B B' P. unfold lenN. rewrite <- (map_length d_id (b_imported b)), <- (map_length d_id (b_imported b')).
  f_equal. apply Permutation_length, NoDup_Permutation.
  - apply dsorted_NoDup, (built_order _ _ B).
  - apply dsorted_NoDup, (built_order _ _ B').
  - intros id. rewrite (built_imported _ _ B), (built_imported _ _ B'). split; apply Permutation_in, Permutation_map; auto.
    now apply Permutation_sym.
Qed.
Lemma missing_perm ls ls' id : Permutation ls ls' -> missing ls id -> missing ls' id.
Proof.
  intros P [(l & d & I & D & E) N]. split.
  - exists l, d. split; [eapply Permutation_in; eauto|auto].
  - intros l' I'. apply N. eapply Permutation_in; [apply Permutation_sym, P|exact I'].
Qed.

Lemma perm_ok dbg ls ls' s : Permutation ls ls' -> consistent (libs_defs ls) -> build dbg ls = Ok s ->
  exists s', build dbg ls' = Ok s' /\ ss_types s' = ss_types s.
Proof.
  intros P C E. destruct (build_eq dbg ls) as (b & B & Eb). destruct (build_eq dbg ls') as (b' & B' & Eb').
  rewrite Eb in E. rewrite Eb'. pose proof (finalize_ok _ _ _ _ B E) as (Pe & L1 & L2 & ->).
  pose proof (types_perm _ _ _ _ B B' P C) as T.
  assert (Pe' : b_pending b' = []).
  { destruct (b_pending b') as [|d p] eqn:Q; [reflexivity|]. exfalso.
    assert (M : missing ls' (d_id d)) by (apply (built_pending _ _ B'); rewrite Q; now left).
    apply (missing_perm _ ls) in M; [|now apply Permutation_sym]. apply (built_pending _ _ B) in M. now rewrite Pe in M. }
  unfold finalize in E |- *. rewrite Pe in E. rewrite Pe'.
  rewrite <- (inner_errors_plain dbg (b_types b) (b_types b') (b_types b) (b_types b')); auto using incl_refl;
    [|now apply (built_sorted ls)|now apply (built_sorted ls')].
  destruct (inner_errors _ _ _) as [es|[]| |]; cbn [no_err bind] in E |- *; try discriminate E.
  cbn [map app] in E |- *. destruct es as [|e es]; [|discriminate E]. clear E.
  unfold symsys_with, symbols_with. rewrite (fold_insert_id (b_imported b') []) by apply (built_order _ _ B').
  cbn [app]. rewrite <- (imported_perm _ _ _ _ B B' P). rewrite (proj2 (N.leb_le _ _) L1). cbn [bind].
  pose proof (with_loop_eq (b_imported b') (b_types b') [] (built_sorted _ _ B')) as W.
  cbn [app plain_types plain_symbols map] in W.
  assert (L3 : lenN (b_types b') <= u24_max).
  { rewrite <- lenN_plain, T, lenN_plain. exact L2. }
  unfold types_map, definition, type_system, semid in *. rewrite (proj2 (N.leb_le _ _) L3) in W. rewrite W by (cbv; discriminate).
  eexists. split; [reflexivity|]. cbn [ss_types]. exact T.
Qed.

(** Errors. *)
Lemma finalize_err dbg ls b es : built ls b -> finalize dbg b = Err es ->
  forall d, In (AbsentImport d) es <-> In d (b_pending b).
Proof.
  intros B F d. unfold finalize in F.
  assert (G : forall o, b_pending b = [] ->
    match symsys_with (b_imported b) (b_types b) with Ok s => Ok s | Err e => Err [e] | Panic => Panic | Diverge => Diverge end = o ->
    o = Err es -> In (AbsentImport d) es <-> In d (b_pending b)).
  { intros o Q E ->. rewrite Q. split; [|intros []]. intros I. exfalso. revert E.
    unfold symsys_with, symbols_with. rewrite (fold_insert_id (b_imported b) []) by apply (built_order _ _ B). cbn [app].
    destruct (_ <=? u16_max); cbn [bind].
    - pose proof (with_loop_eq (b_imported b) (b_types b) [] (built_sorted _ _ B)) as W.
      cbn [app plain_types plain_symbols map] in W.
      unfold types_map, definition, type_system, semid in *. rewrite W by (cbv; discriminate).
      destruct (@lenN (N * sym_ty) (b_types b) <=? u24_max); intros [= <-]; destruct I as [I|[]]; discriminate I.
    - intros [= <-]. destruct I as [I|[]]; discriminate I. }
  destruct (inner_errors dbg (b_types b) (b_types b)) as [es'|[]| |] eqn:IE; cbn [no_err bind] in F; try discriminate F.
  assert (X : forall q, ~ In (AbsentImport q) es').
  { clear - IE. revert IE. generalize (b_types b) at 1 as types. intros types. revert es'.
    induction (b_types b) as [|[id i] todo IH]; cbn [inner_errors]; intros es' IE q I.
    - injection IE as <-. destruct I.
    - destruct (type_refs dbg (st_ty i)) as [l|[]| |]; cbn [bind] in IE; try discriminate IE.
      destruct (inner_errors dbg types todo) as [es2|[]| |]; cbn [bind] in IE; try discriminate IE.
      injection IE as <-. apply in_app_or in I as [I|I]; [|now apply (IH es2 eq_refl q)].
      apply in_flat_map in I as (r & _ & I). destruct (om_get _ _ _); [destruct I|]. destruct I as [I|[]]. discriminate I. }
  destruct (b_pending b) as [|p ps] eqn:Q.
  - cbn [map app] in F. destruct es' as [|e es'].
    + now apply (G _ eq_refl eq_refl).
    + injection F as <-. split; [intros I; now apply X in I|intros []].
  - cbn [map app] in F. injection F as <-. split.
    + intros [[= <-]|I]; [now left|]. apply in_app_or in I as [I|I]; [|now apply X in I].
      apply in_map_iff in I as (x & [= <-] & I). now right.
    + intros [<-|I]; [now left|]. right. apply in_or_app. left. now apply in_map.
Qed.

(** Names. *)
Lemma find_unique {A} (f : A -> bool) l x : In x l -> f x = true -> (forall y, In y l -> f y = true -> y = x) ->
  find f l = Some x.
Proof.
  intros I F U. destruct (find f l) as [y|] eqn:E.
  - apply find_some in E as [E1 E2]. now rewrite (U y E1 E2).
  - now rewrite (find_none _ _ E x I) in F.
Qed.
Lemma fqn_eqb_eq p q : fqn_eqb p q = true <-> p = q.
Proof.
  unfold fqn_eqb. rewrite andb_true_iff, !String.eqb_eq. destruct p, q; cbn. split; [intros [-> ->]|intros [= -> ->]]; auto.
Qed.
Lemma symbol_of m y : In y (plain_symbols m) <-> In (ts_id y, ts_fqn y) (map (fun e => (fst e, st_orig (snd e))) m).
Proof.
  unfold plain_symbols. rewrite !in_map_iff. split.
  - intros (e & <- & I). now exists e.
  - intros (e & [= E1 E2] & I). exists e. split; [|exact I]. destruct y. cbn in *. congruence.
Qed.
Lemma symbols_unique m y y' : sorted m -> In y (plain_symbols m) -> In y' (plain_symbols m) -> ts_id y = ts_id y' -> y = y'.
Proof.
  intros S I I' E. unfold plain_symbols in *. apply in_map_iff in I as ([k v] & <- & I). apply in_map_iff in I' as ([k' v'] & <- & I').
  cbn in *. subst k'. apply get_In in I; [|exact S]. apply get_In in I'; [|exact S]. congruence.
Qed.
Lemma lookup_plain libs m id q : sorted m ->
  (lookup (mkSymbols libs (plain_symbols m)) id = Some q <-> In (mkSymbol id (Some q)) (plain_symbols m)).
Proof.
  intros S. unfold lookup. cbn [sy_symbols]. split.
  - destruct (find _ _) as [y|] eqn:F; [|discriminate]. apply find_some in F as [F E]. apply N.eqb_eq in E.
    intros Q. destruct y as [i f]. cbn in *. congruence.
  - intros I. rewrite (find_unique _ _ _ I); [reflexivity|apply N.eqb_refl|].
    intros y Iy E. apply N.eqb_eq in E. now apply (symbols_unique m).
Qed.
