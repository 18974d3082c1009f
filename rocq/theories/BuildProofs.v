(** Proofs about assembling type systems. *)
From Coq Require Import NArith List Bool String Sorted Permutation Lia.
From Verif Require Import Base Ty Ids TypeSys Spec SpecIds SpecSys TyProofs ExtractProofs LibCodec Build SpecBuild.
Import ListNotations.
Local Open Scope N_scope.

Local Opaque tagged_hash.

(** ** Maps ordered by numbers *)

Definition sorted {V} (m : list (N * V)) : Prop := StronglySorted (fun a b => fst a < fst b) m.

Lemma ins_In {V} k (v : V) m e : In e (om_insert N.compare k v m) -> e = (k, v) \/ In e m.
Proof.
  induction m as [|[k' v'] m IH]; cbn.
  - intros [<-|[]]. now left.
  - destruct (N.compare_spec k k') as [->|L|L]; cbn; intros [<-|I]; auto.
    apply IH in I as [->|I]; auto.
Qed.
Lemma ins_sorted {V} k (v : V) m : sorted m -> sorted (om_insert N.compare k v m).
Proof.
  unfold sorted. induction 1 as [|[k' v'] m S IH F]; cbn.
  - repeat constructor.
  - destruct (N.compare_spec k k') as [->|L|L].
    + constructor; assumption.
    + constructor; [constructor; assumption|]. constructor; [exact L|]. eapply Forall_impl; [|exact F].
      cbn. intros a. lia.
    + constructor; [exact IH|]. rewrite Forall_forall in *. intros e I. apply ins_In in I as [->|I]; cbn; [lia|].
      now apply F.
Qed.
Lemma get_ins {V} k (v : V) m k' : sorted m ->
  om_get N.compare k' (om_insert N.compare k v m) = if k' =? k then Some v else om_get N.compare k' m.
Proof.
  unfold sorted. induction 1 as [|[k1 v1] m S IH F]; cbn.
  - destruct (N.compare_spec k' k), (N.eqb_spec k' k); congruence || lia.
  - destruct (N.compare_spec k k1); cbn; rewrite ?IH;
      destruct (N.compare_spec k' k1), (N.compare_spec k' k), (N.eqb_spec k' k); subst; congruence || lia.
Qed.
Lemma get_In {V} k (v : V) m : sorted m -> (om_get N.compare k m = Some v <-> In (k, v) m).
Proof.
  unfold sorted. induction 1 as [|[k1 v1] m S IH F]; cbn; [split; [discriminate|intros []]|].
  rewrite Forall_forall in F.
  destruct (N.compare_spec k k1) as [->|L|L].
  - split; [intros [= ->]; now left|]. intros [[= <-]|I]; [reflexivity|]. apply F in I. cbn in I. lia.
  - rewrite IH. split; [now right|]. intros [[= -> ->]|I]; [lia|exact I].
  - rewrite IH. split; [now right|]. intros [[= -> ->]|I]; [lia|exact I].
Qed.
Lemma get_none {V} k (m : list (N * V)) : om_get N.compare k m = None <-> ~ In k (map fst m).
Proof.
  induction m as [|[k1 v1] m IH]; cbn; [tauto|].
  destruct (N.compare_spec k k1) as [->|L|L]; rewrite ?IH; (split; [|intuition]).
  - discriminate.
  - intros N [E|I]; [lia|tauto].
  - intros N [E|I]; [lia|tauto].
Qed.
Lemma sorted_keys {V} (m : list (N * V)) : sorted m -> NoDup (map fst m).
Proof.
  unfold sorted. induction 1 as [|[k v] m S IH F]; cbn; constructor; [|assumption].
  rewrite in_map_iff. intros (e & E & I). rewrite Forall_forall in F. apply F in I. cbn in I. lia.
Qed.
Lemma sorted_eq {V} (m m' : list (N * V)) : sorted m -> sorted m' ->
  (forall k, om_get N.compare k m = om_get N.compare k m') -> m = m'.
Proof.
  unfold sorted. intros S. revert m'. induction S as [|[k v] m S IH F]; intros m' S' E.
  - destruct m' as [|[k' v'] m']; [reflexivity|]. specialize (E k'). cbn in E. rewrite N.compare_refl in E. discriminate.
  - destruct m' as [|[k' v'] m'].
    { specialize (E k). cbn in E. rewrite N.compare_refl in E. discriminate. }
    inversion S' as [|? ? S1 F1]; subst.
    assert (k = k').
    { pose proof (E k) as A. pose proof (E k') as B. cbn in A, B. rewrite N.compare_refl in A, B.
      destruct (N.compare_spec k k') as [|L|L]; [assumption| |].
      - symmetry in A. apply get_In in A; [|exact S1]. rewrite Forall_forall in F1. apply F1 in A. cbn in A. lia.
      - rewrite (proj2 (N.compare_lt_iff _ _) L) in B. apply get_In in B; [|exact S].
        rewrite Forall_forall in F. apply F in B. cbn in B. lia. }
    subst k'.
    assert (v = v'). { specialize (E k). cbn in E. rewrite N.compare_refl in E. congruence. }
    subst v'. f_equal. apply IH; [exact S1|]. intros j. specialize (E j). cbn in E.
    destruct (N.compare_spec j k) as [X|L|L]; [subst j|exact E|exact E].
    assert (A : forall q : list (N * V), Forall (fun b => k < fst b) q -> om_get N.compare k q = None).
    { intros q Q. apply get_none. rewrite in_map_iff. intros (e & X & I). rewrite Forall_forall in Q. apply Q in I. lia. }
    rewrite (A m), (A m'); auto.
Qed.

(** Inserting definitions one after another: the last one with the id wins. *)
Definition add_defs (m : types_map) (ds : list definition) : types_map :=
  fold_left (fun m d => types_insert (fst d) (snd d) m) ds m.
Lemma add_defs_sorted ds : forall m, sorted m -> sorted (add_defs m ds).
Proof. induction ds as [|d ds IH]; intros m S; cbn; [exact S|]. apply IH. now apply ins_sorted. Qed.
Lemma add_defs_get ds : forall m k, sorted m -> om_get N.compare k (add_defs m ds) =
  match find (fun d => fst d =? k) (rev ds) with Some d => Some (snd d) | None => om_get N.compare k m end.
Proof.
  induction ds as [|d ds IH] using rev_ind; intros m k S; [reflexivity|].
  unfold add_defs in *. rewrite fold_left_app, rev_app_distr. cbn. unfold types_insert at 1.
  rewrite get_ins by (now apply (add_defs_sorted ds m)). rewrite (N.eqb_sym k). unfold definition, semid in *.
  destruct (fst d =? k); [reflexivity|]. now apply IH.
Qed.
Lemma add_defs_app m a b : add_defs m (a ++ b) = add_defs (add_defs m a) b.
Proof. apply fold_left_app. Qed.

Lemma add_defs_one m id i : add_defs m [(id, i)] = types_insert id i m.
Proof. reflexivity. Qed.
Arguments add_defs : simpl never.

(** ** Translation collects the definitions and replaces references by ids *)

Definition gathers {R} (rid : R -> semid) (rdefs : R -> list definition)
  (f : R -> types_map -> outcome build_error semid * types_map) : Prop :=
  forall r m, f r m = (Ok (rid r), add_defs m (rdefs r)).

Lemma gathers_ty {R} rid rdefs (f : R -> _) (t : ty R) m : gathers rid rdefs f ->
  translate_ty f t m = (Ok (map_ty rid t), add_defs m (flat_map rdefs (refs t))).
Proof.
  intros G.
  destruct t as [p| |vs|vs|fs|fs|r n|r s|r s|k r s]; cbn; try reflexivity.
  - assert (X : forall m, map_state (fun '(v, r) s => map_fst (fun r' => (v, r')) (f r s)) vs m
        = (Ok (map (fun e => (fst e, rid (snd e))) vs), add_defs m (flat_map rdefs (map snd vs)))).
    { clear m. induction vs as [|[v r] vs IH]; intros m; cbn; [reflexivity|].
      rewrite (G r m). cbn. rewrite IH, add_defs_app. reflexivity. }
    rewrite X. reflexivity.
  - assert (X : forall m, map_state f fs m = (Ok (map rid fs), add_defs m (flat_map rdefs fs))).
    { clear m. induction fs as [|r fs IH]; intros m; cbn; [reflexivity|].
      rewrite (G r m), IH, add_defs_app. reflexivity. }
    rewrite X. reflexivity.
  - assert (X : forall m, map_state (fun '(v, r) s => map_fst (fun r' => (v, r')) (f r s)) fs m
        = (Ok (map (fun e => (fst e, rid (snd e))) fs), add_defs m (flat_map rdefs (map snd fs)))).
    { clear m. induction fs as [|[v r] fs IH]; intros m; cbn; [reflexivity|].
      rewrite (G r m). cbn. rewrite IH, add_defs_app. reflexivity. }
    rewrite X. reflexivity.
  - rewrite (G r m), app_nil_r. reflexivity.
  - rewrite (G r m), app_nil_r. reflexivity.
  - rewrite (G r m), app_nil_r. reflexivity.
  - rewrite (G k m), (G r). cbn. rewrite app_nil_r, add_defs_app. reflexivity.
Qed.

Lemma gathers_ref2 : gathers ref2_id (fun _ => []) translate_ref2.
Proof. intros [[]|id|e] m; reflexivity. Qed.

Lemma gathers_inline {R} (cr : R -> bytes) rid rdefs f (t : ty R) m : gathers rid rdefs f ->
  translate_inline cr f t m =
  (Ok (sem_id_unnamed cr t),
   add_defs m (flat_map rdefs (refs t) ++ [(sem_id_unnamed cr t, mkSymTy None (map_ty rid t))])).
Proof.
  intros G. unfold translate_inline. rewrite (gathers_ty _ _ _ _ _ G), add_defs_app, add_defs_one. reflexivity.
Qed.
Lemma flat_map_nil {A B} (l : list A) : flat_map (fun _ => @nil B) l = [].
Proof. induction l; auto. Qed.
Lemma gathers_ref1 : gathers ref1_id ref1_defs translate_ref1.
Proof.
  intros [t|id|e] m; try reflexivity.
  unfold translate_ref1, translate_gref. rewrite (gathers_inline _ _ _ _ _ _ gathers_ref2), flat_map_nil. reflexivity.
Qed.
Lemma gathers_ref0 : gathers ref0_id ref0_defs translate_ref0.
Proof.
  intros [t|id|e] m; try reflexivity.
  unfold translate_ref0, translate_gref. rewrite (gathers_inline _ _ _ _ _ _ gathers_ref1). reflexivity.
Qed.
Lemma gathers_libref : gathers libref_id libref_defs translate_libref.
Proof.
  intros [t|id|e] m; try reflexivity.
  unfold translate_libref, translate_gref. rewrite (gathers_inline _ _ _ _ _ _ gathers_ref0). reflexivity.
Qed.

Lemma import_types_eq lib l : forall m, import_types lib l m = Ok (add_defs m (flat_map (type_defs lib) l)).
Proof.
  induction l as [|[n t] l IH]; intros m; [reflexivity|].
  cbn [import_types flat_map]. rewrite (gathers_ty _ _ _ _ _ gathers_libref), IH.
  unfold type_defs. cbn [fst snd]. rewrite !add_defs_app, add_defs_one. reflexivity.
Qed.

(** ** Sets of dependencies *)

Lemma set_insert_ids d s id : In id (map d_id (set_insert dep_cmp d s)) <-> id = d_id d \/ In id (map d_id s).
Proof.
  induction s as [|d' s IH]; cbn; [intuition|]. unfold dep_cmp at 1.
  destruct (N.compare_spec (d_id d) (d_id d')) as [E|L|L]; cbn; rewrite ?IH, ?E; intuition.
Qed.
Lemma fold_insert_ids l : forall s id,
  In id (map d_id (fold_left (fun s d => set_insert dep_cmp d s) l s)) <-> In id (map d_id l) \/ In id (map d_id s).
Proof.
  induction l as [|d l IH]; intros s id; cbn; [tauto|]. rewrite IH, set_insert_ids. intuition.
Qed.
Lemma set_mem_ids d s : set_mem dep_cmp d s = true <-> In (d_id d) (map d_id s).
Proof.
  unfold set_mem. rewrite existsb_exists, in_map_iff. unfold dep_cmp. split.
  - intros (x & I & E). exists x. destruct (N.compare_spec (d_id d) (d_id x)); now try discriminate.
  - intros (x & E & I). exists x. split; [exact I|]. rewrite E, N.compare_refl. reflexivity.
Qed.
Lemma set_remove_ids d s id : In id (map d_id (set_remove dep_cmp d s)) <-> In id (map d_id s) /\ id <> d_id d.
Proof.
  unfold set_remove, dep_cmp. rewrite !in_map_iff. split.
  - intros (x & <- & I). apply filter_In in I as [I E]. split; [now exists x|].
    intros A. rewrite A, N.compare_refl in E. discriminate.
  - intros [(x & <- & I) N]. exists x. split; [reflexivity|]. apply filter_In. split; [exact I|].
    destruct (N.compare_spec (d_id d) (d_id x)); congruence.
Qed.

(** The members of a set which is built by insertions are ordered by id. *)
Definition dsorted (s : list dependency) : Prop := StronglySorted (fun a b => d_id a < d_id b) s.
Lemma set_insert_In d s x : In x (set_insert dep_cmp d s) -> x = d \/ In x s.
Proof.
  induction s as [|d' s IH]; cbn; [intuition|]. unfold dep_cmp at 1.
  destruct (N.compare_spec (d_id d) (d_id d')) as [E|L|L]; cbn; intuition.
Qed.
Lemma set_insert_sorted d s : dsorted s -> dsorted (set_insert dep_cmp d s).
Proof.
  unfold dsorted. induction 1 as [|d' s S IH F]; cbn; [repeat constructor|]. unfold dep_cmp at 1.
  destruct (N.compare_spec (d_id d) (d_id d')) as [E|L|L].
  - now constructor.
  - constructor; [now constructor|]. constructor; [exact L|]. eapply Forall_impl; [|exact F]. cbn. intros a. lia.
  - constructor; [exact IH|]. rewrite Forall_forall in *. intros x I. apply set_insert_In in I as [->|I]; auto.
Qed.
Lemma fold_insert_sorted l : forall s, dsorted s -> dsorted (fold_left (fun s d => set_insert dep_cmp d s) l s).
Proof. induction l as [|d l IH]; intros s S; cbn; [exact S|]. apply IH. now apply set_insert_sorted. Qed.
Lemma set_insert_last d s : dsorted s -> Forall (fun x => d_id x < d_id d) s -> set_insert dep_cmp d s = s ++ [d].
Proof.
  induction s as [|x s IH]; intros S F; [reflexivity|]. cbn. inversion F as [|? ? F1 F2]; subst. inversion S; subst. unfold dep_cmp at 1.
  rewrite (proj2 (N.compare_gt_iff _ _) F1), IH; auto.
Qed.
Lemma fold_insert_id l : forall s, dsorted (s ++ l) -> fold_left (fun s d => set_insert dep_cmp d s) l s = s ++ l.
Proof.
  induction l as [|d l IH]; intros s S; cbn; [now rewrite app_nil_r|].
  assert (A : dsorted s /\ Forall (fun x => d_id x < d_id d) s).
  { clear IH. induction s as [|x s IHs]; [split; constructor|]. cbn in S. inversion S as [|? ? S1 F]; subst.
    destruct (IHs S1) as [A B]. apply Forall_app in F as [F1 F2]. inversion F2; subst. split; constructor; assumption. }
  rewrite set_insert_last by apply A. rewrite IH; rewrite <- app_assoc; auto.
Qed.
Lemma dsorted_NoDup s : dsorted s -> NoDup (map d_id s).
Proof.
  unfold dsorted. induction 1 as [|d s S IH F]; cbn; constructor; [|assumption].
  rewrite in_map_iff. intros (e & E & I). rewrite Forall_forall in F. apply F in I. lia.
Qed.

(** ** The state of the builder after imports *)

Record built (ls : list type_lib) (b : builder) : Prop := {
  built_pending : forall id, In id (map d_id (b_pending b)) <-> missing ls id;
  built_imported : forall id, In id (map d_id (b_imported b)) <-> In id (map lib_id ls);
  built_from : forall d, In d (b_imported b) -> exists l, In l ls /\ d = mkDep (lib_id l) (l_name l);
  built_order : dsorted (b_imported b);
  built_pending_order : dsorted (b_pending b);
  built_types : b_types b = add_defs [] (libs_defs ls)
}.

Lemma set_remove_sorted d s : dsorted s -> dsorted (set_remove dep_cmp d s).
Proof.
  unfold dsorted, set_remove. induction 1 as [|x s S IH F]; cbn; [constructor|].
  destruct (dep_cmp d x); [exact IH| |]; (constructor; [exact IH|]; rewrite Forall_forall in *; intros y I;
    apply filter_In in I as [I _]; auto).
Qed.

Lemma built_import ls b l : built ls b -> exists b', import b l = Ok b' /\ built (ls ++ [l]) b'.
Proof.
  intros [P I W O PO T]. unfold import. rewrite import_types_eq. eexists. split; [reflexivity|].
  assert (A : forall id, In id (map d_id (set_insert dep_cmp (mkDep (lib_id l) (l_name l)) (b_imported b)))
              <-> In id (map lib_id (ls ++ [l]))).
  { intros id. rewrite set_insert_ids, I, map_app, in_app_iff. cbn [d_id map In]. intuition. }
  split; cbn [b_pending b_imported b_types].
  - intros id. rewrite fold_insert_ids, set_remove_ids, P. cbn [d_id]. split.
    + intros [D|[[(l' & d & Il & Id & E) N] NE]].
      * apply in_map_iff in D as (d & <- & D). apply filter_In in D as [D M]. split.
        -- exists l, d. split; [apply in_or_app; right; now left|auto].
        -- intros l' Il E. assert (X : set_mem dep_cmp d (set_insert dep_cmp (mkDep (lib_id l) (l_name l)) (b_imported b)) = true).
           { apply set_mem_ids, A. rewrite <- E. now apply in_map. }
           rewrite X in M. discriminate M.
      * split; [exists l', d; split; [apply in_or_app; now left|auto]|].
        intros l2 I2 E2. apply in_app_or in I2 as [I2|[<-|[]]]; [now apply (N l2)|congruence].
    + intros [(l' & d & Il & Id & E) N]. apply in_app_or in Il as [Il|[<-|[]]].
      * right. split; [split; [now exists l', d|]|].
        -- intros l2 I2. apply N, in_or_app. now left.
        -- intros X. apply (N l); [apply in_or_app; right; now left|congruence].
      * left. apply in_map_iff. exists d. split; [exact E|]. apply filter_In. split; [exact Id|].
        destruct (set_mem dep_cmp d _) eqn:M; [|reflexivity]. apply set_mem_ids, A, in_map_iff in M as (l2 & E2 & I2).
        exfalso. apply (N l2); [exact I2|congruence].
  - exact A.
  - intros d D. apply set_insert_In in D as [->|D].
    + exists l. split; [apply in_or_app; right; now left|reflexivity].
    + apply W in D as (l' & D & E). exists l'. split; [apply in_or_app; now left|exact E].
  - now apply set_insert_sorted.
  - apply fold_insert_sorted. now apply set_remove_sorted.
  - rewrite T. unfold libs_defs. rewrite flat_map_app. cbn [flat_map]. rewrite app_nil_r, add_defs_app. reflexivity.
Qed.
Lemma built_all ls : forall ls0 b, built ls0 b -> exists b', import_all b ls = Ok b' /\ built (ls0 ++ ls) b'.
Proof.
  induction ls as [|l ls IH]; intros ls0 b B.
  - exists b. rewrite app_nil_r. split; [reflexivity|exact B].
  - destruct (built_import _ _ l B) as (b1 & E & B1). destruct (IH _ _ B1) as (b2 & E2 & B2).
    exists b2. rewrite <- app_assoc in B2. split; [|exact B2]. cbn [import_all]. rewrite E. exact E2.
Qed.
Lemma built_new : built [] builder_new.
Proof.
  split; cbn; try tauto; try constructor; try reflexivity.
  - intros [].
  - intros [(l & _ & [] & _) _].
Qed.

(** ** Finalization *)

Definition plain_types (m : types_map) : type_system := map (fun e => (fst e, st_ty (snd e))) m.
Definition plain_symbols (m : types_map) : list type_symbol := map (fun e => mkSymbol (fst e) (st_orig (snd e))) m.

Lemma om_insert_last {V} k (v : V) m : Forall (fun e => fst e < k) m -> om_insert N.compare k v m = m ++ [(k, v)].
Proof.
  induction m as [|[k' v'] m IH]; intros F; [reflexivity|]. inversion F as [|? ? F1 F2]; subst. cbn in *.
  rewrite (proj2 (N.compare_gt_iff _ _) F1), IH; auto.
Qed.
Lemma symbol_cmp_gt s s' : ts_id s' < ts_id s -> symbol_cmp s s' = Gt.
Proof. intros L. unfold symbol_cmp. now rewrite (proj2 (N.compare_gt_iff _ _) L). Qed.
Lemma symbol_insert_last s m : Forall (fun e => ts_id e < ts_id s) m -> set_insert symbol_cmp s m = m ++ [s].
Proof.
  induction m as [|s' m IH]; intros F; [reflexivity|]. inversion F as [|? ? F1 F2]; subst. cbn.
  rewrite symbol_cmp_gt, IH; auto.
Qed.
Lemma lenN_plain done : lenN (plain_types done) = lenN done.
Proof. unfold lenN, plain_types. now rewrite map_length. Qed.
Lemma lenN_symbols done : lenN (plain_symbols done) = lenN done.
Proof. unfold lenN, plain_symbols. now rewrite map_length. Qed.

Lemma with_loop_eq libs types : forall done, sorted (done ++ types) -> lenN done <= u24_max ->
  with_loop types (plain_types done) (mkSymbols libs (plain_symbols done)) =
  if lenN (done ++ types) <=? u24_max
  then Ok (mkSymSys (mkSymbols libs (plain_symbols (done ++ types))) (plain_types (done ++ types)))
  else Err Confinement.
Proof.
  induction types as [|[id info] types IH]; intros done S L.
  - rewrite app_nil_r. rewrite (proj2 (N.leb_le _ _) L). reflexivity.
  - cbn [with_loop]. unfold insert_unchecked, confined_insert. rewrite lenN_plain.
    unfold types_map, definition, type_system, semid in *.
    assert (LL : lenN (done ++ (id, info) :: types) = lenN done + 1 + lenN types).
    { unfold lenN. rewrite app_length. cbn [List.length]. lia. }
    destruct (N.eqb_spec (lenN done) u24_max) as [E|NE].
    { rewrite LL. destruct (N.leb_spec (lenN done + 1 + lenN types) u24_max); [lia|reflexivity]. }
    assert (F : Forall (fun e => fst e < id) done).
    { clear - S. induction done as [|x done IH]; [constructor|]. cbn in S. inversion S as [|? ? S1 F]; subst.
      apply Forall_app in F as [_ F]. inversion F; subst. constructor; auto. }
    rewrite om_insert_last.
    2:{ unfold plain_types. rewrite Forall_map. eapply Forall_impl; [|exact F]. cbn. auto. }
    unfold update_unchecked. cbn [sy_symbols sy_libs].
    assert (F2 : Forall (fun e => ts_id e < id) (plain_symbols done)).
    { unfold plain_symbols. rewrite Forall_map. eapply Forall_impl; [|exact F]. cbn. auto. }
    assert (Q : find (fun p => match symbol_cmp (mkSymbol id (st_orig info)) p with Eq => true | _ => false end) (plain_symbols done) = None).
    { destruct (find _ _) as [p|] eqn:Q; [|reflexivity]. apply find_some in Q as [Q1 Q2].
      rewrite Forall_forall in F2. rewrite symbol_cmp_gt in Q2 by (now apply F2). discriminate. }
    rewrite Q, lenN_symbols. unfold types_map, definition, type_system, semid in *. rewrite (proj2 (N.eqb_neq _ _) NE). rewrite symbol_insert_last by exact F2.
    cbn [bind]. specialize (IH (done ++ [(id, info)])). rewrite <- app_assoc in IH. cbn [app] in IH.
    unfold plain_types, plain_symbols in *. rewrite !map_app in *. cbn [map fst snd] in IH. cbn [map fst snd].
    apply IH; [exact S|]. unfold lenN in *. rewrite app_length. cbn [List.length]. lia.
Qed.

Lemma inner_errors_ok (dbg : bool) types todo : incl todo types -> sorted types ->
  (forall d, In d todo -> lenN (refs (def_ty d)) <= if dbg then 254 else 255) ->
  inner_errors dbg types todo = Ok [].
Proof.
  intros I S B. induction todo as [|[id info] todo IH]; [reflexivity|]. cbn [inner_errors].
  destruct (type_refs_ok dbg (st_ty info)) as (l & -> & _ & _).
  { apply (B (id, info)). now left. }
  cbn [bind]. rewrite IH.
  2:{ intros x X. apply I. now right. }
  2:{ intros d D. apply B. now right. }
  cbn [bind]. rewrite app_nil_r. rewrite (proj2 (get_In id info types S)) by (apply I; now left).
  f_equal. induction l; auto.
Qed.

Lemma finalize_eq (dbg : bool) ls b : built ls b -> defs_iterable dbg (libs_defs ls) ->
  finalize dbg b =
  match b_pending b with
  | [] => if lenN (b_imported b) <=? u16_max
          then if lenN (b_types b) <=? u24_max
               then Ok (mkSymSys (mkSymbols (b_imported b) (plain_symbols (b_types b))) (plain_types (b_types b)))
               else Err [Confinement]
          else Err [Confinement]
  | p => Err (map AbsentImport p)
  end.
Proof.
  intros B It. pose proof (built_types _ _ B) as T.
  assert (S : sorted (b_types b)) by (rewrite T; apply add_defs_sorted; constructor).
  unfold finalize. rewrite inner_errors_ok; [|apply incl_refl|exact S|].
  2:{ intros [id info] D. apply get_In in D; [|exact S]. rewrite T, add_defs_get in D by constructor.
      destruct (find _ _) as [d|] eqn:F; [|discriminate]. apply find_some in F as [F _]. apply in_rev in F. injection D as <-.
      apply (It d F). }
  cbn [no_err bind]. rewrite app_nil_r. destruct (b_pending b) as [|p ps]; [|reflexivity]. cbn [map].
  unfold symsys_with, symbols_with. rewrite (fold_insert_id (b_imported b) []) by apply (built_order _ _ B).
  cbn [app]. destruct (lenN (b_imported b) <=? u16_max); [|reflexivity]. cbn [bind].
  pose proof (with_loop_eq (b_imported b) (b_types b) [] S) as W. cbn [app plain_types plain_symbols map] in W.
  unfold types_map, definition, type_system, semid in *. rewrite W by (cbv; discriminate).
  destruct (@lenN (N * sym_ty) (b_types b) <=? u24_max); reflexivity.
Qed.
