(** Properties of assembling type systems from libraries: C22-C25, C44-C47. *)
From Coq Require Import NArith List Bool String Sorted Permutation Lia.
From Verif Require Import Base Sha256 Ty Ids TypeSys Spec SpecIds SpecSys TyProofs IdProofs LibCodec SpecLib Build SpecBuild BuildProofs
  BuildProofs2 PropLib.
Import ListNotations.
Local Open Scope string_scope.
Local Open Scope N_scope.
Local Opaque tagged_hash.

(** ** Libraries used in the examples *)

(** What is decoded is well formed. *)
Ltac wf_lib := match goal with |- lib_wf ?l => apply (LibCodecProofs3.lib_distinct l [] (enc_lib l)); vm_compute; reflexivity end.

(** Small libraries. [ex_user] refers to both types of [ex_base], one of them within a definition in place. *)
Definition ex_base : type_lib := mkLib "Base" [] []
  [("Byte", TPrim P_BYTE); ("Id", TArray (RInline (TPrim P_U8)) 32)].
Definition ex_ext (n : string) (t : ty lib_ref) : lib_ref := RExtern (mkExtern (lib_id ex_base) (lib_type_id (n, t))).
Definition ex_user : type_lib := mkLib "User" [mkDep (lib_id ex_base) "Base"] []
  [("Key", TTuple [RExtern (mkExtern (lib_id ex_base) (lib_type_id ("Id", TArray (RInline (TPrim P_U8)) 32)))]);
   ("Keys", TList (RInline (TStruct [("key", RNamed (lib_type_id ("Byte", TPrim P_BYTE)))])) (mkSizing 0 255))].
Definition ex_libs := [ex_user; ex_base].
Example ex_libs_build : exists s, build true ex_libs = Ok s /\ lenN (ss_types s) = 6.
Proof. eexists. split; vm_compute; reflexivity. Qed.
Example ex_libs_consistent : consistent (libs_defs ex_libs).
Proof.
  assert (X : NoDup (map def_id (libs_defs ex_libs))).
  { assert (E : (fix nodup (l : list N) := match l with [] => true | x :: l => negb (existsb (N.eqb x) l) && nodup l end)
                  (map def_id (libs_defs ex_libs)) = true) by (vm_compute; reflexivity).
    revert E. generalize (map def_id (libs_defs ex_libs)) as l. induction l as [|x l IH]; intros E; constructor.
    - apply andb_prop in E as [E _]. intros I. apply negb_true_iff in E. rewrite <- not_true_iff_false, existsb_exists in E.
      apply E. exists x. split; [exact I|apply N.eqb_refl].
    - apply IH. now apply andb_prop in E as [_ E]. }
  intros d d' I I' E. assert (d = d'); [|congruence]. revert I I' E X. generalize (libs_defs ex_libs) as ds.
  induction ds as [|x ds IH]; intros I I' E X; [destruct I|]. cbn in X. inversion X as [|? ? N X']; subst.
  destruct I as [->|I], I' as [->|I']; auto.
  - exfalso. apply N. rewrite E. now apply in_map.
  - exfalso. apply N. rewrite <- E. now apply in_map.
Qed.

(** ** C22: completeness *)

(** A library may refer to a type nobody has, and is accepted. *)
Definition ex_dangling : type_lib := mkLib "Lib" [] [] [("Type", TTuple [RNamed 5])].
Theorem C22_refuted : exists l, lib_wf l /\ forall dbg, exists s, build dbg [l] = Ok s /\ ~ complete (ss_types s).
Proof.
  exists ex_dangling. split.
  { wf_lib. }
  intros dbg. exists (mkSymSys (mkSymbols [mkDep (lib_id ex_dangling) "Lib"]
    [mkSymbol (lib_type_id ("Type", TTuple [RNamed 5])) (Some (mkFqn "Lib" "Type"))])
    [(lib_type_id ("Type", TTuple [RNamed 5]), TTuple [5])]).
  split; [destruct dbg; vm_compute; reflexivity|].
  intros C. specialize (C _ _ 5 (or_introl eq_refl) (or_introl eq_refl)). destruct C as [C|[]].
  revert C. cbn [map fst]. apply N.eqb_neq. vm_compute. reflexivity.
Qed.
Print Assumptions C22_refuted.

(** The system is complete if each id referred to is the id of a definition given by some of the libraries. *)
Theorem C22_partial : forall dbg ls s, build dbg ls = Ok s ->
  (forall d r, In d (libs_defs ls) -> In r (refs (def_ty d)) -> In r (map def_id (libs_defs ls))) ->
  complete (ss_types s).
Proof.
  intros dbg ls s E H. destruct (build_eq dbg ls) as (b & B & Eb). rewrite Eb in E.
  destruct (finalize_ok _ _ _ _ B E) as (_ & _ & _ & ->). cbn [ss_types].
  intros id t r I R. rewrite plain_keys. apply (types_keys ls b r B).
  unfold plain_types in I. apply in_map_iff in I as ([id' i] & [= -> <-] & I). apply (types_In _ _ _ _ B) in I.
  now apply (H (id, i)).
Qed.
Example C22_case : forall d r, In d (libs_defs ex_libs) -> In r (refs (def_ty d)) -> In r (map def_id (libs_defs ex_libs)).
Proof.
  assert (E : forallb (fun d => forallb (fun r => existsb (N.eqb r) (map def_id (libs_defs ex_libs))) (refs (def_ty d)))
                (libs_defs ex_libs) = true) by (vm_compute; reflexivity).
  intros d r I R. rewrite forallb_forall in E. specialize (E d I). rewrite forallb_forall in E. specialize (E r R).
  apply existsb_exists in E as (x & Ix & E). apply N.eqb_eq in E. now subst x.
Qed.
Print Assumptions C22_partial.

(** ** C23: missing dependencies *)

Theorem C23_error : forall dbg ls es, build dbg ls = Err es ->
  forall id, missing ls id <-> exists d, In (AbsentImport d) es /\ d_id d = id.
Proof.
  intros dbg ls es E id. destruct (build_eq dbg ls) as (b & B & Eb). rewrite Eb in E.
  pose proof (finalize_err _ _ _ _ B E) as F. rewrite <- (built_pending _ _ B), in_map_iff. split.
  - intros (d & X & I). exists d. split; [now apply F|exact X].
  - intros (d & I & X). exists d. split; [exact X|now apply F].
Qed.
Theorem C23_success : forall dbg ls s, build dbg ls = Ok s -> forall id, ~ missing ls id.
Proof.
  intros dbg ls s E id. destruct (build_eq dbg ls) as (b & B & Eb). rewrite Eb in E.
  destruct (finalize_ok _ _ _ _ B E) as (P & _). rewrite <- (built_pending _ _ B), P. intros [].
Qed.
(** There is a result unless a type has as many components that iteration over them is broken, see
    [C37_refuted]. *)
Theorem C23_total : forall (dbg : bool) ls, defs_iterable dbg (libs_defs ls) ->
  (exists s, build dbg ls = Ok s) \/ exists es, build dbg ls = Err es.
Proof.
  intros dbg ls It. destruct (build_eq dbg ls) as (b & B & ->). rewrite (finalize_eq _ _ _ B It).
  destruct (b_pending b); [|eauto]. destruct (_ <=? u16_max); [|eauto]. destruct (_ <=? u24_max); eauto.
Qed.
Example C23_case : missing [ex_user] (lib_id ex_base) /\ ~ missing ex_libs (lib_id ex_base)
  /\ defs_iterable true (libs_defs ex_libs)
  /\ build true [ex_user] = Err [AbsentImport (mkDep (lib_id ex_base) "Base")].
Proof.
  split; [|split; [|split]].
  - split.
    + exists ex_user, (mkDep (lib_id ex_base) "Base"). split; [now left|]. split; [now left|reflexivity].
    + intros l [<-|[]]. apply N.eqb_neq. vm_compute. reflexivity.
  - intros [_ N]. apply (N ex_base); [right; now left|reflexivity].
  - assert (E : forallb (fun d => lenN (refs (def_ty d)) <=? 254) (libs_defs ex_libs) = true) by (vm_compute; reflexivity).
    rewrite forallb_forall in E. intros d I. apply N.leb_le. now apply E.
  - vm_compute. reflexivity.
Qed.
Print Assumptions C23_error.
Print Assumptions C23_success.
Print Assumptions C23_total.

(** ** C24: the order of imports *)

(** Not with two definitions having one id, as [C27_refuted] tells: *)
Definition ex_after : type_lib := mkLib "After" [] []
  [("Outer", TStruct [("inner", RInline (TStruct [("a", RNamed 1)])); ("b", RNamed 2)])].
Definition ex_inside : type_lib := mkLib "Inside" [] []
  [("Outer", TStruct [("inner", RInline (TStruct [("a", RNamed 1); ("b", RNamed 2)]))])].
Lemma two_results {E A B} (f : A -> B) (o o' : outcome E A) :
  match o, o' with Ok s, Ok s' => f s <> f s' | _, _ => False end -> exists s s', o = Ok s /\ o' = Ok s' /\ f s <> f s'.
Proof. destruct o as [s| | |], o' as [s'| | |]; try tauto. intros N. now exists s, s'. Qed.
Theorem C24_refuted : exists l l', lib_wf l /\ lib_wf l' /\ forall dbg, exists s s',
  build dbg [l; l'] = Ok s /\ build dbg [l'; l] = Ok s' /\ ss_types s <> ss_types s'.
Proof.
  exists ex_after, ex_inside.
  assert (W : lib_wf ex_after /\ lib_wf ex_inside).
  { split; wf_lib. }
  split; [apply W|]. split; [apply W|]. intros dbg.
  assert (E : match build dbg [ex_after; ex_inside], build dbg [ex_inside; ex_after] with
              | Ok s, Ok s' => flat_map (fun e => enc_ty enc_id (snd e)) (ss_types s)
                               <> flat_map (fun e => enc_ty enc_id (snd e)) (ss_types s')
              | _, _ => False end) by (destruct dbg; vm_compute; discriminate).
  apply (two_results (fun s => flat_map (fun e => enc_ty enc_id (snd e)) (ss_types s))) in E as (s & s' & A & B & E). exists s, s'. split; [exact A|]. split; [exact B|].
  intros X. apply E. now rewrite X.
Qed.
Print Assumptions C24_refuted.

(** With one type for each id the order has no influence, on success as well. *)
Theorem C24_partial : forall dbg ls ls' s, Permutation ls ls' -> consistent (libs_defs ls) -> build dbg ls = Ok s ->
  exists s', build dbg ls' = Ok s' /\ ss_types s' = ss_types s.
Proof. exact perm_ok. Qed.
Example C24_case : Permutation ex_libs [ex_base; ex_user] /\ consistent (libs_defs ex_libs)
  /\ exists s, build true ex_libs = Ok s.
Proof.
  split; [apply perm_swap|]. split; [apply ex_libs_consistent|]. destruct ex_libs_build as (s & E & _). now exists s.
Qed.
Print Assumptions C24_partial.

(** ** C47: the set of ids never depends on the order, nor does the id of the type system. *)

Theorem C47 : forall dbg ls ls' s s', (forall l, In l ls <-> In l ls') ->
  build dbg ls = Ok s -> build dbg ls' = Ok s' ->
  map fst (ss_types s) = map fst (ss_types s') /\ sys_id (ss_types s) = sys_id (ss_types s').
Proof.
  intros dbg ls ls' s s' P E E'.
  destruct (build_eq dbg ls) as (b & B & Eb). rewrite Eb in E. destruct (finalize_ok _ _ _ _ B E) as (_ & _ & _ & ->).
  destruct (build_eq dbg ls') as (b' & B' & Eb'). rewrite Eb' in E'. destruct (finalize_ok _ _ _ _ B' E') as (_ & _ & _ & ->).
  cbn [ss_types]. rewrite !plain_keys.
  assert (K : forall id, In id (map fst (b_types b)) <-> In id (map fst (b_types b'))).
  { intros id. rewrite (types_keys ls b id B), (types_keys ls' b' id B').
    assert (X : forall d, In d (libs_defs ls) <-> In d (libs_defs ls')).
    { intros d. unfold libs_defs. rewrite !in_flat_map. split; intros (l & I & D); exists l; (split; [now apply P|exact D]). }
    rewrite !in_map_iff. split; intros (d & D & I); exists d; (split; [exact D|now apply X]). }
  assert (Q : map fst (b_types b) = map fst (b_types b')).
  { pose proof (built_sorted _ _ B) as S. pose proof (built_sorted _ _ B') as S'. clear - K S S'.
    assert (T : forall m : types_map, sorted m -> StronglySorted N.lt (map fst m)).
    { unfold sorted. induction 1 as [|e m S0 IH F]; cbn; constructor; [exact IH|]. now rewrite Forall_map. }
    apply T in S. apply T in S'. revert K S S'. generalize (map fst (b_types b)) as l, (map fst (b_types b')) as l'.
    intros l l' K S. revert l' K. induction S as [|x l S IH F]; intros l' K S'.
    - destruct l' as [|y l']; [reflexivity|]. exfalso. apply (K y). now left.
    - destruct S' as [|y l' S' F']; [exfalso; apply (K x); now left|]. rewrite Forall_forall in F, F'.
      assert (x = y).
      { destruct (proj1 (K x) (or_introl eq_refl)) as [->|I]; [reflexivity|].
        destruct (proj2 (K y) (or_introl eq_refl)) as [->|I']; [reflexivity|].
        apply F' in I. apply F in I'. unfold semid in *. lia. }
      subst y. f_equal. apply IH; [|exact S']. intros z. specialize (K z). cbn in K. split; intros I.
      + destruct (proj1 K (or_intror I)) as [->|I']; [|exact I']. apply F in I. unfold semid in *. lia.
      + destruct (proj2 K (or_intror I)) as [->|I']; [|exact I']. apply F' in I. unfold semid in *. lia. }
  split; [exact Q|]. unfold sys_id, sys_message, lenN.
  assert (FM : forall s : type_system, flat_map (fun e => commit_id (fst e)) s = flat_map commit_id (map fst s)).
  { intros s. rewrite !flat_map_concat_map, map_map. reflexivity. }
  assert (LM : forall s : type_system, List.length s = List.length (map fst s)) by (intros s; now rewrite map_length).
  rewrite !FM, (LM (plain_types (b_types b))), (LM (plain_types (b_types b'))), !plain_keys, Q. reflexivity.
Qed.
Example C47_case : exists s s', build true ex_libs = Ok s /\ build true [ex_base; ex_user] = Ok s'.
Proof. eexists. eexists. split; vm_compute; reflexivity. Qed.
Print Assumptions C47.

(** ** C25: imported types are found *)

(** The name of a type is lost when a library imported later has a type with the same name and definition: *)
Definition ex_one : type_lib := mkLib "One" [] [] [("Byte", TPrim P_BYTE)].
Definition ex_two : type_lib := mkLib "Two" [] [] [("Byte", TPrim P_BYTE)].
Theorem C25_refuted : exists l l' name t, lib_wf l /\ lib_wf l' /\ In (name, t) (l_types l) /\
  forall dbg, exists s, build dbg [l; l'] = Ok s /\ resolve (ss_symbols s) (mkFqn (l_name l) name) = None.
Proof.
  exists ex_one, ex_two, "Byte", (TPrim P_BYTE). split; [wf_lib|]. split; [wf_lib|]. split; [now left|].
  intros dbg. exists (mkSymSys (mkSymbols (b_imported (match import_all builder_new [ex_one; ex_two] with Ok b => b | _ => builder_new end))
    [mkSymbol (lib_type_id ("Byte", TPrim P_BYTE)) (Some (mkFqn "Two" "Byte"))]) [(lib_type_id ("Byte", TPrim P_BYTE), TPrim P_BYTE)]).
  split; [destruct dbg; vm_compute; reflexivity|reflexivity].
Qed.
Print Assumptions C25_refuted.

(** The definition can be another one, which has the same id. *)
Theorem C25_definition_refuted : exists l l' nt, lib_wf l /\ lib_wf l' /\ In nt (l_types l) /\
  forall dbg, exists s, build dbg [l; l'] = Ok s
  /\ sys_get (ss_types s) (lib_type_id nt) <> Some (map_ty libref_id (snd nt)).
Proof.
  exists ex_after, ex_inside, (hd ("", TUnicode) (l_types ex_after)). split; [wf_lib|]. split; [wf_lib|]. split; [now left|].
  intros dbg.
  assert (E : match build dbg [ex_after; ex_inside] with
    | Ok s => match sys_get (ss_types s) (lib_type_id (hd ("", TUnicode) (l_types ex_after))) with
              | Some t => enc_ty enc_id t <> enc_ty enc_id (map_ty libref_id (snd (hd ("", TUnicode) (l_types ex_after))))
              | None => True end
    | _ => False end) by (destruct dbg; vm_compute; discriminate).
  assert (G : forall o : outcome (list build_error) symbolic_sys, match o with
    | Ok s => match sys_get (ss_types s) (lib_type_id (hd ("", TUnicode) (l_types ex_after))) with
              | Some t => enc_ty enc_id t <> enc_ty enc_id (map_ty libref_id (snd (hd ("", TUnicode) (l_types ex_after))))
              | None => True end
    | _ => False end -> exists s, o = Ok s /\ sys_get (ss_types s) (lib_type_id (hd ("", TUnicode) (l_types ex_after)))
       <> Some (map_ty libref_id (snd (hd ("", TUnicode) (l_types ex_after))))).
  { clear. intros [s| | |] H; try now destruct H. exists s. split; [reflexivity|]. intros X. rewrite X in H. now apply H. }
  exact (G (build dbg [ex_after; ex_inside]) E).
Qed.
Print Assumptions C25_definition_refuted.

(** What remains: there is always some definition under the id; it is the one of the type if the ids are
    consistent; and the name is found, and is the name of the id, if it is the only name for the only id. *)
Theorem C25_partial : forall dbg ls s l name t, build dbg ls = Ok s -> In l ls -> In (name, t) (l_types l) ->
  let id := lib_type_id (name, t) in
  let fqn := mkFqn (l_name l) name in
  In id (map fst (ss_types s))
  /\ (consistent (libs_defs ls) -> sys_get (ss_types s) id = Some (map_ty libref_id t))
  /\ ((forall d, In d (libs_defs ls) -> def_id d = id -> def_fqn d = Some fqn) ->
      lookup (ss_symbols s) id = Some fqn
      /\ ((forall d, In d (libs_defs ls) -> def_fqn d = Some fqn -> def_id d = id) -> resolve (ss_symbols s) fqn = Some id)).
Proof.
  intros dbg ls s l name t E Il It id fqn. destruct (build_eq dbg ls) as (b & B & Eb). rewrite Eb in E.
  destruct (finalize_ok _ _ _ _ B E) as (_ & _ & _ & ->). cbn [ss_types ss_symbols].
  assert (D : In (id, mkSymTy (Some fqn) (map_ty libref_id t)) (libs_defs ls)).
  { unfold libs_defs, lib_defs. apply in_flat_map. exists l. split; [exact Il|]. apply in_flat_map. exists (name, t).
    split; [exact It|]. unfold type_defs. apply in_or_app. right. now left. }
  assert (K : In id (map fst (b_types b))) by (apply (types_keys ls b id B); apply (in_map def_id) in D; exact D).
  split; [|split].
  - now rewrite plain_keys.
  - intros C. pose proof (types_consistent _ _ _ B C D) as X. unfold sys_get. apply get_In; [|exact X].
    apply plain_sorted. now apply (built_sorted ls).
  - intros U. pose proof (built_sorted _ _ B) as S.
    assert (Y : In (mkSymbol id (Some fqn)) (plain_symbols (b_types b))).
    { apply in_map_iff in K as ([k i] & X & K). cbn in X. subst k. unfold plain_symbols. apply in_map_iff. exists (id, i).
      split; [|exact K]. cbn. f_equal. apply (types_In _ _ _ _ B) in K. exact (U _ K eq_refl). }
    split; [now apply lookup_plain|]. intros N. unfold resolve. cbn [sy_symbols].
    erewrite find_unique; [| exact Y| now apply fqn_eqb_eq|]; [reflexivity|].
    intros y Iy Q. destruct (ts_fqn y) as [q|] eqn:F; [|discriminate]. apply fqn_eqb_eq in Q. subst q.
    apply (symbols_unique (b_types b)); auto. cbn [ts_id]. unfold plain_symbols in Iy.
    apply in_map_iff in Iy as ([k i] & <- & Iy). cbn in F |- *. apply (types_In _ _ _ _ B) in Iy. exact (N (k, i) Iy F).
Qed.
Example C25_case : In ex_user ex_libs /\ In (nth 1 (l_types ex_user) ("", TUnicode)) (l_types ex_user)
  /\ (forall d, In d (libs_defs ex_libs) -> def_id d = lib_type_id (nth 1 (l_types ex_user) ("", TUnicode)) ->
        def_fqn d = Some (mkFqn "User" "Keys"))
  /\ (forall d, In d (libs_defs ex_libs) -> def_fqn d = Some (mkFqn "User" "Keys") ->
        def_id d = lib_type_id (nth 1 (l_types ex_user) ("", TUnicode))).
Proof.
  split; [now left|]. split; [right; now left|].
  assert (E : forallb (fun d => Bool.eqb (def_id d =? lib_type_id (nth 1 (l_types ex_user) ("", TUnicode)))
    (match def_fqn d with Some q => fqn_eqb q (mkFqn "User" "Keys") | None => false end)) (libs_defs ex_libs) = true)
    by (vm_compute; reflexivity).
  rewrite forallb_forall in E. split; intros d I X; specialize (E d I); apply Bool.eqb_prop in E.
  - rewrite X, N.eqb_refl in E. destruct (def_fqn d) as [q|]; [|discriminate E]. symmetry in E. apply fqn_eqb_eq in E. now subst.
  - rewrite X in E. rewrite (proj2 (fqn_eqb_eq _ _) eq_refl) in E. now apply N.eqb_eq.
Qed.
Print Assumptions C25_partial.

(** ** C44: names and ids of a built system agree *)

Theorem C44 : forall dbg ls s fqn id, build dbg ls = Ok s -> resolve (ss_symbols s) fqn = Some id ->
  lookup (ss_symbols s) id = Some fqn
  /\ exists l t, In l ls /\ q_lib fqn = l_name l /\ In (q_name fqn, t) (l_types l) /\ lib_type_id (q_name fqn, t) = id
                 /\ sys_get (ss_types s) id = Some (map_ty libref_id t).
Proof.
  intros dbg ls s fqn id E R. destruct (build_eq dbg ls) as (b & B & Eb). rewrite Eb in E.
  destruct (finalize_ok _ _ _ _ B E) as (_ & _ & _ & ->). cbn [ss_types ss_symbols] in *. pose proof (built_sorted _ _ B) as S.
  unfold resolve in R. cbn [sy_symbols] in R. destruct (find _ _) as [y|] eqn:F; [|discriminate]. injection R as <-.
  apply find_some in F as [I Q]. destruct y as [id [q|]]; cbn [ts_fqn ts_id] in *; [|discriminate].
  apply fqn_eqb_eq in Q. subst q. split; [now apply lookup_plain|].
  unfold plain_symbols in I. apply in_map_iff in I as ([k i] & [= -> X] & I). cbn in X.
  assert (D : In (id, i) (libs_defs ls)) by (now apply (types_In _ b)).
  unfold libs_defs in D. apply in_flat_map in D as (l & Il & D). unfold lib_defs in D. apply in_flat_map in D as ([n t] & It & D).
  unfold type_defs in D. apply in_app_or in D as [D|D].
  - exfalso. apply in_flat_map in D as (r & _ & D). cbn in X. destruct r as [t0|?|?]; try destruct D.
    cbn in D. apply in_app_or in D as [D|[[= _ <-]|[]]]; [|discriminate X].
    apply in_flat_map in D as (r & _ & D). destruct r as [t1|?|?]; try destruct D.
    cbn in D. apply in_app_or in D as [D|[[= _ <-]|[]]]; [|discriminate X].
    apply in_flat_map in D as (r & _ & D). destruct r as [t2|?|?]; try destruct D.
    + injection H as _ <-. discriminate X.
    + destruct H.
  - destruct D as [D|[]]. apply pair_equal_spec in D as [<- D]. subst i. cbn [st_orig fst] in X. injection X as <-. exists l, t. cbn [q_lib q_name fst snd].
    split; [exact Il|]. split; [reflexivity|]. split; [exact It|]. split; [reflexivity|].
    unfold sys_get. rewrite plain_get. apply get_In in I; [|exact S]. rewrite I. reflexivity.
Qed.
Example C44_case : exists s id, build true ex_libs = Ok s /\ resolve (ss_symbols s) (mkFqn "User" "Keys") = Some id.
Proof. eexists. eexists. split; vm_compute; reflexivity. Qed.
Print Assumptions C44.

(** Which definition and name are there in the end: of all definitions with the id, in the order of imports (definitions in
    place come before the type in which they are), the last one. A name is resolved if it is the name of such a last
    definition; if it is so for several ids, the least one is given. *)
Definition last_def (ls : list type_lib) (d : definition) : Prop :=
  exists before after, libs_defs ls = (before ++ d :: after)%list /\ forall d', In d' after -> def_id d' <> def_id d.
Lemma find_last ds id d : find (fun d => def_id d =? id) (rev ds) = Some d <->
  def_id d = id /\ exists before after, ds = (before ++ d :: after)%list /\ forall d', In d' after -> def_id d' <> id.
Proof.
  induction ds as [|x ds IH] using rev_ind.
  - split; [discriminate|]. intros (_ & [|? ?] & after & E & _); discriminate E.
  - rewrite rev_app_distr. cbn [rev app find]. destruct (N.eqb_spec (def_id x) id) as [X|X].
    + split.
      * intros [= <-]. split; [exact X|]. exists ds, []. split; [reflexivity|]. intros d' [].
      * intros (D & before & after & E & F). destruct (@exists_last _ (d :: after)) as (q & y & Q); [discriminate|].
        rewrite Q, app_assoc in E. apply app_inj_tail in E as [E <-]. destruct after as [|z after].
        -- destruct q as [|? [|? ?]]; [|discriminate Q..]. now injection Q as <-.
        -- exfalso. destruct q as [|? q]; [discriminate Q|]. injection Q as _ Q. apply (F x); [|exact X]. rewrite Q. apply in_or_app. right. now left.
    + rewrite IH. split; intros (D & before & after & E & F); (split; [exact D|]).
      * exists before, (after ++ [x])%list. split; [now rewrite E, <- app_assoc|]. intros d' I. apply in_app_or in I as [I|[<-|[]]]; auto.
      * destruct (@exists_last _ (d :: after)) as (q & y & Q); [discriminate|]. rewrite Q, app_assoc in E. apply app_inj_tail in E as [E <-].
        destruct q as [|d0 q].
        -- injection Q as -> _. now destruct (X D).
        -- injection Q as <- Q. exists before, q. split; [exact E|]. intros d' I. apply F. rewrite Q. apply in_or_app. now left.
Qed.
Theorem C25_exact : forall dbg ls s, build dbg ls = Ok s ->
  (forall id t, sys_get (ss_types s) id = Some t <-> exists d, last_def ls d /\ def_id d = id /\ def_ty d = t)
  /\ (forall id q, lookup (ss_symbols s) id = Some q <-> exists d, last_def ls d /\ def_id d = id /\ def_fqn d = Some q)
  /\ (forall q id, resolve (ss_symbols s) q = Some id <->
        (exists d, last_def ls d /\ def_id d = id /\ def_fqn d = Some q)
        /\ forall d, last_def ls d -> def_fqn d = Some q -> id <= def_id d)
  /\ (forall q, resolve (ss_symbols s) q = None <-> forall d, last_def ls d -> def_fqn d <> Some q).
Proof.
  intros dbg ls s E. destruct (build_eq dbg ls) as (b & B & Eb). rewrite Eb in E.
  destruct (finalize_ok _ _ _ _ B E) as (_ & _ & _ & ->). cbn [ss_types ss_symbols]. pose proof (built_sorted _ _ B) as S.
  assert (G : forall id i, In (id, i) (b_types b) <-> last_def ls (id, i)).
  { intros id i. rewrite <- (get_In id i _ S), (types_get ls b id B). split.
    - destruct (find _ _) as [d|] eqn:F; cbn; [|discriminate]. intros [= <-]. apply find_last in F as (D & L). destruct d as [id' i']. cbn in D. subst id'. exact L.
    - intros L. assert (F : find (fun d => def_id d =? id) (rev (libs_defs ls)) = Some (id, i)) by (apply find_last; split; [reflexivity|exact L]).
      unfold definition, semid in *. now rewrite F. }
  assert (Y : forall id q, In (mkSymbol id (Some q)) (plain_symbols (b_types b)) <-> exists d, last_def ls d /\ def_id d = id /\ def_fqn d = Some q).
  { intros id q. unfold plain_symbols. rewrite in_map_iff. split.
    - intros ([k i] & [= -> X] & I). exists (id, i). split; [now apply G|]. split; [reflexivity|exact X].
    - intros ([k i] & L & <- & X). exists (k, i). split; [|now apply G]. unfold def_fqn, def_id in *. cbn in *. now rewrite X. }
  split; [|split; [|split]].
  - intros id t. unfold sys_get. rewrite plain_get. split.
    + destruct (om_get _ _ _) as [i|] eqn:O; cbn; [|discriminate]. intros [= <-]. apply get_In in O; [|exact S]. exists (id, i). split; [now apply G|]. split; reflexivity.
    + intros ([k i] & L & <- & <-). apply G in L. apply get_In in L; [|exact S]. unfold def_id, def_ty. cbn. unfold types_map, semid in *. now rewrite L.
  - intros id q. rewrite <- Y. now apply lookup_plain.
  - intros q id. unfold resolve. cbn [sy_symbols]. rewrite <- Y.
    assert (Z : forall m, sorted m -> option_map ts_id (find (fun y => match ts_fqn y with Some p => fqn_eqb p q | None => false end) (plain_symbols m)) = Some id
              <-> In (mkSymbol id (Some q)) (plain_symbols m) /\ forall k, In (mkSymbol k (Some q)) (plain_symbols m) -> id <= k).
    { intros m Sm. unfold sorted in Sm. induction Sm as [|[k i] m Sm IH F]; [cbn; split; [discriminate|intros [[] _]]|].
      change (plain_symbols ((k, i) :: m)) with (mkSymbol k (st_orig i) :: plain_symbols m). cbn [find ts_fqn].
      assert (GT : forall k', In (mkSymbol k' (Some q)) (plain_symbols m) -> k < k').
      { intros k' I. unfold plain_symbols in I. apply in_map_iff in I as ([k2 i2] & [= -> _] & I). rewrite Forall_forall in F. exact (F _ I). }
      destruct (st_orig i) as [p|] eqn:O; [destruct (fqn_eqb p q) eqn:Q|].
      - apply fqn_eqb_eq in Q. subst p. cbn [option_map ts_id]. split.
        + intros [= <-]. split; [now left|]. intros k' [[= <-]|I]; [lia|]. apply GT in I. lia.
        + intros [[[= <-]|I] L]; [reflexivity|]. apply GT in I. specialize (L k (or_introl eq_refl)). lia.
      - rewrite IH. split; intros [I L]; (split; [|intros k' J]).
        + now right.
        + destruct J as [[= <- ->]|J]; [|now apply L]. now rewrite (proj2 (fqn_eqb_eq _ _) eq_refl) in Q.
        + destruct I as [[= <- ->]|I]; [|exact I]. now rewrite (proj2 (fqn_eqb_eq _ _) eq_refl) in Q.
        + apply L. now right.
      - rewrite IH. split; intros [I L]; (split; [|intros k' J]).
        + now right.
        + destruct J as [J|J]; [discriminate J|now apply L].
        + destruct I as [I|I]; [discriminate I|exact I].
        + apply L. now right. }
    rewrite (Z _ S). split; intros [I L]; (split; [exact I|]).
    + intros d D Q. apply L. apply Y. exists d. auto.
    + intros k J. apply Y in J as (d & D & <- & Q). now apply L.
  - intros q. unfold resolve. cbn [sy_symbols]. destruct (find _ _) as [y|] eqn:F; cbn [option_map].
    + apply find_some in F as [I Q]. destruct y as [id [p|]]; [|discriminate Q]. cbn [ts_fqn] in Q. apply fqn_eqb_eq in Q. subst p.
      apply Y in I as (d & D & _ & Q). split; [discriminate|]. intros H. now destruct (H d D).
    + split; [|reflexivity]. intros _ d D Q. assert (I : In (mkSymbol (def_id d) (Some q)) (plain_symbols (b_types b))) by (apply Y; exists d; auto).
      apply (find_none _ _ F) in I. cbn [ts_fqn] in I. now rewrite (proj2 (fqn_eqb_eq _ _) eq_refl) in I.
Qed.
Lemma not_last (id : semid) (i i' : sym_ty) before after : [(id, i); (id, i')] = (before ++ (id, i) :: after)%list -> i <> i' ->
  exists d', In d' after /\ def_id d' = id.
Proof.
  intros E N. destruct before as [|x [|y [|z before]]]; cbn in E.
  - injection E as <-. exists (id, i'). split; [now left|reflexivity].
  - injection E as _ X _. now destruct N.
  - discriminate E.
  - discriminate E.
Qed.
Example C25_exact_case : last_def [ex_one; ex_two] (lib_type_id ("Byte", TPrim P_BYTE), mkSymTy (Some (mkFqn "Two" "Byte")) (TPrim P_BYTE))
  /\ ~ last_def [ex_one; ex_two] (lib_type_id ("Byte", TPrim P_BYTE), mkSymTy (Some (mkFqn "One" "Byte")) (TPrim P_BYTE)).
Proof.
  assert (E : libs_defs [ex_one; ex_two] =
    [(lib_type_id ("Byte", TPrim P_BYTE), mkSymTy (Some (mkFqn "One" "Byte")) (TPrim P_BYTE));
     (lib_type_id ("Byte", TPrim P_BYTE), mkSymTy (Some (mkFqn "Two" "Byte")) (TPrim P_BYTE))]).
  { unfold libs_defs, lib_defs, ex_one, ex_two. cbn [flat_map l_types l_name app]. unfold type_defs. cbn [flat_map refs snd fst app map_ty]. exact eq_refl. }
  revert E. generalize (lib_type_id ("Byte", TPrim P_BYTE)). intros id E. unfold last_def. rewrite E. clear E. split.
  - exists [(id, mkSymTy (Some (mkFqn "One" "Byte")) (TPrim P_BYTE))], []. split; [reflexivity|]. intros d' [].
  - intros (before & after & E & F). destruct (not_last _ _ _ _ _ E) as (d' & I & X); [intros [=]|]. exact (F d' I X).
Qed.
Print Assumptions C25_exact.

(** ** C45: a built system has what the libraries define, and nothing else *)

Theorem C45 : forall dbg ls s, build dbg ls = Ok s ->
  (forall id, In id (map fst (ss_types s)) <-> In id (map def_id (libs_defs ls)))
  /\ (forall id t, In (id, t) (ss_types s) -> exists d, In d (libs_defs ls) /\ def_id d = id /\ def_ty d = t)
  /\ ordered (ss_types s).
Proof.
  intros dbg ls s E. destruct (build_eq dbg ls) as (b & B & Eb). rewrite Eb in E.
  destruct (finalize_ok _ _ _ _ B E) as (_ & _ & _ & ->). cbn [ss_types]. pose proof (built_sorted _ _ B) as S. split; [|split].
  - intros id. rewrite plain_keys. now apply types_keys.
  - intros id t I. unfold plain_types in I. apply in_map_iff in I as ([k i] & [= -> <-] & I). exists (id, i).
    split; [now apply (types_In _ b)|]. split; reflexivity.
  - now apply plain_sorted.
Qed.
Example C45_case : exists s, build true ex_libs = Ok s /\ lenN (ss_types s) = 6.
Proof. exact ex_libs_build. Qed.
Print Assumptions C45.

(** *** C22: exactly which built systems are complete *)

(** A built system is complete exactly when each id referred to by a last definition is defined by some library. *)
Theorem C22_exact : forall dbg ls s, build dbg ls = Ok s ->
  complete (ss_types s) <->
  forall d r, last_def ls d -> In r (refs (def_ty d)) -> In r (map def_id (libs_defs ls)).
Proof.
  intros dbg ls s E. destruct (C25_exact _ _ _ E) as (G & _). destruct (C45 _ _ _ E) as (K & _ & O).
  assert (I : forall id t, In (id, t) (ss_types s) <-> exists d, last_def ls d /\ def_id d = id /\ def_ty d = t).
  { intros id t. rewrite <- G. unfold sys_get. now rewrite (get_In id t _ O). }
  split.
  - intros C d r L R. apply K. apply (C (def_id d) (def_ty d)); [|exact R]. apply I. eauto.
  - intros H id t r J R. apply I in J as (d & L & _ & <-). apply K. now apply (H d).
Qed.
Example C22_exact_case : exists d r, last_def [ex_dangling] d /\ In r (refs (def_ty d)) /\ ~ In r (map def_id (libs_defs [ex_dangling])).
Proof.
  assert (D : libs_defs [ex_dangling] = [(lib_type_id ("Type", TTuple [RNamed 5]), mkSymTy (Some (mkFqn "Lib" "Type")) (TTuple [5]))])
    by (vm_compute; reflexivity).
  exists (lib_type_id ("Type", TTuple [RNamed 5]), mkSymTy (Some (mkFqn "Lib" "Type")) (TTuple [5])), 5.
  split; [exists [], []; split; [exact D|intros ? []]|]. split; [now left|]. rewrite D. cbn [map def_id fst].
  intros [X|[]]. revert X. apply N.eqb_neq. vm_compute. reflexivity.
Qed.
Print Assumptions C22_exact.

(** ** C46: a built system can be stored and read back *)

Section Names.
Context (nm : list string -> Prop).
Lemma map_ty_wf {R} (ok : R -> Prop) rid t : (forall r, ok r -> id_ok (rid r)) -> ty_with nm ok t -> ty_with nm id_ok (map_ty rid t).
Proof.
  intros H. assert (HF : forall l, Forall ok l -> Forall id_ok (map rid l)).
  { intros l F. rewrite Forall_map. eapply Forall_impl; [|exact F]. exact H. }
  destruct t as [p| |vs|vs|fs|fs|r n|r z|r z|k r z]; cbn; auto.
  - intros [V F]. rewrite !map_map. cbn [fst snd]. split; [exact V|]. rewrite <- (map_map snd rid). auto.
  - intros [[A B] F]. split; [|auto]. unfold sized, lenN in *. now rewrite map_length.
  - intros ([A B] & N & F). rewrite !map_map. cbn [fst snd]. split; [|split; [exact N|rewrite <- (map_map snd rid); auto]].
    unfold sized, lenN in *. now rewrite map_length.
  - intros [A B]. auto.
  - intros [A B]. auto.
  - intros [A B]. auto.
  - intros (A & B & C). auto.
Qed.
Lemma unnamed_ok {R} (cr : R -> bytes) t : id_ok (sem_id_unnamed cr t).
Proof. unfold sem_id_unnamed, sem_id_inner. destruct (as_wrapped_ty _ t); exact (tagged_hash_ok _ _). Qed.
Definition def_wf (d : definition) : Prop :=
  id_ok (def_id d) /\ ty_with nm id_ok (def_ty d)
  /\ match def_fqn d with Some q => type_name (q_lib q) /\ type_name (q_name q) | None => True end.
Lemma ref2_id_ok r : ref2_wf r -> id_ok (ref2_id r).
Proof. destruct r as [[]|id|e]; cbn; tauto. Qed.
Lemma ref1_id_ok r : ref1_with nm r -> id_ok (ref1_id r).
Proof. destruct r as [t|id|e]; cbn [ref1_id]; [intros _; apply unnamed_ok|auto|intros [_ H]; exact H]. Qed.
Lemma ref0_id_ok r : ref0_with nm r -> id_ok (ref0_id r).
Proof. destruct r as [t|id|e]; cbn [ref0_id]; [intros _; apply unnamed_ok|auto|intros [_ H]; exact H]. Qed.
Lemma libref_id_ok r : libref_with nm r -> id_ok (libref_id r).
Proof. destruct r as [t|id|e]; cbn [libref_id]; [intros _; apply unnamed_ok|auto|intros [_ H]; exact H]. Qed.
Lemma ty_wf_refs {R} (ok : R -> Prop) t r : ty_with nm ok t -> In r (refs t) -> ok r.
Proof.
  destruct t as [p| |vs|vs|fs|fs|r' n|r' z|r' z|k r' z]; cbn; try tauto; intros W I; rewrite ?Forall_forall in W; try apply W; auto.
  - destruct I as [<-|[]]. apply W.
  - destruct I as [<-|[]]. apply W.
  - destruct I as [<-|[]]. apply W.
  - destruct I as [<-|[<-|[]]]; apply W.
Qed.
Lemma inline_wf {R} (ok : R -> Prop) rid id t : (forall r, ok r -> id_ok (rid r)) -> id_ok id -> ty_with nm ok t ->
  def_wf (id, mkSymTy None (map_ty rid t)).
Proof. intros H I W. split; [exact I|]. split; [|exact Logic.I]. cbn [def_ty snd st_ty]. now apply (map_ty_wf ok). Qed.
Lemma ref1_defs_wf r d : ref1_with nm r -> In d (ref1_defs r) -> def_wf d.
Proof.
  destruct r as [t|id|e]; cbn [ref1_defs]; intros W I; [|destruct I|destruct I]. destruct I as [<-|[]].
  apply (inline_wf ref2_wf); [exact ref2_id_ok|apply unnamed_ok|exact W].
Qed.
Lemma ref0_defs_wf r d : ref0_with nm r -> In d (ref0_defs r) -> def_wf d.
Proof.
  destruct r as [t|id|e]; cbn [ref0_defs]; intros W I; [|destruct I|destruct I].
  apply in_app_or in I as [I|[<-|[]]].
  - apply in_flat_map in I as (r & Ir & I). apply (ref1_defs_wf r); [|exact I]. eapply ty_wf_refs; eauto.
  - apply (inline_wf (ref1_with nm)); [exact ref1_id_ok|apply unnamed_ok|exact W].
Qed.
Lemma libref_defs_wf r d : libref_with nm r -> In d (libref_defs r) -> def_wf d.
Proof.
  destruct r as [t|id|e]; cbn [libref_defs]; intros W I; [|destruct I|destruct I].
  apply in_app_or in I as [I|[<-|[]]].
  - apply in_flat_map in I as (r & Ir & I). apply (ref0_defs_wf r); [|exact I]. eapply ty_wf_refs; eauto.
  - apply (inline_wf (ref0_with nm)); [exact ref0_id_ok|apply unnamed_ok|exact W].
Qed.
Lemma lib_defs_wf l d : lib_with nm l -> In d (lib_defs l) -> def_wf d.
Proof.
  intros (N & _ & _ & (_ & _ & T)) I. unfold lib_defs in I. apply in_flat_map in I as ([n t] & It & I).
  rewrite Forall_forall in T. destruct (T _ It) as [Tn Tt]. cbn [fst snd] in *. unfold type_defs in I. apply in_app_or in I as [I|[<-|[]]].
  - apply in_flat_map in I as (r & Ir & I). apply (libref_defs_wf r); [|exact I]. eapply ty_wf_refs; eauto.
  - split; [|split; [|split; assumption]].
    + unfold def_id, lib_type_id, sem_id_named, sem_id_inner. cbn [fst snd]. exact (tagged_hash_ok _ _).
    + unfold def_ty. cbn [fst snd st_ty]. now apply (map_ty_wf (libref_with nm)); [exact libref_id_ok|].
Qed.

Lemma built_with dbg ls s : Forall (lib_with nm) ls -> build dbg ls = Ok s -> SpecLib.symsys_with nm s.
Proof.
  intros W E.
  destruct (build_eq dbg ls) as (b & B & Eb). rewrite Eb in E. destruct (finalize_ok _ _ _ _ B E) as (_ & L1 & L2 & ->).
  pose proof (built_sorted _ _ B) as S.
  assert (DW : forall id i, In (id, i) (b_types b) -> def_wf (id, i)).
  { intros id i I. apply (types_In _ _ _ _ B) in I. unfold libs_defs in I. apply in_flat_map in I as (l & Il & I).
    rewrite Forall_forall in W. now apply (lib_defs_wf l); [apply W|]. }
  split; cbn [ss_symbols ss_types].
  - split; [|split; [|split]]; cbn [sy_libs sy_symbols].
    + split; [|split].
      * split; [apply N.le_0_l|exact L1].
      * exact (built_order _ _ B).
      * rewrite Forall_forall. intros d I. apply (built_from _ _ B) in I as (l & Il & ->). cbn [d_id d_name]. split.
        -- unfold lib_id. exact (tagged_hash_ok _ _).
        -- rewrite Forall_forall in W. apply (W _ Il).
    + split; [apply N.le_0_l|]. rewrite lenN_symbols. exact L2.
    + unfold increasing, plain_symbols. clear - S. unfold sorted in S. induction S as [|e m S IH F]; cbn; constructor; [exact IH|].
      rewrite Forall_map. eapply Forall_impl; [|exact F]. intros a L. left. exact L.
    + unfold plain_symbols. rewrite Forall_map, Forall_forall. intros [id i] I. destruct (DW _ _ I) as (A & _ & C). split; assumption.
  - split; [|split].
    + split; [apply N.le_0_l|]. rewrite lenN_plain. exact L2.
    + now apply plain_sorted.
    + unfold plain_types. rewrite Forall_map, Forall_forall. intros [id i] I. destruct (DW _ _ I) as (A & C & _). split; assumption.
Qed.
End Names.

Theorem C46 : forall dbg ls s, Forall lib_wf ls -> build dbg ls = Ok s ->
  symsys_wf s /\ deserialize dec_symsys (enc_symsys s) = Some s /\ deserialize dec_sys (enc_sys (ss_types s)) = Some (ss_types s).
Proof.
  intros dbg ls s W E. pose proof (built_with distinct dbg ls s W E) as X.
  split; [exact X|]. destruct (C31_deserialize ex_one (ss_types s) s) as (_ & Q & R). split; [exact (R X)|exact (Q (proj2 X))].
Qed.
Example C46_case : Forall lib_wf ex_libs /\ exists s, build true ex_libs = Ok s.
Proof. split; [apply Forall_cons; [wf_lib|apply Forall_cons; [wf_lib|apply Forall_nil]]|]. destruct ex_libs_build as (s & E & _). now exists s. Qed.
Print Assumptions C46.
