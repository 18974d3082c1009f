(** Properties of the compilation of libraries: C33-C36, C48, C49. *)
From Coq Require Import NArith Arith List Bool String Sorted Lia.
From Verif Require Import Base Sha256 Ty Ids TypeSys Spec SpecIds IdProofs LibCodec SpecLib LibCodecProofs Build BuildProofs MapLemmas Compile
  SpecCompile CompileProofs CompileProofs2 CompileProofs3 PropIds PropLib.
Import ListNotations.
Local Open Scope string_scope.
Local Open Scope N_scope.

(** ** A library for the examples *)

(** Types which use each other against the order of names, with an embedded type, and a type of another
    library. *)
Definition ex_source : sym_lib := mkSymLib "Example" [mkDep 77 "Other"; mkDep 88 "Unused"] [("Other", [(5, "Word")])]
  [("Area", TStruct [("side", TrNamed "Side"); ("marks", TrEmbedded (TList (TrNamed "Mark") (mkSizing 0 255)))]);
   ("Mark", TTuple [TrNamed "Side"; TrExtern (mkSymRef "Other" "Word" 77 5)]);
   ("Side", TPrim P_U8)].
Example ex_source_ordered : lib_ordered ex_source.
Proof. split; repeat constructor. Qed.
Example ex_source_wf : symlib_wf 3 ex_source.
Proof. apply (LibCodecProofs3.symlib_distinct 3 ex_source [] (enc_symlib ex_source)); vm_compute; reflexivity. Qed.
Definition ex_compiled : type_lib :=
  let side := TPrim P_U8 in
  let side_id := sem_id_named commit_libref "Side" side in
  let mark := TTuple [RNamed side_id; RExtern (mkExtern 77 5)] in
  let mark_id := sem_id_named commit_libref "Mark" mark in
  mkLib "Example" [mkDep 77 "Other"] [("Other", [(5, "Word")])]
    [("Area", TStruct [("side", RNamed side_id); ("marks", RInline (TList (RNamed mark_id) (mkSizing 0 255)))]);
     ("Mark", mark); ("Side", side)].
Example ex_source_compiles : forall dbg, compile 3 dbg ex_source = Ok ex_compiled.
Proof. intros []; vm_compute; reflexivity. Qed.
Example ex_compiled_symbolic : to_symbolic ex_compiled = Ok (mkSymLib "Example" [mkDep 77 "Other"] [("Other", [(5, "Word")])] (y_types ex_source)).
Proof. vm_compute. reflexivity. Qed.

Ltac in_cases H := repeat first [destruct H as [H|H]; [injection H; clear H; intros; subst|] | destruct H].
Example ex_source_acyclic : lib_acyclic ex_source.
Proof. apply (compile_ok 3 true _ _ ex_source_ordered (ex_source_compiles true)). Qed.
Example ex_source_resolvable : lib_resolvable ex_source /\ lib_nested ex_source.
Proof.
  destruct (compile_ok 3 true _ _ ex_source_ordered (ex_source_compiles true)) as [C _].
  split; [eapply compiled_resolvable|eapply compiled_nested]; exact C.
Qed.
Example ex_source_known : lib_known ex_source.
Proof. apply (compile_known 3 true _ ex_compiled (proj2 ex_source_ordered) (ex_source_compiles true)). Qed.

(** ** C33 *)

(** Each name is resolved to the id of the type with this name in the result, types of other libraries
    keep their ids, types in place stay in place, the names of types do not change; the dependencies are
    those whose types are used. *)
Theorem C33 : forall fuel dbg s l, lib_ordered s -> compile fuel dbg s = Ok l -> lib_compiled s l.
Proof. intros fuel dbg s l O C. now apply (compile_ok fuel dbg). Qed.
Example C33_case : lib_ordered ex_source /\ compile 3 true ex_source = Ok ex_compiled.
Proof. split; [apply ex_source_ordered|apply ex_source_compiles]. Qed.
Print Assumptions C33.

(** ** C34 *)

(** A type which contains itself: well formed and decoded from bytes, but the compilation runs forever in
    a release build and panics in a debug build. The same with a name which is not defined. *)
Definition ex_cyclic : sym_lib := mkSymLib "Example" [] [] [("List", TTuple [TrNamed "List"])].
Definition ex_unresolved : sym_lib := mkSymLib "Example" [] [] [("List", TTuple [TrNamed "Item"])].
Lemma stuck_forever s : compile_pass (map fst (y_types s)) (mkProgress [] [] (y_types s)) false = Ok (mkProgress [] [] (y_types s), false) ->
  y_types s <> [] -> forall fuel, compile fuel false s = Diverge /\ compile (S fuel) true s = Panic.
Proof.
  intros P NE fuel. unfold compile. split.
  - replace (compile_loop fuel false (map fst (y_types s)) _) with (@Diverge compile_error (list (string * ty lib_ref))); [reflexivity|].
    induction fuel as [|fuel IH]; cbn [compile_loop]; cbn [pr_old].
    + destruct (y_types s); [congruence|reflexivity].
    + rewrite P. cbn [bind andb]. rewrite <- IH. destruct (y_types s); [congruence|reflexivity].
  - cbn [compile_loop pr_old]. rewrite P. cbn. destruct (y_types s); [congruence|reflexivity].
Qed.
Theorem C34_refuted : exists s, symlib_wf 3 s /\ forall fuel, compile fuel false s = Diverge /\ compile (S fuel) true s = Panic.
Proof.
  exists ex_cyclic. split.
  - apply (LibCodecProofs3.symlib_distinct 3 ex_cyclic [] (enc_symlib ex_cyclic)); vm_compute; reflexivity.
  - apply stuck_forever; [reflexivity|discriminate].
Qed.
Theorem C34_unresolved_refuted : exists s, symlib_wf 3 s /\ lib_acyclic s
  /\ forall fuel, compile fuel false s = Diverge /\ compile (S fuel) true s = Panic.
Proof.
  exists ex_unresolved. split; [|split].
  - apply (LibCodecProofs3.symlib_distinct 3 ex_unresolved [] (enc_symlib ex_unresolved)); vm_compute; reflexivity.
  - exists (fun n => if n =? "List" then 1%nat else O)%string. intros n m (t & r & [E|[]] & J & M). injection E as <- <-.
    destruct J as [<-|[]]. inversion M; subst. cbn. lia.
  - apply stuck_forever; [reflexivity|discriminate].
Qed.
(** With acyclic uses of defined names it returns, in any build. Missing: the libraries above. *)
Theorem C34_returns_partial : forall (dbg : bool) s, lib_ordered s -> lib_acyclic s -> lib_resolvable s ->
  1 <= lenN (y_types s) <= 2 ^ 16 - 1 -> lenN (y_deps s) <= 255 ->
  exists r, returns (fun fuel => compile fuel dbg s) r /\ ((exists l, r = Ok l) \/ exists e, r = Err e).
Proof.
  intros dbg s O A R T D. destruct (compile_returns dbg s O A R T D) as (o & F & G). exists o. split; [exact F|].
  destruct o; cbn in G; try contradiction; eauto.
Qed.
Theorem C34_partial : forall (dbg : bool) s, lib_ordered s -> lib_acyclic s -> lib_resolvable s -> lib_nested s -> lib_known s ->
  1 <= lenN (y_types s) <= 2 ^ 16 - 1 -> lenN (y_deps s) <= 255 ->
  exists l, returns (fun fuel => compile fuel dbg s) (Ok l).
Proof. exact compile_total. Qed.
Example C34_case : lib_ordered ex_source /\ lib_acyclic ex_source /\ lib_resolvable ex_source /\ lib_nested ex_source
  /\ lib_known ex_source /\ 1 <= lenN (y_types ex_source) <= 2 ^ 16 - 1 /\ lenN (y_deps ex_source) <= 255.
Proof.
  split; [apply ex_source_ordered|]. split; [apply ex_source_acyclic|]. split; [apply ex_source_resolvable|].
  split; [apply ex_source_resolvable|]. split; [apply ex_source_known|]. vm_compute. repeat split; discriminate.
Qed.
(** Exactly which libraries are compiled, in any build. *)
Theorem C34_exact : forall (dbg : bool) s, lib_ordered s -> lenN (y_types s) <= 2 ^ 16 - 1 -> lenN (y_deps s) <= 255 ->
  (exists l, returns (fun fuel => compile fuel dbg s) (Ok l)) <->
  1 <= lenN (y_types s) /\ lib_acyclic s /\ lib_resolvable s /\ lib_nested s /\ lib_known s.
Proof.
  intros dbg s O LT LD. split.
  - intros (l & n & H). specialize (H n (le_n n)). destruct (compile_ok _ _ _ _ O H) as (C & A & _ & _ & L & _).
    split; [|split; [exact A|split; [exact (compiled_resolvable _ _ C)|split; [exact (compiled_nested _ _ C)|]]]].
    + pose proof (compiled_keys _ _ C) as K. apply (f_equal (@List.length string)) in K. rewrite !map_length in K. unfold lenN in *. lia.
    + destruct O as [_ SD]. exact (compile_known _ _ _ _ SD H).
  - intros (L & A & R & N & K). apply C34_partial; auto.
Qed.
(** Libraries with circular or undefined names never compile: a release build runs forever, a debug build panics. *)
Theorem C34_stuck : forall s, lib_ordered s -> lib_nested s -> 1 <= lenN (y_types s) <= 2 ^ 16 - 1 -> ~ (lib_acyclic s /\ lib_resolvable s) ->
  (forall fuel, compile fuel false s = Diverge) /\ returns (fun fuel => compile fuel true s) Panic.
Proof.
  intros s [SY SD] N LT NAR.
  assert (NOK : forall fuel dbg new, compile_loop fuel dbg (map fst (y_types s)) (mkProgress [] [] (y_types s)) <> Ok new).
  { intros fuel dbg new E. apply NAR.
    set (s' := mkSymLib (y_name s) [] [] (y_types s)).
    assert (O' : lib_ordered s') by (split; [exact SY|constructor]).
    assert (C : compile fuel dbg s' = Ok (mkLib (y_name s) [] [] new)).
    { unfold compile. cbn [s' y_types y_extern y_deps y_name map]. rewrite E. cbn [bind used_deps].
      pose proof (loop_result (y_types s) dbg (map fst (y_types s)) SY fuel _ (inv_start _ SY)) as R. rewrite E in R.
      destruct (finished_types _ _ SY R) as [_ F]. apply Forall2_length in F.
      assert (LN : lenN new = lenN (y_types s)) by (unfold lenN; now rewrite F). rewrite LN.
      rewrite (proj2 (N.leb_le 1 _)) by lia. rewrite (proj2 (N.leb_le _ u16_max)) by (unfold u16_max; lia). reflexivity. }
    destruct (compile_ok _ _ _ _ O' C) as (CL & A & _). split; [exact A|exact (compiled_resolvable _ _ CL)]. }
  assert (NERR : forall fuel dbg e, compile_loop fuel dbg (map fst (y_types s)) (mkProgress [] [] (y_types s)) <> Err e).
  { intros fuel dbg e E. pose proof (loop_result (y_types s) dbg (map fst (y_types s)) SY fuel _ (inv_start _ SY)) as R. rewrite E in R.
    destruct R as (n & path & inner & t & r & _ & I & J & X). unfold lib_nested in N. rewrite Forall_forall in N. apply N in I.
    rewrite Forall_forall in I. now apply I in J. }
  split.
  - intros fuel. unfold compile.
    pose proof (loop_result (y_types s) false (map fst (y_types s)) SY fuel _ (inv_start _ SY)) as R.
    destruct (compile_loop fuel false _ _) as [new|e| |] eqn:E; [now apply NOK in E|now apply NERR in E|discriminate|reflexivity].
  - exists (List.length (y_types s)). intros fuel L. unfold compile.
    assert (ND : forall fuel p, inv (y_types s) p -> (List.length (pr_old p) <= fuel)%nat ->
      compile_loop fuel true (map fst (y_types s)) p <> Diverge).
    { clear fuel L. induction fuel as [|fuel IH]; intros p V L; cbn [compile_loop].
      - destruct (pr_old p); [discriminate|cbn in L; lia].
      - pose proof (pass_gives (y_types s) SY (map fst (y_types s)) p false V) as G.
        destruct (pr_old p) eqn:Q; [discriminate|]. rewrite <- Q in *.
        destruct (compile_pass (map fst (y_types s)) p false) as [[p' f']|e| |]; cbn in *; try discriminate; try contradiction.
        destruct f'; cbn; [|discriminate]. destruct G as (V' & _ & T & _). apply IH; [exact V'|].
        destruct (T eq_refl) as [X|X]; [discriminate|lia]. }
    specialize (ND fuel _ (inv_start _ SY) ltac:(exact L)).
    destruct (compile_loop fuel true _ _) as [new|e| |] eqn:E; [now apply NOK in E|now apply NERR in E|reflexivity|congruence].
Qed.
Example C34_stuck_case : lib_ordered ex_cyclic /\ lib_nested ex_cyclic /\ ~ (lib_acyclic ex_cyclic /\ lib_resolvable ex_cyclic).
Proof.
  split; [split; repeat constructor|]. split; [repeat constructor|]. intros [(rank & R) _].
  specialize (R "List" "List"). assert (U : uses ex_cyclic "List" "List"); [|apply R in U; lia].
  exists (TTuple [TrNamed "List"]), (TrNamed "List"). split; [now left|]. split; [now left|constructor].
Qed.
Print Assumptions C34_exact.
Print Assumptions C34_stuck.
Print Assumptions C34_refuted.
Print Assumptions C34_unresolved_refuted.
Print Assumptions C34_returns_partial.
Print Assumptions C34_partial.

(** ** C35 *)

Theorem C35 : forall fuel dbg s l, lib_ordered s -> compile fuel dbg s = Ok l ->
  forall l', lib_compiled s l' -> l' = l.
Proof.
  intros fuel dbg s l O C l' C'. destruct (compile_ok _ _ _ _ O C) as (CL & A & _). eapply compiled_unique; eauto.
Qed.
(** The uniqueness holds whether or not it is found by compilation. *)
Theorem C35_acyclic : forall s l l', lib_ordered s -> lib_acyclic s -> lib_compiled s l -> lib_compiled s l' -> l = l'.
Proof. exact compiled_unique. Qed.
Example C35_case : lib_ordered ex_source /\ lib_acyclic ex_source /\ compile 3 true ex_source = Ok ex_compiled /\ lib_compiled ex_source ex_compiled.
Proof.
  split; [apply ex_source_ordered|]. split; [apply ex_source_acyclic|]. split; [apply ex_source_compiles|].
  apply (C33 3 true); [apply ex_source_ordered|apply ex_source_compiles].
Qed.
Print Assumptions C35.
Print Assumptions C35_acyclic.

(** ** C36 *)

Local Opaque sem_id_named.

Lemma type_name_ok s : type_name s -> name_ok s.
Proof.
  intros (x & r & E & U & F & L). unfold upper in U. cbn zeta in U.
  exists x, r. repeat split; auto; [|lia]. unfold name_char. cbn zeta. lia.
Qed.
(** Two types of the library are an example of a collision of the hash function, or different types have
    different ids. *)
Lemma collide_dec k fuel dbg s l : symlib_wf k s -> compile fuel dbg s = Ok l ->
  ~ ids_collide l
  \/ exists n t n' t', In (n, t) (l_types l) /\ In (n', t') (l_types l)
       /\ collision (tagged_message SEM_ID_TAG (sem_message commit_libref (Some n) t))
                    (tagged_message SEM_ID_TAG (sem_message commit_libref (Some n') t')).
Proof.
  intros (_ & ((_ & LD) & SD & _) & (_ & SE & FE) & (_ & SY & FY)) C.
  assert (O : lib_ordered s) by (split; assumption).
  pose proof (compiled_keys _ _ (C33 _ _ _ _ O C)) as KE.
  assert (DEC : ids_collide l \/ ~ ids_collide l).
  { unfold ids_collide.
    assert (X : forall (a b : string * ty lib_ref), {fst a <> fst b /\ lib_type_id a = lib_type_id b} + {~ (fst a <> fst b /\ lib_type_id a = lib_type_id b)}).
    { intros a b. destruct (string_dec (fst a) (fst b)); [right; tauto|]. destruct (N.eq_dec (lib_type_id a) (lib_type_id b)); [left; tauto|right; tauto]. }
    destruct (Exists_dec (fun a => Exists (fun b => fst a <> fst b /\ lib_type_id a = lib_type_id b) (l_types l)) (l_types l)) as [E|N].
    - intros a. apply Exists_dec. intros b. apply X.
    - left. apply Exists_exists in E as ([n t] & I & E). apply Exists_exists in E as ([n' t'] & J & NE & E).
      unfold lib_type_id in E. cbn [fst snd] in NE, E. exists n, t, n', t'. split; [exact I|]. split; [exact J|]. split; [exact NE|exact E].
    - right. intros (n & t & n' & t' & I & J & NE & E). apply N. apply Exists_exists. exists (n, t). split; [exact I|].
      apply Exists_exists. exists (n', t'). split; [exact J|]. split; [exact NE|]. unfold lib_type_id. cbn [fst snd]. exact E. }
  destruct DEC as [(n & t & n' & t' & I & J & NE & E)|NC].
  - right. exists n, t, n', t'. split; [exact I|]. split; [exact J|].
    assert (NM : forall m u, In (m, u) (l_types l) -> name_ok m).
    { intros m u K. apply (in_map fst) in K. cbn in K. rewrite KE in K. apply in_map_iff in K as ([m' v] & <- & K).
      rewrite Forall_forall in FY. apply FY in K as [K _]. now apply type_name_ok. }
    destruct (C27_names _ _ _ _ n n' t t' (NM _ _ I) (NM _ _ J) E) as [X|X]; [contradiction|exact X].
  - now left.
Qed.
(** Or else two types of the library are an example of a collision of the hash function. *)
Theorem C36 : forall k fuel dbg s l s', symlib_wf k s -> compile fuel dbg s = Ok l -> to_symbolic l = Ok s' ->
  (forall dbg', returns (fun fuel => compile fuel dbg' s') (Ok l))
  \/ exists n t n' t', In (n, t) (l_types l) /\ In (n', t') (l_types l)
       /\ collision (tagged_message SEM_ID_TAG (sem_message commit_libref (Some n) t))
                    (tagged_message SEM_ID_TAG (sem_message commit_libref (Some n') t')).
Proof.
  intros k fuel dbg s l s' W C Q. destruct (collide_dec k fuel dbg s l W C) as [NC|X]; [left|right; exact X].
  destruct W as (_ & ((_ & LD) & SD & _) & (_ & SE & FE) & (_ & SY & FY)).
  eapply symbolic_compiles; eauto; [split; assumption|].
  eapply Forall_impl; [|exact FE]. cbn. tauto.
Qed.
Example C36_case : symlib_wf 3 ex_source /\ compile 3 true ex_source = Ok ex_compiled
  /\ exists s', to_symbolic ex_compiled = Ok s'.
Proof. split; [apply ex_source_wf|]. split; [apply ex_source_compiles|]. eexists. apply ex_compiled_symbolic. Qed.
Print Assumptions C36.

(** The symbolic form is the source again, only without dependencies which are not used, if types of other
    libraries are referred to as they are listed (as the builder does). A library listing 65535 types of one
    dependency, the greatest number, is an exception: its symbolic form is refused. *)
Theorem C36_source : forall k fuel dbg s l, symlib_wf k s -> externs_listed s ->
  Forall (fun e => lenN (snd e) < 2 ^ 16 - 1) (y_extern s) -> compile fuel dbg s = Ok l ->
  to_symbolic l = Ok (mkSymLib (y_name s) (l_deps l) (y_extern s) (y_types s))
  \/ exists n t n' t', In (n, t) (l_types l) /\ In (n', t') (l_types l)
       /\ collision (tagged_message SEM_ID_TAG (sem_message commit_libref (Some n) t))
                    (tagged_message SEM_ID_TAG (sem_message commit_libref (Some n') t')).
Proof.
  intros k fuel dbg s l W XL LI C. destruct (collide_dec k fuel dbg s l W C) as [NC|X]; [left|right; exact X].
  destruct W as (_ & ((_ & LD) & SD & _) & ((_ & LE) & SE & FE) & (_ & SY & FY)).
  eapply symbolic_source; eauto; [split; assumption|].
  eapply Forall_impl; [|exact FE]. cbn. tauto.
Qed.
Example C36_source_case : symlib_wf 3 ex_source /\ externs_listed ex_source /\ compile 3 true ex_source = Ok ex_compiled
  /\ Forall (fun e => lenN (snd e) < 2 ^ 16 - 1) (y_extern ex_source).
Proof.
  split; [apply ex_source_wf|]. split; [|split; [apply ex_source_compiles|repeat constructor]].
  split; [repeat constructor; cbn; intuition discriminate|].
  intros n t r e I J M. in_cases I; cbn in J; repeat (destruct J as [J|J]; [subst r|]); try contradiction J; inversion M; subst.
  - cbn in H0. destruct H0 as [<-|[]]. inversion H1.
  - cbn. split; [discriminate|]. split; [now left|]. eexists. split; [left; reflexivity|]. left; reflexivity.
Qed.
Print Assumptions C36_source.

(** ** C48 *)

Theorem C48 : forall (dbg : bool) s, lib_ordered s -> lenN (y_deps s) <= 255 ->
  (exists l, returns (fun fuel => compile fuel dbg s) (Ok l))
  <-> lib_acyclic s /\ lib_resolvable s /\ lib_nested s /\ lib_known s /\ 1 <= lenN (y_types s) <= 2 ^ 16 - 1.
Proof.
  intros dbg s O D. split.
  - intros (l & n & F). specialize (F n (le_n n)). destruct (compile_ok _ _ _ _ O F) as (C & A & _ & _ & L).
    split; [exact A|]. split; [eapply compiled_resolvable; exact C|]. split; [eapply compiled_nested; exact C|].
    split; [eapply compile_known; [apply O|exact F]|].
    replace (lenN (y_types s)) with (lenN (l_types l)); [exact L|].
    unfold lenN. f_equal. pose proof (compiled_keys _ _ C) as K. apply (f_equal (@List.length _)) in K. now rewrite !map_length in K.
  - intros (A & R & N & K & L). now apply compile_total.
Qed.
Example C48_case : lib_ordered ex_source /\ lenN (y_deps ex_source) <= 255 /\ exists l, forall dbg, compile 3 dbg ex_source = Ok l.
Proof. split; [apply ex_source_ordered|]. split; [vm_compute; discriminate|]. exists ex_compiled. apply ex_source_compiles. Qed.
Print Assumptions C48.

(** ** C49 *)

Theorem C49_nested : forall fuel dbg s n path inner, lib_ordered s -> compile fuel dbg s = Err (NestedInline n path inner) ->
  exists t r, In (n, t) (y_types s) /\ In r (refs t) /\ ~ nested 3 r.
Proof. intros fuel dbg s n path inner O C. exact (compile_err fuel dbg s _ O C). Qed.
Theorem C49_unknown : forall fuel dbg s lib, lib_ordered s -> compile fuel dbg s = Err (UnknownLib lib) ->
  In lib (map fst (y_extern s)) /\ lib <> "_" /\ forall d, In d (y_deps s) -> d_name d <> lib.
Proof. intros fuel dbg s lib O C. exact (compile_err fuel dbg s _ O C). Qed.
Theorem C49_internal : forall fuel dbg s, lib_ordered s -> compile fuel dbg s <> Err Continue.
Proof. intros fuel dbg s O C. exact (compile_err fuel dbg s _ O C). Qed.
(** Four levels of types in place, and a library which is not among the dependencies. *)
Definition ex_deep : sym_lib :=
  let wrap t := TTuple [TrEmbedded t] in
  mkSymLib "Example" [] [] [("Deep", wrap (wrap (wrap (wrap (TPrim P_U8)))))].
Definition ex_nolib : sym_lib := mkSymLib "Example" [] [("Other", [(5, "Word")])] [("Side", TPrim P_U8)].
Example C49_case : lib_ordered ex_deep /\ lib_ordered ex_nolib
  /\ compile 1 true ex_deep = Err (NestedInline "Deep" [cls (TTuple [TrNamed "Deep"]); cls (TTuple [TrNamed "Deep"])] (Some (cls (TTuple [TrNamed "Deep"]))))
  /\ compile 1 true ex_nolib = Err (UnknownLib "Other").
Proof. repeat split; repeat constructor. Qed.
Print Assumptions C49_nested.
Print Assumptions C49_unknown.
Print Assumptions C49_internal.
