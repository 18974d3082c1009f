(** Properties of types and type systems: C19-C21 and C37-C39. *)
From Coq Require Import NArith List Bool String Sorted Lia.
From Verif Require Import Base Ty Ids TypeSys Spec SpecSys TyProofs ExtractProofs.
Import ListNotations.
Local Open Scope string_scope.
Local Open Scope N_scope.

(** ** Types used in the examples; ids are plain numbers here. *)

Definition ex_struct : ty N := TStruct [("first", 10); ("second", 20); ("third", 10)].
Definition ex_union : ty N := TUnion [(mkVariant "none" 0, 30); (mkVariant "some" 1, 40)].
Definition ex_map : ty N := TMap 10 20 (mkSizing 0 65535).
(** A system with a cycle (7 and 8), a diamond (2 to 5) and an entry nobody refers to (9). *)
Definition ex_types : type_system :=
  [ (1, TPrim P_U8); (2, TStruct [("a", 3); ("b", 4)]); (3, TList 5 (mkSizing 0 255)); (4, TSet 5 (mkSizing 0 255));
    (5, TPrim P_U32); (7, TStruct [("next", 8)]); (8, TUnion [(mkVariant "none" 0, 1); (mkVariant "some" 1, 7)]);
    (9, TTuple [1; 6]) ].
Definition ex_run := mkConfig true 1000.

Lemma ex_types_ordered : ordered ex_types.
Proof. repeat constructor. Qed.
Lemma ex_types_iterable : iterable true ex_types.
Proof. repeat constructor; discriminate. Qed.

(** ** C37: iteration over the components *)

(** Not for 255 components when the overflow checks are on, see [C37_refuted]. *)
Theorem C37_partial : forall R (dbg : bool) (t : ty R),
  lenN (refs t) <= (if dbg then 254 else 255) ->
  exists l, type_refs dbg t = Ok l /\ map fst l = refs t /\ lenN l = count_type_refs t.
Proof.
  intros R dbg t B. destruct (type_refs_ok dbg t B) as (l & E & A & _). exists l. split; [exact E|]. split; [exact A|].
  rewrite count_refs, <- A. unfold lenN. now rewrite map_length.
Qed.
Example C37_case : exists l, type_refs true ex_struct = Ok l /\ map fst l = [10; 20; 10] /\ lenN l = 3.
Proof. exact (C37_partial N true ex_struct ltac:(cbv; discriminate)). Qed.
Print Assumptions C37_partial.

(** A type with the maximal number of 255 components, which each constructor of types allows. *)
Theorem C37_refuted : exists t : ty N, lenN (refs t) = 255 /\ type_refs true t = Panic.
Proof. exists (TTuple (repeat 1 255)). split; [reflexivity|]. now apply type_refs_panic. Qed.
Print Assumptions C37_refuted.

(** Exactly these panic: debug builds at exactly 255 components. *)
Theorem C37_exact : forall R (dbg : bool) (t : ty R), lenN (refs t) <= 255 ->
  (type_refs dbg t = Panic <-> dbg = true /\ lenN (refs t) = 255)
  /\ ((exists l, type_refs dbg t = Ok l) <-> dbg = false \/ lenN (refs t) <> 255).
Proof.
  intros R dbg t B.
  assert (P : dbg = true /\ lenN (refs t) = 255 -> type_refs dbg t = Panic) by (intros [-> E]; now apply type_refs_panic).
  assert (O : dbg = false \/ lenN (refs t) <> 255 -> exists l, type_refs dbg t = Ok l).
  { intros H. destruct (C37_partial R dbg t) as (l & E & _); [|eauto]. destruct dbg; [|exact B]. destruct H as [H|H]; [discriminate|lia]. }
  destruct (N.eq_dec (lenN (refs t)) 255) as [E|E], dbg; (split; split); intros H; auto;
    try (destruct O as [l Q]; [auto|]; congruence); try (destruct H as [l Q]; rewrite P in Q; [discriminate|auto]).
Qed.
Example C37_exact_case : type_refs true (TTuple (repeat 1 255)) = Panic /\ exists l, type_refs false (TTuple (repeat 1 255)) = Ok l.
Proof.
  split; [apply (C37_exact N true (TTuple (repeat 1 255)) ltac:(cbv; discriminate)); split; reflexivity|].
  apply (C37_exact N false (TTuple (repeat 1 255)) ltac:(cbv; discriminate)). now left.
Qed.
Print Assumptions C37_exact.

(** ** C38: roles of the components *)

(** Not for tuples, see [C38_refuted]. *)
Theorem C38_partial : forall R (t : ty R) pos r,
  (forall fs, t <> TTuple fs) -> ty_at t pos = Some r ->
  exists role, case_at t pos = Some role /\ nth_error (components t) (N.to_nat pos) = Some (r, role).
Proof.
  intros R t pos r NT E. destruct (proj1 (case_iff t pos NT)) as [c C]; [eauto|]. exists c. split; [exact C|].
  rewrite (components_nth t pos NT), E, C. reflexivity.
Qed.
Example C38_case : case_at ex_struct 1 = Some (CNamedField 1 "second").
Proof.
  destruct (C38_partial N ex_struct 1 20 ltac:(discriminate) eq_refl) as (role & -> & E). now injection E as <-.
Qed.
Print Assumptions C38_partial.

(** Positions without a component have no role; except for tuples again. *)
Theorem C38_none_partial : forall R (t : ty R) pos,
  (forall fs, t <> TTuple fs) -> ty_at t pos = None -> case_at t pos = None.
Proof.
  intros R t pos NT E. destruct (case_at t pos) as [c|] eqn:C; [|reflexivity].
  destruct (proj2 (case_iff t pos NT)) as [r Q]; [eauto|congruence].
Qed.
Example C38_none_case : case_at ex_map 2 = None.
Proof. exact (C38_none_partial N ex_map 2 ltac:(discriminate) eq_refl). Qed.
Print Assumptions C38_none_partial.

(** The iteration gives each component with its role. *)
Theorem C38_iteration_partial : forall R (dbg : bool) (t : ty R),
  (forall fs, t <> TTuple fs) -> lenN (refs t) <= (if dbg then 254 else 255) ->
  type_refs dbg t = Ok (map (fun e => (fst e, Some (snd e))) (components t)).
Proof. exact (@type_refs_components). Qed.
Example C38_iteration_case : type_refs true ex_union = Ok [(30, Some (CUnionVariant 0 "none")); (40, Some (CUnionVariant 1 "some"))].
Proof. exact (C38_iteration_partial N true ex_union ltac:(discriminate) ltac:(cbv; discriminate)). Qed.
Print Assumptions C38_iteration_partial.

(** No component of a tuple has a role; but the position after the last one does. *)
Theorem C38_refuted : forall (fs : list N),
  (forall pos r, ty_at (TTuple fs) pos = Some r -> case_at (TTuple fs) pos = None)
  /\ case_at (TTuple fs) (lenN fs) = Some (CUnnamedField (lenN fs)) /\ ty_at (TTuple fs) (lenN fs) = None.
Proof.
  intros fs. split; [|split].
  - intros pos r E. rewrite ty_at_refs in E. destruct (case_at (TTuple fs) pos) as [c|] eqn:C; [|reflexivity].
    exfalso. apply (case_tuple fs pos c); [|exact C]. assert (H : nth_error fs (N.to_nat pos) <> None) by (cbn in E; congruence).
    apply nth_error_Some in H. unfold lenN. lia.
  - cbn. now rewrite N.eqb_refl.
  - rewrite ty_at_refs. cbn. apply nth_error_None. unfold lenN. lia.
Qed.
Example C38_refuted_case : ty_at (TTuple [10; 20]) 1 = Some 20 /\ case_at (TTuple [10; 20]) 1 = None.
Proof. split; [reflexivity|]. exact (proj1 (C38_refuted [10; 20]) 1 20 eq_refl). Qed.
Print Assumptions C38_refuted.

(** Exactly: the only position of a tuple with a role is the one after the last component. *)
Theorem C38_tuple_exact : forall R (fs : list R) pos role,
  case_at (TTuple fs) pos = Some role <-> pos = lenN fs /\ role = CUnnamedField pos.
Proof.
  intros R fs pos role. cbn [case_at]. destruct (N.eqb_spec (lenN fs) pos) as [E|E].
  - split; [intros [= <-]; auto|]. intros [_ ->]. reflexivity.
  - split; [discriminate|]. intros [-> _]. contradiction.
Qed.
Example C38_tuple_exact_case : case_at (TTuple [10; 20]) 2 = Some (CUnnamedField 2).
Proof. apply C38_tuple_exact. split; reflexivity. Qed.
Print Assumptions C38_tuple_exact.

(** ** C39: paths in types *)

(** Types nested into each other for the examples. *)
Inductive nested := Leaf | Nested (t : ty nested).
Definition as_nested (n : nested) : option (ty nested) := match n with Leaf => None | Nested t => Some t end.
Definition ex_nested : ty nested :=
  TStruct [("list", Nested (TList (Nested (TPrim P_U8)) (mkSizing 0 255))); ("leaf", Leaf);
           ("pair", Nested (TStruct [("list", Nested (TPrim P_U16))]))].

(** Paths of at most one step in types other than tuples. *)
Theorem C39_partial : forall R as_ty (t : ty R) path t',
  (forall fs, t <> TTuple fs) -> unambiguous t -> (List.length path <= 1)%nat ->
  at_path as_ty t path = Ok t' <-> follows as_ty t path t'.
Proof.
  intros R as_ty t path t' NT U L. destruct path as [|s [|s' path]]; [| |cbn in L; lia].
  - cbn. split; [intros [= ->]; constructor|]. inversion 1. reflexivity.
  - unfold at_path. cbn. split.
    + destruct (step_ref t s) as [r|] eqn:E; [|discriminate]. destruct (as_ty r) as [t1|] eqn:A; [|discriminate]. intros [= ->].
      apply step_ref_spec in E; auto. eapply F_step; [exact E|exact A|constructor].
    + inversion 1 as [|? ? r t1 ? ? S A F]; subst. inversion F; subst. apply step_ref_spec in S; auto. rewrite S, A. reflexivity.
Qed.
Example C39_case : at_path as_nested ex_nested [SNamedField "list"] = Ok (TList (Nested (TPrim P_U8)) (mkSizing 0 255)).
Proof.
  apply C39_partial; [discriminate| |cbn; lia|].
  - repeat constructor; cbn; intuition discriminate.
  - eapply F_step; [apply ST_field; left; reflexivity|reflexivity|constructor].
Qed.
Print Assumptions C39_partial.

(** What is found for paths of any length, in types other than tuples: the type after the first step alone, provided
    that each further step could be made from the starting type as well. *)
Theorem C39_exact : forall R as_ty (t : ty R) path t',
  (forall fs, t <> TTuple fs) -> unambiguous t ->
  at_path as_ty t path = Ok t' <->
  match path with
  | [] => t' = t
  | s :: others => follows as_ty t [s] t' /\ Forall (fun s' => exists u, follows as_ty t [s'] u) others
  end.
Proof.
  intros R as_ty t path t' NT U.
  set (one := fun s => match step_ref t s with Some r => as_ty r | None => None end).
  assert (O : forall s u, one s = Some u <-> follows as_ty t [s] u).
  { intros s u. rewrite <- C39_partial by (auto; cbn; lia). unfold at_path, one. cbn.
    destruct (step_ref t s) as [r|]; [|split; discriminate]. destruct (as_ty r); [|split; discriminate].
    split; intros [= ->]; reflexivity. }
  assert (L : forall rp u so_far, at_path_loop as_ty t rp u so_far = Ok t' <->
    match rev rp with [] => t' = u | s :: _ => one s = Some t' /\ Forall (fun s => one s <> None) rp end).
  { induction rp as [|s rp IH]; intros u so_far; cbn [at_path_loop].
    - cbn. split; [now intros [= ->]|now intros ->].
    - fold (one s). destruct (one s) as [u'|] eqn:E.
      + rewrite IH. cbn [rev]. destruct (rev rp) as [|s0 l] eqn:Q; cbn.
        * assert (rp = []) as -> by (rewrite <- (rev_involutive rp), Q; reflexivity).
          split; [intros ->; split; [exact E|constructor; [congruence|constructor]]|intros [H _]; congruence].
        * split; intros [H F]; (split; [exact H|]); [constructor; [congruence|exact F]|now inversion F].
      + split; [discriminate|]. cbn [rev]. destruct (rev rp ++ [s])%list eqn:Q; [now destruct (rev rp)|].
        intros [_ F]. inversion F; congruence. }
  unfold at_path. rewrite L, rev_involutive. destruct path as [|s others]; [reflexivity|].
  rewrite O. cbn [rev]. split; intros [H F]; (split; [exact H|]).
  - apply Forall_app in F as [F _]. rewrite Forall_forall in *. intros s' I. apply in_rev in I. apply F in I.
    destruct (one s') as [u|] eqn:E; [|congruence]. exists u. now apply O.
  - apply Forall_app. split.
    + rewrite Forall_forall in *. intros s' I. apply in_rev in I. destruct (F s' I) as [u G]. apply O in G. congruence.
    + constructor; [|constructor]. apply O in H. congruence.
Qed.
Example C39_exact_case : at_path as_nested ex_nested [SNamedField "list"; SNamedField "pair"]
  = Ok (TList (Nested (TPrim P_U8)) (mkSizing 0 255)).
Proof.
  apply C39_exact; [discriminate| |].
  - repeat constructor; cbn; intuition discriminate.
  - split; [eapply F_step; [apply ST_field; left; reflexivity|reflexivity|constructor]|]. constructor; [|constructor].
    eexists. eapply F_step; [apply ST_field; right; right; left; reflexivity|reflexivity|constructor].
Qed.
Print Assumptions C39_exact.

(** A step which does not exist is reported. *)
Theorem C39_error_partial : forall R as_ty (t : ty R) s,
  (forall fs, t <> TTuple fs) -> unambiguous t -> (forall t', ~ follows as_ty t [s] t') ->
  at_path as_ty t [s] = Err [s].
Proof.
  intros R as_ty t s NT U N. unfold at_path. cbn. destruct (step_ref t s) as [r|] eqn:E; [|reflexivity].
  destruct (as_ty r) as [t1|] eqn:A; [|reflexivity]. destruct (N t1). apply step_ref_spec in E; auto.
  eapply F_step; [exact E|exact A|constructor].
Qed.
Example C39_error_case : at_path as_nested ex_nested [SNamedField "leaf"] = Err [SNamedField "leaf"].
Proof.
  apply C39_error_partial; [discriminate| |].
  - repeat constructor; cbn; intuition discriminate.
  - intros t' F. inversion F as [|? ? r t1 ? ? S A F']; subst. inversion S as [? ? ? I| | | | | | | | |]; subst. cbn in I.
    destruct I as [[= <-]|[[= <-]|[[= <-]|[]]]]; discriminate.
Qed.
Print Assumptions C39_error_partial.

(** A path of two steps: an error for an existing path, and success with a wrong type. *)
Theorem C39_refuted : exists (t : ty nested) p1 t1 p2 t2 t2',
  follows as_nested t p1 t1 /\ at_path as_nested t p1 = Err (rev (tl p1))
  /\ follows as_nested t p2 t2 /\ at_path as_nested t p2 = Ok t2' /\ t2' <> t2.
Proof.
  exists ex_nested, [SNamedField "list"; SList], (TPrim P_U8), [SNamedField "pair"; SNamedField "list"], (TPrim P_U16).
  eexists. split; [|split; [|split; [|split]]].
  - eapply F_step; [apply ST_field; left; reflexivity|reflexivity|].
    eapply F_step; [apply ST_list|reflexivity|constructor].
  - reflexivity.
  - eapply F_step; [apply ST_field; right; right; left; reflexivity|reflexivity|].
    eapply F_step; [apply ST_field; left; reflexivity|reflexivity|constructor].
  - reflexivity.
  - discriminate.
Qed.
Print Assumptions C39_refuted.

(** Components of tuples are never found. *)
Theorem C39_tuple_refuted : forall as_ty (fs : list nested) s path,
  at_path as_ty (TTuple fs) (path ++ [s]) = Err [s].
Proof. intros as_ty fs s path. unfold at_path. rewrite rev_unit. cbn. destruct s; reflexivity. Qed.
Example C39_tuple_case : follows as_nested (TTuple [Nested (TPrim P_U8)]) [SUnnamedField 0] (TPrim P_U8)
  /\ at_path as_nested (TTuple [Nested (TPrim P_U8)]) [SUnnamedField 0] = Err [SUnnamedField 0].
Proof.
  split; [|exact (C39_tuple_refuted as_nested _ (SUnnamedField 0) [])].
  eapply F_step; [apply ST_tuple; reflexivity|reflexivity|constructor].
Qed.
Print Assumptions C39_tuple_refuted.

(** ** C19: extraction *)

(** In all the theorems on extraction: no type has 255 components if the overflow checks are on, see
    [C19_refuted]. *)
Theorem C19_success_partial : forall c s ids,
  ordered s -> iterable (dbg c) s ->
  (exists s', returns (fun fuel => extract fuel c s ids) (Ok s'))
  <-> (forall id, reachable s ids id -> In id (map fst s)).
Proof.
  intros c s ids O I. destruct (extract_returns c s ids O I) as [(s' & R & X & K)|(id & R & K & N)].
  - split; eauto.
  - split; [|intros H; now destruct (N (H id K))]. intros [s' R']. pose proof (returns_fun _ _ _ R R'). discriminate.
Qed.
Print Assumptions C19_success_partial.

Theorem C19_content_partial : forall c s ids s',
  ordered s -> iterable (dbg c) s -> returns (fun fuel => extract fuel c s ids) (Ok s') ->
  ordered s' /\ complete s' /\ forall id t, In (id, t) s' <-> reachable s ids id /\ In (id, t) s.
Proof.
  intros c s ids s' O I R. destruct (extract_returns c s ids O I) as [(s1 & R1 & X & K)|(id & R1 & _)];
    pose proof (returns_fun _ _ _ R R1) as E; [|discriminate]. injection E as <-. destruct X as [O' X].
  split; [exact O'|]. split; [|exact X]. intros id t r J1 J2. apply X in J1 as [J1 J3].
  assert (Q : reachable s ids r) by (eapply Re_ref; eassumption). pose proof (K _ Q) as J. apply in_map_iff in J as ([k u] & <- & J).
  apply in_map_iff. exists (k, u). split; [reflexivity|]. now apply X.
Qed.
Print Assumptions C19_content_partial.

Theorem C19_failure_partial : forall c s ids,
  ordered s -> iterable (dbg c) s -> (exists id, reachable s ids id /\ ~ In id (map fst s)) ->
  exists id, returns (fun fuel => extract fuel c s ids) (Err (UnknownType id)) /\ reachable s ids id /\ ~ In id (map fst s).
Proof.
  intros c s ids O I (id & R & N). destruct (extract_returns c s ids O I) as [(s1 & R1 & X & K)|H]; [|exact H].
  destruct N. now apply K.
Qed.
Print Assumptions C19_failure_partial.

(** The cycle of 7 and 8 with the type 1 is extracted; 9 refers to a missing type. *)
Example C19_success_case : returns (fun fuel => extract fuel ex_run ex_types [7])
  (Ok [(1, TPrim P_U8); (7, TStruct [("next", 8)]); (8, TUnion [(mkVariant "none" 0, 1); (mkVariant "some" 1, 7)])]).
Proof. exists 10%nat. intros fuel L. do 10 (destruct fuel as [|fuel]; [lia|]). destruct fuel; vm_compute; reflexivity. Qed.
Example C19_content_case : forall id, reachable ex_types [7] id -> In id [1; 7; 8].
Proof.
  intros id R. destruct (C19_content_partial ex_run ex_types [7] _ ex_types_ordered ex_types_iterable C19_success_case) as (O & C & H).
  assert (K : In id (map fst ex_types)).
  { apply (proj1 (C19_success_partial ex_run ex_types [7] ex_types_ordered ex_types_iterable)); [eexists; exact C19_success_case|exact R]. }
  apply in_map_iff in K as ([k t] & <- & K). pose proof (proj2 (H k t) (conj R K)) as J. apply (in_map fst) in J. exact J.
Qed.
Example C19_failure_case : returns (fun fuel => extract fuel ex_run ex_types [9]) (Err (UnknownType 6)).
Proof.
  assert (R : reachable ex_types [9] 6).
  { eapply Re_ref with (id := 9) (t := TTuple [1; 6]); [constructor; now left|cbn; tauto|cbn; tauto]. }
  destruct (C19_failure_partial ex_run ex_types [9] ex_types_ordered ex_types_iterable) as (id & E & Re & N).
  - exists 6. split; [exact R|]. cbn. intuition discriminate.
  - destruct Re as [id [<-|[]]|id t r Re T I]; [exfalso; apply N; cbn; tauto|].
    assert (X : forall i, reachable ex_types [9] i -> In i [9; 1; 6]).
    { clear. induction 1 as [id [<-|[]]|id t r R IH T I]; [cbn; tauto|].
      destruct IH as [<-|[<-|[<-|[]]]]; cbn in T; decompose [or] T; try discriminate; try contradiction;
      match goal with H : (_, _) = (_, _) |- _ => injection H as <- end; cbn in I; cbn; tauto. }
    assert (Y : In r [9; 1; 6]) by (apply X; eapply Re_ref; eassumption).
    destruct Y as [<-|[<-|[<-|[]]]]; [exfalso; apply N; cbn; tauto|exfalso; apply N; cbn; tauto|exact E].
Qed.

(** A system with a type of 255 components: all of them are there, yet no extraction in a debug build. *)
Theorem C19_refuted : exists s ids, ordered s /\ (forall id, reachable s ids id -> In id (map fst s))
  /\ returns (fun fuel => extract fuel ex_run s ids) Panic.
Proof.
  exists [(1, TPrim P_U8); (2, TTuple (repeat 1 255))], [2]. split; [repeat constructor|]. split.
  - induction 1 as [id [<-|[]]|id t r R IH T I]; [cbn; tauto|]. destruct T as [[= <- <-]|[[= <- <-]|[]]]; [destruct I|].
    apply (repeat_spec 255 1 r) in I. subst r. cbn. tauto.
  - exists 1%nat. intros [|fuel] L; [lia|]. vm_compute. reflexivity.
Qed.
Print Assumptions C19_refuted.

(** With types of 255 components too: the extraction always ends; *)
Theorem C19_returns : forall c s ids, ordered s -> small s ->
  exists r, returns (fun fuel => extract fuel c s ids) r /\ r <> Diverge.
Proof.
  intros c s ids O S. destruct (extract_cases c s ids O S) as [(s' & R & _)|[(id & R & _)|(R & _)]];
    eexists; (split; [exact R|discriminate]).
Qed.
Print Assumptions C19_returns.

(** it succeeds exactly when all reachable types are there and none of them has 255 components (if the overflow checks are
    on); *)
Theorem C19_exact : forall c s ids, ordered s -> small s ->
  (exists s', returns (fun fuel => extract fuel c s ids) (Ok s'))
  <-> forall id, reachable s ids id -> exists t, In (id, t) s /\ lenN (refs t) <= if dbg c then 254 else 255.
Proof.
  intros c s ids O S. destruct (extract_cases c s ids O S) as [(s' & R & [_ X] & I & K)|[(id & R & A & N)|(R & D & id & t & A & T & L)]].
  - split; [|eauto]. intros _ id A. pose proof (K id A) as J. apply in_map_iff in J as ([k t] & <- & J). exists t. split; [exact J|].
    unfold iterable in I. rewrite Forall_forall in I. apply (I (k, t)). apply X. auto.
  - split; [intros [s' R']; pose proof (returns_fun _ _ _ R R'); discriminate|]. intros H. destruct (H id A) as (t & T & _).
    destruct N. now apply (in_map fst) in T.
  - split; [intros [s' R']; pose proof (returns_fun _ _ _ R R'); discriminate|]. intros H. destruct (H id A) as (u & U & LU).
    pose proof (ordered_unique s id t u O T U). subst u. rewrite D in LU. lia.
Qed.
Print Assumptions C19_exact.

(** what is extracted is complete and has exactly the reachable types; *)
Theorem C19_content : forall c s ids s', ordered s -> small s -> returns (fun fuel => extract fuel c s ids) (Ok s') ->
  ordered s' /\ complete s' /\ (forall id, reachable s ids id -> In id (map fst s'))
  /\ forall id t, In (id, t) s' <-> reachable s ids id /\ In (id, t) s.
Proof.
  intros c s ids s' O S R. destruct (extract_cases c s ids O S) as [(s1 & R1 & [O1 X] & I & K)|[(id & R1 & _)|(R1 & _)]];
    pose proof (returns_fun _ _ _ R R1) as E; try discriminate. injection E as <-.
  assert (Q : forall id, reachable s ids id -> In id (map fst s')).
  { intros id A. pose proof (K id A) as J. apply in_map_iff in J as ([k t] & <- & J). apply in_map_iff. exists (k, t).
    split; [reflexivity|]. now apply X. }
  split; [exact O1|]. split; [|split; [exact Q|exact X]]. intros id t r J1 J2. apply X in J1 as [J1 J3]. apply Q. eapply Re_ref; eassumption.
Qed.
Print Assumptions C19_content.

(** otherwise it names a reachable type which is not there, or, with the overflow checks only, stops at a type of 255
    components; if nothing is missing, the latter is the only way to fail. *)
Theorem C19_failure : forall c s ids, ordered s -> small s ->
  (forall e, returns (fun fuel => extract fuel c s ids) (Err e) ->
     exists id, e = UnknownType id /\ reachable s ids id /\ ~ In id (map fst s))
  /\ (returns (fun fuel => extract fuel c s ids) Panic ->
      dbg c = true /\ exists id t, reachable s ids id /\ In (id, t) s /\ lenN (refs t) = 255)
  /\ ((forall id, reachable s ids id -> In id (map fst s)) ->
      dbg c = true -> (exists id t, reachable s ids id /\ In (id, t) s /\ lenN (refs t) = 255) ->
      returns (fun fuel => extract fuel c s ids) Panic).
Proof.
  intros c s ids O S. destruct (extract_cases c s ids O S) as [(s' & R & [_ X] & I & K)|[(id & R & A & N)|(R & D & B)]]; split; [|split| |split| |split].
  - intros e R'. pose proof (returns_fun _ _ _ R R'). discriminate.
  - intros R'. pose proof (returns_fun _ _ _ R R'). discriminate.
  - intros _ D (id & t & A & T & L). exfalso. unfold iterable in I. rewrite Forall_forall in I.
    specialize (I (id, t) (proj2 (X id t) (conj A T))). rewrite D in I. cbn [snd] in I. lia.
  - intros e R'. pose proof (returns_fun _ _ _ R R') as E. injection E as <-. eauto.
  - intros R'. pose proof (returns_fun _ _ _ R R'). discriminate.
  - intros K. destruct (N (K id A)).
  - intros e R'. pose proof (returns_fun _ _ _ R R'). discriminate.
  - auto.
  - auto.
Qed.
Print Assumptions C19_failure.

(** A system with a type of 255 components beside the others: what does not reach it is extracted in all builds. *)
Definition ex_wide : type_system := (ex_types ++ [(20, TTuple (repeat 1 255)); (21, TTuple [20; 5])])%list.
Lemma ex_wide_ordered : ordered ex_wide.
Proof. repeat constructor. Qed.
Lemma ex_wide_small : small ex_wide.
Proof. repeat constructor; vm_compute; discriminate. Qed.
Example C19_exact_case : (exists s', returns (fun fuel => extract fuel ex_run ex_wide [7]) (Ok s'))
  /\ returns (fun fuel => extract fuel ex_run ex_wide [21]) Panic
  /\ exists s', returns (fun fuel => extract fuel (mkConfig false 1000) ex_wide [21]) (Ok s') /\ complete s' /\ In 20 (map fst s').
Proof.
  assert (R : forall ids id, ids = [7] \/ ids = [21] -> reachable ex_wide ids id -> In id [1; 5; 7; 8; 20; 21] /\ (ids = [7] -> In id [1; 7; 8])).
  { intros ids id H. induction 1 as [id I|id t r R IH T I].
    - destruct H as [-> | ->]; destruct I as [<-|[]]; cbn; intuition discriminate.
    - assert (J : In id [1; 7; 8] -> In r [1; 7; 8]).
      { intros J. destruct J as [<-|[<-|[<-|[]]]]; cbn [ex_wide ex_types app In] in T; decompose [or] T; try discriminate; try contradiction;
        match goal with H : (_, _) = (_, _) |- _ => injection H as <- end; cbn in I; cbn; tauto. }
      split; [|intros E; apply J; now apply IH]. destruct IH as [IH _].
      destruct IH as [<-|[<-|[<-|[<-|[<-|[<-|[]]]]]]]; cbn [ex_wide ex_types app In] in T; decompose [or] T; try discriminate; try contradiction;
        match goal with H : (_, _) = (_, _) |- _ => injection H as <- end;
        first [apply (repeat_spec 255 1 r) in I; subst r; cbn; tauto | cbn in I; cbn; tauto]. }
  assert (W : forall n, In n [20; 21] -> reachable ex_wide [21] n).
  { intros n [<-|[<-|[]]]; [|constructor; now left].
    eapply Re_ref with (id := 21) (t := TTuple [20; 5]); [constructor; now left|vm_compute; tauto|vm_compute; tauto]. }
  assert (T : forall id, In id [1; 5; 7; 8; 20; 21] -> exists t, In (id, t) ex_wide /\ lenN (refs t) <= 255 /\ (In id [1; 7; 8] -> lenN (refs t) <= 254)).
  { intros id [<-|[<-|[<-|[<-|[<-|[<-|[]]]]]]]; (eexists; split; [cbn [ex_wide ex_types app In]; eauto 12|]);
      (split; [vm_compute; discriminate|]); intros X; try (vm_compute; discriminate); cbn in X; intuition discriminate. }
  split; [|split].
  - apply (C19_exact ex_run ex_wide [7] ex_wide_ordered ex_wide_small). intros id A. destruct (R [7] id (or_introl eq_refl) A) as [A1 A2].
    destruct (T id A1) as (t & B1 & B2 & B3). exists t. split; [exact B1|]. apply B3, A2. reflexivity.
  - apply (C19_failure ex_run ex_wide [21] ex_wide_ordered ex_wide_small); [|reflexivity|].
    + intros id A. destruct (R [21] id (or_intror eq_refl) A) as [A1 _]. destruct (T id A1) as (t & B1 & _). now apply (in_map fst) in B1.
    + exists 20, (TTuple (repeat 1 255)). split; [apply W; now left|]. split; [cbn [ex_wide ex_types app In]; eauto 12|vm_compute; reflexivity].
  - destruct (proj2 (C19_exact (mkConfig false 1000) ex_wide [21] ex_wide_ordered ex_wide_small)) as [s' E].
    + intros id A. destruct (R [21] id (or_intror eq_refl) A) as [A1 _]. destruct (T id A1) as (t & B1 & B2 & _). exists t. auto.
    + exists s'. split; [exact E|]. destruct (C19_content _ _ _ _ ex_wide_ordered ex_wide_small E) as (_ & C & Q & _).
      split; [exact C|]. apply Q, W. now left.
Qed.

(** ** C20: extracting again, extracting less *)

Theorem C20_idempotent : forall c s ids s', ordered s -> small s -> returns (fun fuel => extract fuel c s ids) (Ok s') ->
  returns (fun fuel => extract fuel c s' ids) (Ok s').
Proof.
  intros c s ids s' O S R. destruct (extract_cases c s ids O S) as [(s1 & R1 & X & I & K)|[(id & R1 & _)|(R1 & _)]];
    pose proof (returns_fun _ _ _ R R1) as E; try discriminate. injection E as <-.
  pose proof (extracted_reachable s ids s' X O K) as RE. destruct X as [O' H].
  destruct (extract_returns c s' ids O' I) as [(s2 & R2 & X2 & K2)|(id & R2 & N1 & N2)].
  - enough (E : s2 = s') by (rewrite E in R2; exact R2). destruct X2 as [O2 H2]. apply ordered_ext; auto. intros [id t].
    rewrite H2, RE, H. tauto.
  - exfalso. apply N2. apply RE in N1. pose proof (K _ N1) as J. apply in_map_iff in J as ([k t] & E & J). cbn in E. subst k.
    apply in_map_iff. exists (id, t). split; [reflexivity|]. apply H. auto.
Qed.
Print Assumptions C20_idempotent.
Theorem C20_monotone : forall c s ids ids' s', ordered s -> small s -> incl ids ids' ->
  returns (fun fuel => extract fuel c s ids') (Ok s') ->
  exists s'', returns (fun fuel => extract fuel c s ids) (Ok s'') /\ incl s'' s'.
Proof.
  intros c s ids ids' s' O S L R.
  destruct (proj2 (C19_exact c s ids O S)) as [s'' R''].
  { intros id A. apply (proj1 (C19_exact c s ids' O S)); [eauto|]. eapply reachable_mono; eassumption. }
  exists s''. split; [exact R''|]. intros [id t] J. apply (C19_content _ _ _ _ O S R'') in J as [J1 J2].
  apply (C19_content _ _ _ _ O S R). split; [|exact J2]. eapply reachable_mono; eassumption.
Qed.
Print Assumptions C20_monotone.
Example C20_wide_case : exists s', returns (fun fuel => extract fuel ex_run ex_wide [7]) (Ok s')
  /\ returns (fun fuel => extract fuel ex_run s' [7]) (Ok s')
  /\ exists s'', returns (fun fuel => extract fuel ex_run ex_wide []) (Ok s'') /\ incl s'' s'.
Proof.
  destruct C19_exact_case as ((s' & E) & _). exists s'. split; [exact E|].
  split; [exact (C20_idempotent _ _ _ _ ex_wide_ordered ex_wide_small E)|].
  exact (C20_monotone _ _ [] _ _ ex_wide_ordered ex_wide_small (incl_nil_l _) E).
Qed.

(** ** C21: union of type systems *)

Theorem C21_union : forall s other s',
  ordered s -> ordered other -> sys_extend s other = Ok s' ->
  ordered s' /\ forall id t, In (id, t) s' <-> In (id, t) other \/ In (id, t) s /\ ~ In id (map fst other).
Proof. intros s other s' O O' E. pose proof (sys_extend_spec other s O O') as H. now rewrite E in H. Qed.
Example C21_union_case : exists s', sys_extend ex_types [(4, TPrim P_U16); (6, TPrim P_U8)] = Ok s'
  /\ In (4, TPrim P_U16) s' /\ In (6, TPrim P_U8) s' /\ In (9, TTuple [1; 6]) s' /\ ~ In (4, TSet 5 (mkSizing 0 255)) s'.
Proof.
  eexists. split; [reflexivity|].
  match goal with |- In _ ?s /\ _ => destruct (C21_union ex_types [(4, TPrim P_U16); (6, TPrim P_U8)] s ex_types_ordered
     ltac:(repeat constructor) eq_refl) as [_ H] end.
  rewrite !H. cbn. intuition discriminate.
Qed.
Print Assumptions C21_union.

Theorem C21_fits : forall s other, lenN s + lenN other <= u24_max -> exists s', sys_extend s other = Ok s'.
Proof. intros s other. apply sys_extend_fits. Qed.
Example C21_fits_case : exists s', sys_extend ex_types ex_types = Ok s'.
Proof. apply C21_fits. discriminate. Qed.
Print Assumptions C21_fits.

Theorem C21_full : forall s other,
  ordered s -> ordered other -> (forall s', sys_extend s other <> Ok s') ->
  sys_extend s other = Err Oversize /\ u24_max <= lenN s + lenN other.
Proof.
  intros s other O O' N. pose proof (sys_extend_spec other s O O') as H.
  destruct (sys_extend s other) as [s'|[]| |]; [now destruct (N s')| |contradiction|contradiction].
  split; [reflexivity|]. destruct H; lia.
Qed.
(** A full system refuses the entry. *)
Lemma full_exists : exists s, ordered s /\ lenN s = u24_max /\ In (1, TPrim P_U8) s.
Proof.
  assert (G : forall n, exists s : type_system, ordered s /\ List.length s = n /\ Forall (fun e => 1 < fst e <= 1 + N.of_nat n) s).
  { induction n as [|n (s & O & L & F)]; [exists []; repeat constructor|].
    exists (s ++ [(2 + N.of_nat n, TPrim P_U8)])%list. split; [|split].
    - clear L. induction O as [|e s O IH F']; cbn [app]; [repeat constructor|]. inversion F; subst. constructor; [apply IH; assumption|].
      apply Forall_app. split; [exact F'|]. constructor; [cbn [fst]; lia|constructor].
    - rewrite app_length, L. cbn. lia.
    - apply Forall_app. split.
      + eapply Forall_impl; [|exact F]. cbn [fst]. intros; lia.
      + constructor; [cbn [fst]; lia|constructor]. }
  destruct (G (N.to_nat (u24_max - 1))) as (s & O & L & F). exists ((1, TPrim P_U8) :: s). split; [|split; [|now left]].
  - constructor; [exact O|]. eapply Forall_impl; [|exact F]. cbn [fst]. intros; lia.
  - unfold lenN. cbn [List.length]. rewrite L. unfold u24_max. lia.
Qed.
Example C21_full_case : exists s, ordered s /\ sys_extend s [(1, TPrim P_U8)] = Err Oversize.
Proof.
  destruct full_exists as (s & O & L & _). exists s. split; [exact O|]. apply C21_full; [exact O|repeat constructor|].
  intros s' E. cbn in E. unfold insert_unchecked, confined_insert in E.
  match type of E with context [?x =? u24_max] => replace x with u24_max in E by (symmetry; exact L) end. rewrite N.eqb_refl in E. discriminate E.
Qed.
Print Assumptions C21_full.
