(** Properties of resolving the references of a library: C69. *)
From Coq Require Import NArith Arith List Bool String Sorted Lia.
From Verif Require Import Base Ty Ids TypeSys Spec TyProofs LibCodec SpecLib LibCodecProofs MapLemmas Build BuildProofs Compile Transpile SpecSymbols TranspileProofs TranspileProofs2.
Import ListNotations.
Local Open Scope N_scope.

Lemma check_refs_result types within rs :
  match check_refs types within rs with
  | Ok _ => forall n c, In (TrNamed n, c) rs -> In n (map fst types)
  | Err e => exists n c, e = TeUnknownType n within /\ In (TrNamed n, c) rs /\ ~ In n (map fst types)
  | _ => False
  end.
Proof.
  induction rs as [|[r c] rs IH]; cbn [check_refs]; [intros n c []|].
  assert (X : match r with TrNamed n => In n (map fst types) | _ => True end ->
    match check_refs types within rs with
    | Ok _ => forall n c0, In (TrNamed n, c0) ((r, c) :: rs) -> In n (map fst types)
    | Err e => exists n c0, e = TeUnknownType n within /\ In (TrNamed n, c0) ((r, c) :: rs) /\ ~ In n (map fst types)
    | _ => False
    end).
  { intros R. destruct (check_refs types within rs) as [u|e| |]; try contradiction.
    - intros n c0 [E|I]; [injection E as -> _; exact R|exact (IH _ _ I)].
    - destruct IH as (n & c0 & -> & I & N). exists n, c0. split; [reflexivity|]. split; [now right|exact N]. }
  destruct r as [t|name|e]; try (apply X; exact I). destruct (om_get String.compare name types) eqn:G.
  - apply X. destruct (in_dec string_dec name (map fst types)) as [I|N]; [exact I|]. apply (mget_none _ string_lawful) in N. congruence.
  - apply (mget_none _ string_lawful) in G. exists name, c. split; [reflexivity|]. split; [now left|exact G].
Qed.
Lemma check_types_result (dbg : bool) types ts : (forall n t, In (n, t) ts -> lenN (refs t) <= 254) ->
  match check_types dbg types ts with
  | Ok _ => forall n t m, In (n, t) ts -> In (TrNamed m) (refs t) -> In m (map fst types)
  | Err e => exists n t m, e = TeUnknownType m t /\ In (n, t) ts /\ In (TrNamed m) (refs t) /\ ~ In m (map fst types)
  | _ => False
  end.
Proof.
  induction ts as [|[n t] ts IH]; intros L; cbn [check_types]; [intros ? ? ? []|].
  destruct (type_refs_ok dbg t) as (l & -> & E & _); [pose proof (L _ _ (or_introl eq_refl)); destruct dbg; lia|].
  pose proof (check_refs_result types t l) as R. destruct (check_refs types t l) as [u|e| |]; try contradiction; cbn [bind].
  - specialize (IH (fun a b I => L a b (or_intror I))). destruct (check_types dbg types ts) as [v|e| |]; try contradiction.
    + intros a b m [X|I] J; [|exact (IH _ _ _ I J)]. injection X as <- <-. rewrite <- E in J. apply in_map_iff in J as ([r c] & Y & J). cbn in Y. subst r. exact (R _ _ J).
    + destruct IH as (a & b & m & -> & I & J). exists a, b, m. split; [reflexivity|]. split; [now right|exact J].
  - destruct R as (m & c & -> & I & N). exists n, t, m. split; [reflexivity|]. split; [now left|]. split; [|exact N]. rewrite <- E. now apply (in_map fst) in I.
Qed.
Lemma find_deps_fails known libs : ~ In "_"%string libs -> forall used, NoDup libs -> (forall lib, In lib libs -> ~ In lib (map fst used)) -> msorted String.compare used ->
  (exists lib, In lib libs /\ dep_named known lib = None) ->
  exists lib, find_deps known libs used = Err (TeUnknownLib lib) /\ In lib libs /\ dep_named known lib = None.
Proof.
  induction libs as [|lib libs IH]; intros U used ND D S (x & I & N); [destruct I|]. cbn [find_deps].
  destruct (String.eqb_spec lib LIB_EMBEDDED) as [E|_]; [destruct U; left; exact E|]. unfold dep_named in *. inversion ND as [|? ? Nl ND']; subst.
  destruct (find (fun k => (d_name (fst k) =? lib)%string) known) as [k|] eqn:F.
  - destruct I as [->|I]; [rewrite F in N; discriminate N|]. destruct (IH (fun J => U (or_intror J)) (om_insert String.compare lib (fst k) used) ND') as (y & E & J & Y).
    + intros y J K. apply (mins_keys _ string_lawful) in K as [->|K]; [contradiction| |exact S]. exact (D y (or_intror J) K).
    + now apply (mins_sorted _ string_lawful).
    + exists x. split; [exact I|exact N].
    + exists y. split; [exact E|]. split; [now right|exact Y].
  - assert (G : om_get String.compare lib used = None) by (apply (mget_none _ string_lawful), D; now left). rewrite G. exists lib. split; [reflexivity|]. split; [now left|exact F].
Qed.
Lemma check_deps_all known used : NoDup (map (fun k : dependency * option (list semid) => d_id (fst k)) known) ->
  (forall lib d, om_get String.compare lib used = Some d -> exists o, dep_named known lib = Some (d, o)) ->
  forall exts m, (forall lib ids, In (lib, ids) exts -> In lib (map fst used)) ->
  match check_deps known used exts m with
  | Ok m' => m' = fold_left (fun m e => om_insert String.compare (fst e) (snd e) m) exts m
             /\ forall lib ids, In (lib, ids) exts -> provided known lib ids /\ lenN ids <= 65535
  | Err e => misses known exts e \/ exists lib ids, e = TeLibTooLarge lib /\ In (lib, ids) exts /\ 65535 < lenN ids
  | _ => False
  end.
Proof.
  intros ND H exts. induction exts as [|[lib ids] exts IH]; intros m P; cbn [check_deps]; [split; [reflexivity|intros lib ids []]|].
  pose proof (P _ _ (or_introl eq_refl)) as K. destruct (mget_key _ string_lawful _ _ K) as [d G]. destruct (H _ _ G) as (o & F).
  destruct (dep_named_In _ _ _ F) as [I _]. pose proof (check_dep_result known used lib d o ids ND G I) as R.
  destruct (check_dep known used lib ids) as [[]|e| |]; try contradiction.
  - cbn [bind]. destruct (lenN ids <=? u16_max) eqn:L.
    + apply N.leb_le in L. specialize (IH (om_insert String.compare lib ids m) (fun l i J => P l i (or_intror J))).
      destruct (check_deps known used exts _) as [m'|e| |]; try contradiction.
      * destruct IH as [-> A]. split; [reflexivity|]. intros l i [[= <- <-]|J]; [|now apply A]. split; [|exact L].
        intros id d' types J F'. rewrite F in F'. injection F' as -> ->. now apply (R types eq_refl).
      * destruct IH as [(l & i & id & n & d' & types & -> & J & X)|(l & i & -> & J & X)].
        -- left. exists l, i, id, n, d', types. split; [reflexivity|]. split; [now right|exact X].
        -- right. exists l, i. split; [reflexivity|]. split; [now right|exact X].
    + right. exists lib, ids. apply N.leb_gt in L. split; [reflexivity|]. split; [now left|exact L].
  - destruct R as (id & n & types & -> & J & -> & N). cbn [bind]. left. exists lib, ids, id, n, d, types. split; [reflexivity|]. split; [now left|]. auto.
Qed.
Lemma dep_named_none known lib : dep_named known lib = None <-> forall k, In k known -> d_name (fst k) <> lib.
Proof.
  unfold dep_named. split.
  - intros F k I E. pose proof (find_none _ _ F k I) as X. cbn in X. rewrite E, String.eqb_refl in X. discriminate X.
  - intros H. destruct (find _ known) as [k|] eqn:F; [|reflexivity]. apply find_some in F as [I E]. apply String.eqb_eq in E. destruct (H k I E).
Qed.
Lemma named_providers (known : list (dependency * option (list semid))) lib d o : NoDup (map (fun k => d_name (fst k)) known) ->
  (dep_named known lib = Some (d, o) <-> In (d, o) known /\ d_name d = lib).
Proof.
  intros ND. split; [intros F; now apply dep_named_In in F|]. intros [I <-]. unfold dep_named. induction known as [|[d' o'] known IH]; [destruct I|].
  cbn [find fst]. inversion ND as [|? ? N ND']; subst. destruct (String.eqb_spec (d_name d') (d_name d)) as [E|E].
  - destruct I as [I|I]; [now rewrite I|]. destruct N. apply in_map_iff. exists (d, o). split; [cbn; congruence|exact I].
  - destruct I as [I|I]; [injection I as -> _; now destruct E|]. now apply IH.
Qed.
Lemma deps_inserted (used : list (string * dependency)) : (forall e e', In e used -> In e' used -> d_id (snd e) = d_id (snd e') -> snd e = snd e') ->
  forall s, (forall e x, In e used -> In x s -> d_id (snd e) = d_id x -> snd e = x) ->
  forall d, In d (fold_left (fun s (e : string * dependency) => set_insert dep_cmp (snd e) s) used s) <-> In d (map snd used) \/ In d s.
Proof.
  induction used as [|e used IH]; intros U s V d; cbn [fold_left map]; [cbn; tauto|].
  assert (X : forall x, In x (set_insert dep_cmp (snd e) s) <-> x = snd e \/ In x s).
  { intros x. specialize (V e). clear -V. specialize (fun x => V x (or_introl eq_refl)). induction s as [|y s IH]; cbn [set_insert]; [cbn; intuition|]. unfold dep_cmp at 1. destruct (d_id (snd e) ?= d_id y) eqn:C.
    - apply N.compare_eq_iff in C. rewrite (V y (or_introl eq_refl) C). cbn. intuition.
    - cbn. intuition.
    - cbn [In]. rewrite IH by (intros z I; apply V; now right). intuition. }
  rewrite IH.
  - rewrite X. cbn [In]. intuition.
  - intros a b A B. apply U; now right.
  - intros a x A B E. apply X in B as [->|B]; [apply U; [now right|now left|exact E]|exact (V a x (or_intror A) B E)].
Qed.
Lemma fold_left_map_snd (l : list (string * dependency)) : forall s,
  fold_left (fun s d => set_insert dep_cmp d s) (map snd l) s = fold_left (fun s (e : string * dependency) => set_insert dep_cmp (snd e) s) l s.
Proof. induction l as [|e l IH]; intros s; cbn; auto. Qed.
Lemma NoDup_map_inj {A B} (f : A -> B) l : (forall x y, In x l -> In y l -> f x = f y -> x = y) -> NoDup l -> NoDup (map f l).
Proof.
  intros H N. induction N as [|x l X N IH]; cbn; constructor.
  - intros I. apply in_map_iff in I as (y & E & I). apply X. rewrite (H x y); [exact I|now left|now right|now symmetry].
  - apply IH. intros a b A0 B0. apply H; now right.
Qed.
Lemma folded_types {V} (l : list (string * V)) : NoDup (map fst l) ->
  let m := fold_left (fun m e => om_insert String.compare (fst e) (snd e) m) l [] in increasing (by_key name_lt) m /\ forall e, In e m <-> In e l.
Proof.
  intros ND. destruct (fold_ins l ND []) as [A B]; [constructor|intros e []|]. split; [exact A|]. intros [k v]. rewrite B. cbn. tauto.
Qed.
Lemma folded_len {V} (l : list (string * V)) : NoDup (map fst l) -> lenN (fold_left (fun m e => om_insert String.compare (fst e) (snd e) m) l []) = lenN l.
Proof.
  intros ND. destruct (folded_types l ND) as [A B]. cbn zeta in *. unfold lenN. f_equal.
  rewrite <- (map_length fst l), <- (map_length fst (fold_left _ _ _)). apply Nat.le_antisymm; apply NoDup_incl_length.
  - apply (msorted_NoDup _ string_lawful), A.
  - intros x I. apply in_map_iff in I as (e & <- & I). apply in_map. now apply B.
  - exact ND.
  - intros x I. apply in_map_iff in I as (e & <- & I). apply in_map. now apply B.
Qed.

(** ** C69 *)

(** A library is returned exactly if there is nothing unresolved, and has the types, the types of other libraries and
    those dependencies which are used. *)
Theorem C69 : forall dbg b, gathered b -> lb_types b <> [] ->
  match compile_symbols dbg b with
  | Ok s => (forall n t, ~ unknown_type b n t) /\ (forall lib, ~ unknown_lib b lib) /\ (forall lib id n, ~ missing_type b lib id n)
      /\ lenN (lb_extern b) <= 255 /\ (forall lib ids, In (lib, ids) (lb_extern b) -> lenN ids <= 65535) /\ gathered_as b s
  | Err (TeUnknownType n t) => unknown_type b n t
  | Err (TeUnknownLib lib) => unknown_lib b lib
  | Err (TeMissesType lib id n) => missing_type b lib id n
  | Err (TeLibTooLarge lib) => exists ids, In (lib, ids) (lb_extern b) /\ 65535 < lenN ids
  | Err TeTooManyDependencies => 255 < lenN (lb_extern b)
  | Err TeTooManyTypes | Panic | Diverge => False
  end.
Proof.
  intros dbg b (NT & NE & NU & NI & NN & L) T. unfold compile_symbols. destruct (lb_types b) as [|t0 ts0] eqn:TT; [contradiction|].
  rewrite <- TT in *. clear T. pose proof (check_types_result dbg (lb_types b) (lb_types b) L) as R1.
  destruct (check_types dbg (lb_types b) (lb_types b)) as [u|e| |]; try contradiction; cbn [bind].
  2:{ destruct R1 as (n & t & m & -> & A). exists n. exact A. }
  assert (D : (exists lib, In lib (map fst (lb_extern b)) /\ dep_named (lb_known b) lib = None)
    \/ forall lib, In lib (map fst (lb_extern b)) -> lib <> "_"%string /\ exists k, dep_named (lb_known b) lib = Some k).
  { clear -NU. induction (map fst (lb_extern b)) as [|lib libs IH]; [right; intros lib []|].
    destruct (dep_named (lb_known b) lib) as [k|] eqn:F.
    - destruct IH as [(x & I & X)|H]; [intros I; apply NU; now right| |].
      + left. exists x. split; [now right|exact X].
      + right. intros x [<-|I]; [|now apply H]. split; [intros ->; apply NU; now left|eauto].
    - left. exists lib. split; [now left|exact F]. }
  destruct D as [D|D].
  { destruct (find_deps_fails (lb_known b) (map fst (lb_extern b)) NU [] NE) as (lib & -> & I & F); [intros ? ? []|constructor|exact D|]. cbn [bind].
    split; [exact I|]. now apply dep_named_none. }
  destruct (find_deps_ok (lb_known b) (map fst (lb_extern b)) D [] NE) as (used & -> & S & M); [intros ? ? []|constructor|]. cbn [bind].
  assert (M' : forall lib d, In (lib, d) used <-> In lib (map fst (lb_extern b)) /\ exists o, dep_named (lb_known b) lib = Some (d, o)) by (intros lib d; rewrite M; cbn; tauto).
  pose proof (check_deps_all (lb_known b) used NI) as R2. specialize (R2 ltac:(intros lib d G; apply (mget_In _ string_lawful) in G; [|exact S]; apply M' in G as [_ X]; exact X)).
  specialize (R2 (lb_extern b) []). specialize (R2 ltac:(intros lib ids I; apply (in_map fst) in I; destruct (D _ I) as (_ & [d o] & F); apply in_map_iff; exists (lib, d); split; [reflexivity|]; apply M'; split; [exact I|eauto])).
  destruct (check_deps (lb_known b) used (lb_extern b) []) as [exts|e| |]; try contradiction; cbn [bind].
  2:{ destruct R2 as [(lib & ids & id & n & d & types & -> & I & J & F & N)|(lib & ids & -> & I & X)]; [|eauto].
      exists ids, d, types. apply named_providers in F as [K1 K2]; [|exact NN]. auto 10. }
  destruct R2 as [-> P].
  pose proof (folded_len (lb_extern b) NE) as LE. destruct (negb _) eqn:X1.
  { apply negb_true_iff, N.leb_gt in X1. unfold u8_max in X1. rewrite LE in X1. exact X1. }
  apply negb_false_iff, N.leb_le in X1. unfold u8_max in X1. rewrite LE in X1.
  assert (UI : forall e e', In e used -> In e' used -> d_id (snd e) = d_id (snd e') -> snd e = snd e').
  { intros [l1 d1] [l2 d2] I1 I2 E. cbn [snd] in *. apply M' in I1 as (_ & o1 & F1), I2 as (_ & o2 & F2). apply dep_named_In in F1 as [F1 _], F2 as [F2 _].
    apply (find_id _ _ _ NI) in F1, F2. rewrite E in F1. rewrite F1 in F2. congruence. }
  pose proof (deps_inserted used UI [] (fun _ _ _ (I : In _ []) => match I with end)) as DI.
  assert (LD : lenN (fold_left (fun s (e : string * dependency) => set_insert dep_cmp (snd e) s) used []) <= 255).
  { etransitivity; [|exact X1]. unfold lenN. match goal with |- N.of_nat ?a <= N.of_nat ?b => cut (a <= b)%nat; [lia|] end.
    rewrite <- (map_length fst (lb_extern b)), <- (map_length d_name). apply NoDup_incl_length.
    - assert (SD : increasing (fun a b => d_id a < d_id b) (fold_left (fun s (e : string * dependency) => set_insert dep_cmp (snd e) s) used [])).
      { rewrite <- (fold_left_map_snd used []). apply fold_insert_sorted. constructor. }
      revert SD DI. generalize (fold_left (fun s (e : string * dependency) => set_insert dep_cmp (snd e) s) used []). intros ds SD DI. apply NoDup_map_inj.
      + intros d1 d2 I1 I2 E. apply DI in I1 as [I1|[]], I2 as [I2|[]]. apply in_map_iff in I1 as ([l1 x1] & Y1 & I1), I2 as ([l2 x2] & Y2 & I2). cbn in Y1, Y2. subst x1 x2.
        apply M' in I1 as (_ & o1 & F1), I2 as (_ & o2 & F2). pose proof (dep_named_In _ _ _ F1) as [_ E1]. pose proof (dep_named_In _ _ _ F2) as [_ E2]. cbn [fst] in E1, E2.
        assert (l1 = l2) by congruence. subst l2. congruence.
      + clear -SD. induction SD as [|d ds SD IH F]; constructor; [|exact IH]. intros I. rewrite Forall_forall in F. exact (N.lt_irrefl _ (F _ I)).
    - intros n I. apply in_map_iff in I as (d & <- & I). apply DI in I as [I|[]]. apply in_map_iff in I as ([l x] & Y & I). cbn in Y. subst x. apply M' in I as (I & o & F).
      apply dep_named_In in F as [_ F]. cbn [fst] in F. now rewrite F. }
  destruct (negb _) eqn:X2; [apply negb_true_iff, N.leb_gt in X2; unfold u8_max in X2; destruct (N.lt_irrefl 255); eapply N.lt_le_trans; eassumption|]. clear X2.
  split; [intros n t (m & A1 & A2 & A3); exact (A3 (R1 _ _ _ A1 A2))|].
  split; [intros lib (A1 & A2); destruct (D lib A1) as (_ & k & F); apply dep_named_In in F as [F1 F2]; exact (A2 k F1 F2)|].
  split; [intros lib id n (ids & d & types & A1 & A2 & A3 & A4 & A5); apply A5; apply (proj1 (P _ _ A1) id d types); [now apply (in_map fst) in A2|apply named_providers; auto]|].
  split; [exact X1|]. split; [intros lib ids I; apply (P _ _ I)|].
  destruct (folded_types (lb_types b) NT) as [O1 O2], (folded_types (lb_extern b) NE) as [O3 O4]. cbn zeta in *.
  unfold gathered_as. cbn [y_name y_types y_extern y_deps]. split; [reflexivity|]. split; [exact O1|]. split; [exact O2|]. split; [exact O3|]. split; [exact O4|]. split.
  - rewrite <- (fold_left_map_snd used []). apply fold_insert_sorted. constructor.
  - intros d. rewrite DI. cbn [In]. rewrite in_map_iff. split.
    + intros [([l x] & Y & I)|[]]. cbn in Y. subst x. apply M' in I as (I & o & F). apply dep_named_In in F as [F1 F2]. cbn [fst] in F2. subst l. split; [|exact I]. eauto.
    + intros ((o & I1) & I2). left. exists (d_name d, d). split; [reflexivity|]. apply M'. split; [exact I2|]. exists o. apply named_providers; auto.
Qed.
Definition ex_gathered : lib_builder := mkLibBuilder "Own" [(mkDep 7 "Std", Some [3; 5]); (mkDep 8 "Unused", None)] [("Std"%string, [(5, "Word"%string)])]
  [("Pair"%string, TTuple [TrNamed "Side"; TrExtern (mkSymRef "Std" "Word" 7 5)]); ("Side"%string, TPrim 1)] None.
Example C69_case : gathered ex_gathered /\ forall dbg, exists s, compile_symbols dbg ex_gathered = Ok s /\ y_deps s = [mkDep 7 "Std"].
Proof.
  split.
  - unfold gathered, ex_gathered. cbn [lb_types lb_extern lb_known map fst d_id d_name].
    repeat split; try (repeat constructor; cbn; intuition discriminate); try (cbn; intuition discriminate).
    intros n t [E|[E|[]]]; injection E as _ <-; vm_compute; discriminate.
  - intros []; eexists; (split; [vm_compute; reflexivity|reflexivity]).
Qed.
Print Assumptions C69.
