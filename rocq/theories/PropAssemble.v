(** Properties of assembling a library: C67, C68. *)
From Coq Require Import NArith List Bool String Sorted Permutation Lia.
From Verif Require Import Base Ty Ids TypeSys LibCodec SpecLib LibCodecProofs MapLemmas Build Assemble SpecAssemble.
Import ListNotations.
Local Open Scope N_scope.

(** ** Sets of dependencies *)
Lemma dep_mem d s : set_mem dep_cmp d s = true <-> exists d', In d' s /\ d_id d' = d_id d.
Proof.
  unfold set_mem, dep_cmp. rewrite existsb_exists. split; intros (x & I & E); exists x; (split; [exact I|]).
  - destruct (d_id d ?= d_id x) eqn:C; try discriminate E. apply N.compare_eq_iff in C. congruence.
  - rewrite E, N.compare_refl. reflexivity.
Qed.
Lemma dep_mem_false d s : set_mem dep_cmp d s = false <-> forall d', In d' s -> d_id d' <> d_id d.
Proof.
  split.
  - intros M d' I E. assert (set_mem dep_cmp d s = true) by (apply dep_mem; eauto). congruence.
  - intros H. destruct (set_mem dep_cmp d s) eqn:M; [|reflexivity]. apply dep_mem in M as (d' & I & E). destruct (H d' I E).
Qed.
Lemma dep_insert_In d s x : (forall d', In d' s -> d_id d' <> d_id d) -> (In x (set_insert dep_cmp d s) <-> x = d \/ In x s).
Proof.
  induction s as [|y s IH]; intros N; cbn [set_insert]; [cbn; intuition|]. unfold dep_cmp at 1. destruct (d_id d ?= d_id y) eqn:C.
  - apply N.compare_eq_iff in C. destruct (N y (or_introl eq_refl)). congruence.
  - cbn. intuition.
  - cbn [In]. rewrite IH by (intros d' I; apply N; now right). intuition.
Qed.
Lemma dep_insert_sorted d s : (forall d', In d' s -> d_id d' <> d_id d) -> increasing (fun a b => d_id a < d_id b) s ->
  increasing (fun a b => d_id a < d_id b) (set_insert dep_cmp d s).
Proof.
  unfold increasing. intros N S. induction S as [|y s S IH F]; cbn [set_insert]; [repeat constructor|]. unfold dep_cmp at 1. destruct (d_id d ?= d_id y) eqn:C.
  - constructor; auto.
  - apply N.compare_lt_iff in C. constructor; [constructor; auto|]. constructor; [exact C|]. eapply Forall_impl; [|exact F]. intros a A. exact (N.lt_trans _ _ _ C A).
  - apply N.compare_gt_iff in C. assert (N' : forall d', In d' s -> d_id d' <> d_id d) by (intros d' I; apply N; now right).
    constructor; [now apply IH|]. rewrite Forall_forall in F |- *. intros x I. apply (dep_insert_In d s x N') in I as [->|I]; [exact C|now apply F].
Qed.
Lemma dep_insert_len d s : (forall d', In d' s -> d_id d' <> d_id d) -> lenN (set_insert dep_cmp d s) = lenN s + 1.
Proof.
  induction s as [|y s IH]; intros N; cbn [set_insert]; [reflexivity|]. unfold dep_cmp at 1. destruct (d_id d ?= d_id y) eqn:C.
  - apply N.compare_eq_iff in C. destruct (N y (or_introl eq_refl)). congruence.
  - unfold lenN. cbn [List.length]. lia.
  - specialize (IH (fun d' I => N d' (or_intror I))). unfold lenN in *. cbn [List.length]. lia.
Qed.
Lemma ins_len {V} n (v : V) m : om_get String.compare n m = None -> lenN (om_insert String.compare n v m) = lenN m + 1.
Proof.
  induction m as [|[k w] m IH]; intros G; [reflexivity|]. cbn [om_get om_insert] in *. destruct (String.compare n k).
  - discriminate G.
  - unfold lenN. cbn [List.length]. lia.
  - specialize (IH G). unfold lenN in *. cbn [List.length]. lia.
Qed.
Lemma names_sorted {V} (m : list (string * V)) : increasing (by_key name_lt) m <-> msorted String.compare m.
Proof. reflexivity. Qed.
Lemma types_insert_In n (t : ty lib_ref) m e : increasing (by_key name_lt) m -> om_get String.compare n m = None ->
  (In e (om_insert String.compare n t m) <-> e = (n, t) \/ In e m).
Proof.
  intros S G. pose proof (mins_sorted _ string_lawful n t m S) as S'. destruct e as [k v].
  rewrite <- (mget_In _ string_lawful k v _ S'), <- (mget_In _ string_lawful k v _ S), (mget_ins _ string_lawful _ _ _ _ S).
  destruct (String.compare k n) eqn:C.
  - apply (law_eq _ string_lawful) in C. subst k. rewrite G. split; [intros E; left; congruence|intros [E|E]; congruence].
  - split; [now right|]. intros [E|E]; [|exact E]. injection E as -> _. rewrite (cmp_refl _ string_lawful) in C. discriminate C.
  - split; [now right|]. intros [E|E]; [|exact E]. injection E as -> _. rewrite (cmp_refl _ string_lawful) in C. discriminate C.
Qed.

(** ** C67 *)

(** A dependency is added exactly if none has its id and there are fewer than 255, and nothing else changes. *)
Theorem C67_import : forall l d l', ordered l ->
  (import l d = (Ok tt, l') <->
   (forall d', In d' (l_deps l) -> d_id d' <> d_id d) /\ lenN (l_deps l) < 255
   /\ same_but_deps l l' /\ ordered l' /\ (forall x, In x (l_deps l') <-> x = d \/ In x (l_deps l))).
Proof.
  intros l d l' (SD & ST & LD & LT). unfold import, confined_push. split.
  - destruct (set_mem dep_cmp d (l_deps l)) eqn:M; [discriminate|]. rewrite dep_mem_false in M.
    destruct (lenN (l_deps l) =? u8_max) eqn:E; [discriminate|]. apply N.eqb_neq in E. unfold u8_max in E. intros H. injection H as <-.
    split; [exact M|]. split; [lia|]. split; [repeat split|]. unfold ordered. cbn [l_deps l_types]. split; [|intros x; now apply dep_insert_In].
    split; [now apply dep_insert_sorted|]. split; [exact ST|]. rewrite dep_insert_len by exact M. split; [lia|exact LT].
  - intros (M & L & (N1 & N2 & N3) & (SD' & _) & I). pose proof M as M'. apply dep_mem_false in M. rewrite M.
    replace (lenN (l_deps l) =? u8_max) with false by (symmetry; apply N.eqb_neq; unfold u8_max; lia). f_equal. destruct l' as [n ds e t]. cbn [l_name l_deps l_extern l_types] in *. subst n e t. f_equal.
    assert (U : forall a b : list dependency, increasing (fun a b => d_id a < d_id b) a -> increasing (fun a b => d_id a < d_id b) b ->
      (forall x, In x a <-> In x b) -> a = b).
    { clear. induction a as [|x a IH]; intros [|y b] A B E.
      - reflexivity.
      - destruct (proj2 (E y) (or_introl eq_refl)).
      - destruct (proj1 (E x) (or_introl eq_refl)).
      - inversion A as [|? ? A1 A2]; subst. inversion B as [|? ? B1 B2]; subst. rewrite Forall_forall in A2, B2.
        assert (x = y). { destruct (proj1 (E x) (or_introl eq_refl)) as [Z|Z]; [congruence|]. destruct (proj2 (E y) (or_introl eq_refl)) as [Z'|Z']; [congruence|].
          specialize (A2 _ Z'). specialize (B2 _ Z). destruct (N.lt_asymm _ _ A2 B2). }
        subst y. f_equal. apply IH; [exact A1|exact B1|]. intros z. split; intros I.
        + destruct (proj1 (E z) (or_intror I)) as [Z|Z]; [|exact Z]. subst z. specialize (A2 _ I). destruct (N.lt_irrefl _ A2).
        + destruct (proj2 (E z) (or_intror I)) as [Z|Z]; [|exact Z]. subst z. specialize (B2 _ I). destruct (N.lt_irrefl _ B2). }
    apply U; [now apply dep_insert_sorted|exact SD'|]. intros x. rewrite I. now apply dep_insert_In.
Qed.
(** A type is added exactly if none has its name and there are fewer than 65535, and nothing else changes. *)
Theorem C67_populate : forall l n t l', ordered l ->
  (populate l n t = (Ok tt, l') <->
   ~ In n (map fst (l_types l)) /\ lenN (l_types l) < 65535
   /\ same_but_types l l' /\ ordered l' /\ (forall e, In e (l_types l') <-> e = (n, t) \/ In e (l_types l))).
Proof.
  intros l n t l' (SD & ST & LD & LT). unfold populate, confined_insert. split.
  - destruct (om_get String.compare n (l_types l)) eqn:G; [discriminate|]. pose proof G as M. apply (mget_none _ string_lawful) in M.
    destruct (lenN (l_types l) =? u16_max) eqn:E; [discriminate|]. apply N.eqb_neq in E. unfold u16_max in E. intros H. injection H as <-.
    split; [exact M|]. split; [lia|]. split; [repeat split|]. unfold ordered. cbn [l_deps l_types]. split; [|intros x; now apply types_insert_In].
    split; [exact SD|]. split; [apply names_sorted, mins_sorted; [exact string_lawful|exact ST]|]. rewrite ins_len by exact G. split; [exact LD|lia].
  - intros (M & L & (N1 & N2 & N3) & (_ & ST' & _) & I). apply (mget_none _ string_lawful) in M. rewrite M.
    replace (lenN (l_types l) =? u16_max) with false by (symmetry; apply N.eqb_neq; unfold u16_max; lia). f_equal. destruct l' as [n' ds e t']. cbn [l_name l_deps l_extern l_types] in *. subst n' e ds. f_equal.
    apply (msorted_eq _ string_lawful); [apply mins_sorted; [exact string_lawful|exact ST]|exact ST'|]. intros k v. rewrite I. now apply types_insert_In.
Qed.
(** If it is not added an error tells why, and the library stays as it was. *)
Theorem C67_import_error : forall l d, fst (import l d) <> Ok tt ->
  snd (import l d) = l
  /\ ((exists d', In d' (l_deps l) /\ d_id d' = d_id d) /\ fst (import l d) = Err (DuplicatedDependency d)
      \/ (forall d', In d' (l_deps l) -> d_id d' <> d_id d) /\ lenN (l_deps l) = 255 /\ fst (import l d) = Err TooManyDependencies).
Proof.
  intros l d. unfold import, confined_push. destruct (set_mem dep_cmp d (l_deps l)) eqn:M.
  - intros _. split; [reflexivity|]. left. split; [now apply dep_mem|reflexivity].
  - destruct (lenN (l_deps l) =? u8_max) eqn:E; [|intros H; now destruct H]. intros _. split; [reflexivity|]. right. split; [now apply dep_mem_false|]. split; [now apply N.eqb_eq|reflexivity].
Qed.
Theorem C67_populate_error : forall l n t, fst (populate l n t) <> Ok tt ->
  snd (populate l n t) = l
  /\ (In n (map fst (l_types l)) /\ fst (populate l n t) = Err (DuplicateName n)
      \/ ~ In n (map fst (l_types l)) /\ lenN (l_types l) = 65535 /\ fst (populate l n t) = Err TooManyTypes).
Proof.
  intros l n t. unfold populate, confined_insert. destruct (om_get String.compare n (l_types l)) eqn:G.
  - intros _. split; [reflexivity|]. left. split; [|reflexivity]. destruct (in_dec string_dec n (map fst (l_types l))) as [I|I]; [exact I|].
    apply (mget_none _ string_lawful) in I. congruence.
  - apply (mget_none _ string_lawful) in G. destruct (lenN (l_types l) =? u16_max) eqn:E; [|intros H; now destruct H]. intros _. split; [reflexivity|].
    right. split; [exact G|]. split; [now apply N.eqb_eq|reflexivity].
Qed.

(** Any number of calls keeps the order and the limits, and whatever was in the library. *)
Lemma perform_cases l o : ordered l ->
  (fst (perform l o) = Ok tt /\ ordered (snd (perform l o))
   /\ l_name (snd (perform l o)) = l_name l /\ l_extern (snd (perform l o)) = l_extern l
   /\ (forall d, In d (l_deps (snd (perform l o))) <-> o = Import d \/ In d (l_deps l))
   /\ (forall e, In e (l_types (snd (perform l o))) <-> o = Populate (fst e) (snd e) \/ In e (l_types l)))
  \/ fst (perform l o) <> Ok tt /\ snd (perform l o) = l.
Proof.
  intros O. destruct o as [d|n t]; cbn [perform].
  - destruct (import l d) as [[[]|e| |] l'] eqn:E; cbn [fst snd].
    + left. apply C67_import in E as (_ & _ & (N1 & N2 & N3) & O' & I); [|exact O]. split; [reflexivity|]. split; [exact O'|]. split; [exact N1|]. split; [exact N2|].
      split; [intros x; rewrite I; intuition congruence|]. intros x. rewrite N3. intuition discriminate.
    + right. split; [discriminate|]. pose proof (C67_import_error l d) as X. rewrite E in X. apply X. discriminate.
    + right. split; [discriminate|]. pose proof (C67_import_error l d) as X. rewrite E in X. apply X. discriminate.
    + right. split; [discriminate|]. pose proof (C67_import_error l d) as X. rewrite E in X. apply X. discriminate.
  - destruct (populate l n t) as [[[]|e| |] l'] eqn:E; cbn [fst snd].
    + left. apply C67_populate in E as (_ & _ & (N1 & N2 & N3) & O' & I); [|exact O]. split; [reflexivity|]. split; [exact O'|]. split; [exact N1|]. split; [exact N2|].
      split; [intros x; rewrite N3; intuition discriminate|]. intros [k v]. rewrite I. cbn [fst snd]. intuition congruence.
    + right. split; [discriminate|]. pose proof (C67_populate_error l n t) as X. rewrite E in X. apply X. discriminate.
    + right. split; [discriminate|]. pose proof (C67_populate_error l n t) as X. rewrite E in X. apply X. discriminate.
    + right. split; [discriminate|]. pose proof (C67_populate_error l n t) as X. rewrite E in X. apply X. discriminate.
Qed.
Theorem C67_keeps : forall os l, ordered l ->
  let l' := snd (perform_all l os) in
  ordered l' /\ l_name l' = l_name l /\ l_extern l' = l_extern l
  /\ (forall d, In d (l_deps l) -> In d (l_deps l')) /\ (forall e, In e (l_types l) -> In e (l_types l'))
  /\ (forall d, In d (l_deps l') -> In d (l_deps l) \/ In (Import d) os)
  /\ (forall e, In e (l_types l') -> In e (l_types l) \/ In (Populate (fst e) (snd e)) os).
Proof.
  induction os as [|o os IH]; intros l O; cbn [perform_all fst snd].
  - repeat split; try apply O; auto.
  - set (l1 := snd (perform l o)). assert (S : ordered l1 /\ l_name l1 = l_name l /\ l_extern l1 = l_extern l
      /\ (forall d, In d (l_deps l) -> In d (l_deps l1)) /\ (forall e, In e (l_types l) -> In e (l_types l1))
      /\ (forall d, In d (l_deps l1) -> In d (l_deps l) \/ o = Import d) /\ (forall e, In e (l_types l1) -> In e (l_types l) \/ o = Populate (fst e) (snd e))).
    { destruct (perform_cases l o O) as [(_ & O' & N1 & N2 & D & T)|[_ E]].
      - split; [exact O'|]. split; [exact N1|]. split; [exact N2|]. split; [intros d I; apply D; now right|]. split; [intros e I; apply T; now right|].
        split; [intros d I; apply D in I; tauto|intros e I; apply T in I; tauto].
      - unfold l1 in *. rewrite E. repeat split; try apply O; auto. }
    destruct S as (O1 & N1 & N2 & D1 & T1 & D2 & T2). destruct (IH l1 O1) as (O3 & N3 & N4 & D3 & T3 & D4 & T4). cbn zeta in *.
    split; [exact O3|]. split; [congruence|]. split; [congruence|]. split; [auto|]. split; [auto|]. split.
    + intros d I. apply D4 in I as [I|I]; [apply D2 in I as [I|I]; [now left|right; left; exact I]|right; right; exact I].
    + intros e I. apply T4 in I as [I|I]; [apply T2 in I as [I|I]; [now left|right; left; exact I]|right; right; exact I].
Qed.
(** The order of the calls does not matter: if all succeed in both orders, the libraries are the same, and so are
    their ids. *)
Lemma all_added os : forall l, ordered l -> Forall (fun r => r = Ok tt) (fst (perform_all l os)) ->
  let l' := snd (perform_all l os) in
  (forall d, In d (l_deps l') <-> In d (l_deps l) \/ In (Import d) os)
  /\ (forall e, In e (l_types l') <-> In e (l_types l) \/ In (Populate (fst e) (snd e)) os).
Proof.
  induction os as [|o os IH]; intros l O F; cbn [perform_all fst snd] in *.
  - split; intros; cbn; tauto.
  - inversion F as [|? ? R F']; subst. destruct (perform_cases l o O) as [(_ & O' & _ & _ & D & T)|[N _]]; [|contradiction].
    destruct (IH _ O' F') as [A B]. cbn zeta in *. split; intros x; [rewrite A, D|rewrite B, T]; cbn [In]; tauto.
Qed.
Theorem C67_order : forall os os' l, ordered l -> Permutation os os' ->
  Forall (fun r => r = Ok tt) (fst (perform_all l os)) -> Forall (fun r => r = Ok tt) (fst (perform_all l os')) ->
  snd (perform_all l os) = snd (perform_all l os') /\ lib_id (snd (perform_all l os)) = lib_id (snd (perform_all l os')).
Proof.
  intros os os' l O P F F'. assert (E : snd (perform_all l os) = snd (perform_all l os')); [|split; [exact E|now rewrite E]].
  destruct (all_added os l O F) as [A B], (all_added os' l O F') as [A' B']. destruct (C67_keeps os l O) as (O1 & N1 & X1 & _), (C67_keeps os' l O) as (O2 & N2 & X2 & _).
  cbn zeta in *. destruct (snd (perform_all l os)) as [n1 d1 e1 t1], (snd (perform_all l os')) as [n2 d2 e2 t2]. cbn [l_name l_deps l_extern l_types] in *.
  destruct O1 as (D1 & T1 & _), O2 as (D2 & T2 & _). cbn [l_deps l_types] in *.
  assert (Q : forall c, In c os <-> In c os') by (intros c; split; apply Permutation_in; [exact P|now apply Permutation_sym]).
  f_equal; [congruence| |congruence|].
  - assert (M : map (fun d => (d_id d, d_name d)) d1 = map (fun d => (d_id d, d_name d)) d2).
    { assert (S : forall ds, increasing (fun a b => d_id a < d_id b) ds -> msorted N.compare (map (fun d => (d_id d, d_name d)) ds)).
      { intros ds S. induction S as [|d ds S IH F0]; cbn [map]; constructor; [exact IH|]. rewrite Forall_map. eapply Forall_impl; [|exact F0]. cbn. intros a. apply N.compare_lt_iff. }
      apply (msorted_eq _ N_lawful); auto. assert (Z : forall k v ds, In (k, v) (map (fun d => (d_id d, d_name d)) ds) <-> In (mkDep k v) ds).
      { intros k v ds. rewrite in_map_iff. split; [intros ([i n] & Y & I); cbn in Y; injection Y as <- <-; exact I|intros I; eexists; split; [|exact I]; reflexivity]. }
      intros k v. rewrite !Z, A, A', Q. reflexivity. }
    clear -M. revert d2 M. induction d1 as [|[i n] d1 IH]; intros [|[i' n'] d2] M; try discriminate M; [reflexivity|]. cbn in M. injection M as -> -> M. f_equal. now apply IH.
  - apply (msorted_eq _ string_lawful); auto. intros k v. rewrite B, B'. cbn [fst snd]. now rewrite Q.
Qed.
Definition ex_lib : type_lib := mkLib "Wallet" [mkDep 7 "Std"] [] [("Amount"%string, TPrim 8)].
Definition ex_calls : list call := [Import (mkDep 3 "Bitcoin"); Populate "Zero" (TPrim 0); Import (mkDep 9 "Rgb"); Populate "Coin" (TPrim 4)].
Example C67_case : ordered ex_lib
  /\ perform_all ex_lib ex_calls
     = ([Ok tt; Ok tt; Ok tt; Ok tt],
        mkLib "Wallet" [mkDep 3 "Bitcoin"; mkDep 7 "Std"; mkDep 9 "Rgb"] [] [("Amount"%string, TPrim 8); ("Coin"%string, TPrim 4); ("Zero"%string, TPrim 0)])
  /\ Forall (fun r => r = Ok tt) (fst (perform_all ex_lib (rev ex_calls))).
Proof.
  split; [|split; [reflexivity|repeat constructor]]. unfold ordered. cbn. split; [repeat constructor|]. split; [repeat constructor|]. unfold lenN. cbn. lia.
Qed.
Example C67_error_case : perform_all ex_lib [Import (mkDep 7 "Other"); Populate "Amount" (TPrim 1)]
  = ([Err (DuplicatedDependency (mkDep 7 "Other")); Err (DuplicateName "Amount")], ex_lib).
Proof. reflexivity. Qed.
Print Assumptions C67_import.
Print Assumptions C67_populate.
Print Assumptions C67_import_error.
Print Assumptions C67_populate_error.
Print Assumptions C67_keeps.
Print Assumptions C67_order.

(** ** C68 *)

(** Full statement: a dependency which equals one of the library is not added. Proved for equality of ids. *)
Theorem C68_partial : forall l d d', In d' (l_deps l) -> d_id d' = d_id d ->
  import l d = (Err (DuplicatedDependency d), l).
Proof.
  intros l d d' I E. unfold import. replace (set_mem dep_cmp d (l_deps l)) with true; [reflexivity|]. symmetry. apply dep_mem. eauto.
Qed.
Example C68_case : In (mkDep 7 "Std") (l_deps ex_lib) /\ d_id (mkDep 7 "Std") = d_id (mkDep 7 "Other").
Proof. split; [now left|reflexivity]. Qed.
(** Exactly dependencies with an id of the library are refused for being there, whatever their names are. *)
Theorem C68_exact : forall l d,
  (fst (import l d) = Err (DuplicatedDependency d) <-> exists d', In d' (l_deps l) /\ d_id d' = d_id d).
Proof.
  intros l d. rewrite <- dep_mem. unfold import. destruct (set_mem dep_cmp d (l_deps l)); [easy|]. split; [|easy].
  destruct (confined_push dep_cmp u8_max d (l_deps l)); intros E; discriminate E.
Qed.
Print Assumptions C68_exact.
(** A dependency with the name of another one equals it, but is added. *)
Theorem C68_refuted : exists l d d', ordered l /\ In d' (l_deps l) /\ dep_eqb d d' = true
  /\ fst (import l d) = Ok tt /\ In d (l_deps (snd (import l d))) /\ In d' (l_deps (snd (import l d))).
Proof.
  exists ex_lib, (mkDep 9 "Std"), (mkDep 7 "Std"). split; [exact (proj1 C67_case)|]. repeat split; cbn; auto.
Qed.
Print Assumptions C68_partial.
Print Assumptions C68_refuted.
