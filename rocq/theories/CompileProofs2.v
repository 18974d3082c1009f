(** Proofs about the loop of compilation. *)
From Coq Require Import NArith Arith List Bool String Sorted Lia.
From Verif Require Import Base Sha256 Ty Ids TypeSys LibCodec Build Spec SpecLib LibCodecProofs BuildProofs MapLemmas Compile SpecCompile CompileProofs.
Import ListNotations.
Local Open Scope N_scope.
Local Opaque sem_id_named.

Notation types := (list (string * ty tref)).
Definition uses_in (Y : types) (n m : string) : Prop :=
  exists t r, In (n, t) Y /\ In r (refs t) /\ mentions r m.
Definition done (p : progress) (n : string) : Prop := In n (map fst (pr_new p)).

Record inv (Y : types) (p : progress) : Prop := {
  inv_new : msorted String.compare (pr_new p);
  inv_idx_sorted : msorted String.compare (pr_index p);
  inv_idx : forall n id, in_index (pr_index p) n id <-> exists t, In (n, t) (pr_new p) /\ id = sem_id_named commit_libref n t;
  inv_old_sorted : msorted String.compare (pr_old p);
  inv_old : forall n t, In (n, t) (pr_old p) <-> In (n, t) Y /\ ~ done p n;
  inv_from : forall n t', In (n, t') (pr_new p) -> exists t, In (n, t) Y /\ ty_related (libref_compiled (in_index (pr_index p))) t t';
  inv_rank : exists (rank : string -> nat) (bound : nat), (forall n, done p n -> (rank n < bound)%nat)
             /\ forall n m, done p n -> uses_in Y n m -> done p m /\ (rank m < rank n)%nat
}.

Lemma index_done Y p n : inv Y p -> (index_get n (pr_index p) = None <-> ~ done p n).
Proof.
  intros V. split.
  - intros N D. unfold done in D. apply in_map_iff in D as ([n' t] & E & I). cbn in E. subst n'.
    assert (X : in_index (pr_index p) n (sem_id_named commit_libref n t)) by (apply (inv_idx _ _ V); eauto).
    unfold in_index in X. congruence.
  - intros D. destruct (index_get n (pr_index p)) as [id|] eqn:G; [|reflexivity].
    apply (inv_idx _ _ V) in G as (t & I & _). exfalso. apply D. now apply (in_map fst) in I.
Qed.

Lemma inv_start Y : msorted String.compare Y -> inv Y (mkProgress [] [] Y).
Proof.
  intros S. split; cbn; try (now constructor); try exact S.
  - intros n id. split; [discriminate|]. intros (t & [] & _).
  - intros n t. unfold done. cbn. tauto.
  - exists (fun _ => O), O. unfold done; cbn. split; intros n; [intros []|intros m []].
Qed.

Lemma msorted_In_fun Y n (t t' : ty tref) : msorted String.compare Y -> In (n, t) Y -> In (n, t') Y -> t = t'.
Proof. intros S I J. apply (mget_In _ string_lawful) in I, J; auto. congruence. Qed.

Lemma inv_step Y p n t t' : msorted String.compare Y -> inv Y p -> In (n, t) (pr_old p) ->
  ty_related (libref_compiled (in_index (pr_index p))) t t' ->
  inv Y (mkProgress (om_insert String.compare n (sem_id_named commit_libref n t') (pr_index p))
                    (om_insert String.compare n t' (pr_new p)) (map_remove n (pr_old p))).
Proof.
  intros SY V I T. pose proof (inv_new _ _ V) as SN. pose proof (inv_idx_sorted _ _ V) as SI.
  apply (inv_old _ _ V) in I as [I ND].
  assert (DN : forall m, In m (map fst (om_insert String.compare n t' (pr_new p))) <-> m = n \/ done p m).
  { intros m. now rewrite (mins_keys _ string_lawful). }
  assert (NW : forall m u, In (m, u) (om_insert String.compare n t' (pr_new p)) <-> (m = n /\ u = t') \/ m <> n /\ In (m, u) (pr_new p)).
  { intros m u. rewrite <- (mget_In _ string_lawful) by now apply (mins_sorted _ string_lawful).
    rewrite (mget_ins _ string_lawful) by exact SN.
    destruct (String.compare m n) eqn:C.
    - apply (law_eq _ string_lawful) in C. split; [intros [= <-]; auto|]. intros [[_ ->]|[X _]]; [reflexivity|contradiction].
    - assert (m <> n) by (intros ->; now apply (cmp_irrefl _ string_lawful) in C).
      rewrite (mget_In _ string_lawful) by exact SN. split; [auto|]. intros [[X _]|[_ X]]; [contradiction|exact X].
    - assert (m <> n) by (intros ->; rewrite (cmp_refl _ string_lawful) in C; discriminate C).
      rewrite (mget_In _ string_lawful) by exact SN. split; [auto|]. intros [[X _]|[_ X]]; [contradiction|exact X]. }
  assert (IW : forall i m id, in_index (om_insert String.compare n i (pr_index p)) m id <->
            (m = n /\ id = i) \/ m <> n /\ in_index (pr_index p) m id).
  { intros i m u. unfold in_index, index_get.
    rewrite (mget_ins _ string_lawful) by exact SI.
    destruct (String.compare m n) eqn:C.
    - apply (law_eq _ string_lawful) in C. split; [intros [= <-]; auto|]. intros [[_ ->]|[X _]]; [reflexivity|contradiction].
    - assert (m <> n) by (intros ->; now apply (cmp_irrefl _ string_lawful) in C).
      split; [auto|]. intros [[X _]|[_ X]]; [contradiction|exact X].
    - assert (m <> n) by (intros ->; rewrite (cmp_refl _ string_lawful) in C; discriminate C).
      split; [auto|]. intros [[X _]|[_ X]]; [contradiction|exact X]. }
  assert (MONO : forall m id, in_index (pr_index p) m id -> in_index (om_insert String.compare n (sem_id_named commit_libref n t') (pr_index p)) m id).
  { intros m id X. apply IW. right. split; [|exact X]. intros ->. unfold in_index in X.
    apply (index_done _ _ _ V) in ND. congruence. }
  split; cbn.
  - now apply (mins_sorted _ string_lawful).
  - now apply (mins_sorted _ string_lawful).
  - intros m id. rewrite IW. rewrite (inv_idx _ _ V). split.
    + intros [[-> ->]|[NE (u & J & ->)]]; [exists t'|exists u]; (split; [apply NW; auto|reflexivity]).
    + intros (u & J & ->). apply NW in J as [[-> ->]|[NE J]]; [left; auto|right; eauto].
  - apply msorted_filter. apply (inv_old_sorted _ _ V).
  - intros m u. unfold map_remove, done. cbn. rewrite filter_In, (inv_old _ _ V), DN. cbn. unfold done.
    destruct (String.eqb_spec m n); cbn; intuition congruence.
  - intros m u J. apply NW in J as [[-> ->]|[NE J]].
    + exists t. split; [exact I|]. eapply ty_related_weaken; [|exact T]. intros r r' _. apply libref_weaken. auto.
    + apply (inv_from _ _ V) in J as (u0 & J & T0). exists u0. split; [exact J|].
      eapply ty_related_weaken; [|exact T0]. intros r r' _. apply libref_weaken. auto.
  - destruct (inv_rank _ _ V) as (rank & bound & B & R).
    exists (fun m => if (m =? n)%string then bound else rank m), (S bound). unfold done. cbn. split.
    + intros m D. apply DN in D. destruct (String.eqb_spec m n); [lia|]. destruct D as [D|D]; [contradiction|]. apply B in D. lia.
    + intros m k D U. apply DN in D. destruct (String.eqb_spec m n) as [->|NE].
      * destruct U as (u & r & J & K & M). assert (u = t) as -> by (eapply msorted_In_fun; eauto).
        apply ty_related_refs in T. destruct (Forall2_In_l _ _ _ _ T K) as (r' & _ & RR).
        destruct (libref_mentions _ _ _ _ RR M) as (id & X).
        assert (D' : done p k).
        { apply (inv_idx _ _ V) in X as (u & X & _). now apply (in_map fst) in X. }
        split; [apply DN; now right|]. destruct (String.eqb_spec k n) as [->|]; [contradiction|]. now apply B.
      * destruct D as [D|D]; [contradiction|]. destruct (R _ _ D U) as [D' L]. split; [apply DN; now right|].
        destruct (String.eqb_spec k n) as [->|]; [contradiction|exact L].
Qed.

Lemma filter_le {A} (f : A -> bool) l : (List.length (filter f l) <= List.length l)%nat.
Proof. induction l as [|x l IH]; cbn; [lia|]. destruct (f x); cbn; lia. Qed.
Lemma remove_length {V} n (m : list (string * V)) : In n (map fst m) -> (List.length (map_remove n m) < List.length m)%nat.
Proof.
  unfold map_remove. induction m as [|[k v] m IH]; cbn; [intros []|].
  destruct (String.eqb_spec k n) as [->|NE]; cbn.
  - intros _. assert (X := filter_le (fun e : string * V => negb (fst e =? n)%string) m). lia.
  - intros [E|I]; [contradiction|]. apply IH in I. lia.
Qed.

(** The errors: a type with deeper embedded types. *)
Definition too_deep (Y : types) (e : compile_error) : Prop :=
  exists n path inner t r, e = NestedInline n path inner /\ In (n, t) Y /\ In r (refs t) /\ ~ nested 3 r.

Definition waits (p : progress) (n : string) : Prop :=
  exists t r m, In (n, t) (pr_old p) /\ In r (refs t) /\ mentions r m /\ ~ done p m.

Lemma pass_gives Y : msorted String.compare Y -> forall names p found, inv Y p ->
  gives (fun pf => inv Y (fst pf)
           /\ (List.length (pr_old (fst pf)) <= List.length (pr_old p))%nat
           /\ (snd pf = true -> found = true \/ (List.length (pr_old (fst pf)) < List.length (pr_old p))%nat)
           /\ (snd pf = false -> found = false /\ fst pf = p /\ forall n, In n names -> In n (map fst (pr_old p)) -> waits p n))
        (too_deep Y) (compile_pass names p found).
Proof.
  intros SY. induction names as [|n names IH]; intros p found V; cbn [compile_pass].
  - cbn. split; [exact V|]. split; [lia|]. split; [auto|]. intros ->. repeat split. intros n [].
  - assert (SKIP : (In n (map fst (pr_old p)) -> waits p n) -> gives (fun pf => inv Y (fst pf)
           /\ (List.length (pr_old (fst pf)) <= List.length (pr_old p))%nat
           /\ (snd pf = true -> found = true \/ (List.length (pr_old (fst pf)) < List.length (pr_old p))%nat)
           /\ (snd pf = false -> found = false /\ fst pf = p /\ forall n', In n' (n :: names) -> In n' (map fst (pr_old p)) -> waits p n'))
        (too_deep Y) (compile_pass names p found)).
    { intros W. pose proof (IH p found V) as G. destruct (compile_pass names p found) as [[p' f']|e| |]; cbn in *; try contradiction; [|exact G].
      destruct G as (A & B & C & D). split; [exact A|]. split; [exact B|]. split; [exact C|].
      intros H. destruct (D H) as (-> & -> & D'). repeat split. intros n' [<-|J] K; auto. }
    destruct (om_get String.compare n (pr_old p)) as [t|] eqn:G.
    2: { apply SKIP. intros K. apply (mget_none _ string_lawful) in G. contradiction. }
    apply (mget_In _ string_lawful) in G; [|apply (inv_old_sorted _ _ V)].
    destruct (compile_type_steady n (pr_index p) t) as (o & -> & H). cbn [fst].
    destruct o as [t'|[|top path inner|lib]| |]; cbn in H; try contradiction.
    + pose proof (inv_step Y p n t t' SY V G H) as V'.
      specialize (IH _ true V'). pose proof (remove_length n (pr_old p) (in_map fst _ _ G)) as LR.
      set (p1 := mkProgress _ _ _) in *. change (pr_old p1) with (map_remove n (pr_old p)) in IH.
      destruct (compile_pass names p1 true) as [[p' f']|e| |]; cbn in *; try contradiction; [|exact IH].
      destruct IH as (A & B & C & D). split; [exact A|]. split; [lia|]. split; [intros _; right; lia|].
      intros F. destruct (D F) as [X _]. discriminate X.
    + apply SKIP. intros _. destruct H as (r & J & m & M & X). exists t, r, m. repeat split; auto.
      now apply (index_done _ _ _ V).
    + cbn. destruct H as (r & J & -> & X). apply (inv_old _ _ V) in G as [G _]. exists n, path, inner, t, r. auto.
    + destruct H as (r & _ & []).
Qed.

Definition finished (Y : types) (new : list (string * ty lib_ref)) : Prop :=
  exists p, inv Y p /\ pr_old p = [] /\ new = pr_new p.

(** Any result but an endless loop. *)
Lemma loop_result Y (dbg : bool) names : msorted String.compare Y -> forall fuel p, inv Y p ->
  match compile_loop fuel dbg names p with
  | Ok new => finished Y new
  | Err e => too_deep Y e
  | Panic => dbg = true
  | Diverge => True
  end.
Proof.
  intros SY. induction fuel as [|fuel IH]; intros p V; cbn [compile_loop].
  - destruct (pr_old p) eqn:O; [|exact I]. exists p. auto.
  - destruct (pr_old p) eqn:O; [exists p; auto|].
    pose proof (pass_gives Y SY names p false V) as G.
    destruct (compile_pass names p false) as [[p' f']|e| |]; cbn in *; try contradiction; [|exact G].
    destruct G as (V' & _). destruct dbg; cbn; [|now apply IH]. destruct f'; cbn; [now apply IH|reflexivity].
Qed.

Lemma min_rank {V} (rank : string -> nat) (m : list (string * V)) : m <> [] ->
  exists n, In n (map fst m) /\ forall n', In n' (map fst m) -> (rank n <= rank n')%nat.
Proof.
  induction m as [|[k v] m IH]; [congruence|]. intros _. destruct m as [|e m].
  - exists k. cbn. split; [auto|]. intros n' [<-|[]]. lia.
  - destruct IH as (n & I & L); [discriminate|]. destruct (Compare_dec.le_gt_dec (rank n) (rank k)) as [H|H].
    + exists n. split; [now right|]. intros n' [<-|J]; [exact H|auto].
    + exists k. split; [now left|]. intros n' [<-|J]; [cbn; lia|]. apply L in J. lia.
Qed.

(** With acyclic and resolvable names each pass succeeds with some type. *)
Lemma pass_found Y names p rank : msorted String.compare Y -> inv Y p ->
  (forall n m, uses_in Y n m -> (rank m < rank n)%nat) -> (forall n m, uses_in Y n m -> In m (map fst Y)) ->
  pr_old p <> [] -> (forall n, In n (map fst Y) -> In n names) ->
  gives (fun pf => inv Y (fst pf) /\ snd pf = true /\ (List.length (pr_old (fst pf)) < List.length (pr_old p))%nat)
    (too_deep Y) (compile_pass names p false).
Proof.
  intros SY V R S NE NM. pose proof (pass_gives Y SY names p false V) as G.
  destruct (compile_pass names p false) as [[p' f']|e| |]; cbn in *; try contradiction; [|exact G].
  destruct G as (V' & _ & T & F). split; [exact V'|]. destruct f'; [split; [reflexivity|]; now destruct T|].
  destruct (F eq_refl) as (_ & -> & W). exfalso.
  destruct (min_rank rank (pr_old p) NE) as (n & I & L).
  assert (IY : In n (map fst Y)).
  { apply in_map_iff in I as ([n' t] & <- & I). apply (inv_old _ _ V) in I as [I _]. now apply (in_map fst) in I. }
  destruct (W n (NM _ IY) I) as (t & r & m & J & K & M & ND). apply (inv_old _ _ V) in J as [J _].
  assert (U : uses_in Y n m) by (exists t, r; auto).
  pose proof (S _ _ U) as IM. apply in_map_iff in IM as ([m' u] & E & IM). cbn in E. subst m'.
  assert (IO : In (m, u) (pr_old p)) by (apply (inv_old _ _ V); auto).
  apply (in_map fst) in IO. apply L in IO. apply R in U. cbn in IO. lia.
Qed.

Lemma loop_returns Y (dbg : bool) names rank : msorted String.compare Y ->
  (forall n m, uses_in Y n m -> (rank m < rank n)%nat) -> (forall n m, uses_in Y n m -> In m (map fst Y)) ->
  (forall n, In n (map fst Y) -> In n names) ->
  forall k p, inv Y p -> (List.length (pr_old p) <= k)%nat ->
  exists o, (forall fuel, (k <= fuel)%nat -> compile_loop fuel dbg names p = o) /\ gives (finished Y) (too_deep Y) o.
Proof.
  intros SY R S NM. induction k as [|k IH]; intros p V L.
  - destruct (pr_old p) eqn:O; [|cbn in L; lia]. exists (Ok (pr_new p)). split; [|exists p; auto].
    intros fuel _. destruct fuel; cbn; now rewrite O.
  - destruct (pr_old p) as [|e old] eqn:O.
    + exists (Ok (pr_new p)). split; [|exists p; auto]. intros fuel _. destruct fuel; cbn; now rewrite O.
    + pose proof (pass_found Y names p rank SY V R S ltac:(congruence) NM) as G.
      destruct (compile_pass names p false) as [[p' f']|x| |] eqn:P; cbn in G; try contradiction.
      * destruct G as (V' & -> & LT). rewrite O in LT. cbn in LT, L.
        destruct (IH p' V' ltac:(lia)) as (o & F & Q). exists o. split; [|exact Q].
        intros [|fuel] LF; [lia|]. cbn [compile_loop]. rewrite O, P. cbn [bind]. rewrite andb_false_r. apply F. lia.
      * exists (Err x). split; [|exact G]. intros [|fuel] LF; [lia|]. cbn [compile_loop]. rewrite O, P. reflexivity.
Qed.

(** ** The whole library *)

Lemma keys_Forall2 {A B} (P : string * A -> string * B -> Prop) l l' : map fst l = map fst l' -> NoDup (map fst l) ->
  (forall n a b, In (n, a) l -> In (n, b) l' -> P (n, a) (n, b)) -> Forall2 P l l'.
Proof.
  revert l'. induction l as [|[n a] l IH]; intros [|[n' b] l'] E ND H; cbn in E; try discriminate; [constructor|].
  injection E as <- E. cbn in ND. inversion ND; subst. constructor; [apply H; now left|].
  apply IH; auto. intros. apply H; now right.
Qed.

Lemma finished_types Y new : msorted String.compare Y -> finished Y new ->
  msorted String.compare new /\
  Forall2 (fun a b => fst a = fst b /\
    ty_related (libref_compiled (fun n id => exists t, In (n, t) new /\ id = sem_id_named commit_libref n t)) (snd a) (snd b)) Y new.
Proof.
  intros SY (p & V & O & ->). split; [apply (inv_new _ _ V)|].
  assert (KE : map fst Y = map fst (pr_new p)).
  { apply (keys_eq _ string_lawful); [now apply msorted_keys|apply msorted_keys, (inv_new _ _ V)|].
    intros n. split; intros I.
    - apply in_map_iff in I as ([n' t] & <- & I). cbn. destruct (in_dec string_dec n' (map fst (pr_new p))) as [D|ND]; [exact D|].
      assert (X : In (n', t) (pr_old p)) by (apply (inv_old _ _ V); auto). rewrite O in X. destruct X.
    - apply in_map_iff in I as ([n' t] & <- & I). apply (inv_from _ _ V) in I as (u & I & _). now apply (in_map fst) in I. }
  apply keys_Forall2; [exact KE|now apply (msorted_NoDup _ string_lawful)|].
  intros n t t' I J. split; [reflexivity|]. cbn. apply (inv_from _ _ V) in J as (u & J & T).
  assert (u = t) as -> by (eapply msorted_In_fun; eauto).
  eapply ty_related_weaken; [|exact T]. intros r r' _. apply libref_weaken. intros m id _ X. now apply (inv_idx _ _ V).
Qed.

(** ** Dependencies *)

Lemma find_first {A} (p : A -> bool) (P : A -> Prop) (l : list A) x : (forall a, p a = true <-> P a) ->
  (find p l = Some x <-> first P l x).
Proof.
  intros E. split.
  - induction l as [|y l IH]; cbn; [discriminate|]. destruct (p y) eqn:Q.
    + intros [= ->]. exists [], l. repeat split; [now apply E|constructor].
    + intros F. destruct (IH F) as (a & b & -> & H & N). exists (y :: a), b. repeat split; auto. constructor; [|exact N].
      rewrite <- E. congruence.
  - intros (a & b & -> & H & N). induction N as [|y a NY N IH]; cbn.
    + apply E in H. now rewrite H.
    + destruct (p y) eqn:Q; [apply E in Q; contradiction|exact IH].
Qed.

Lemma set_insert_dep d s x : dsorted s -> (forall y, In y s -> d_id y = d_id d -> y = d) ->
  (In x (set_insert dep_cmp d s) <-> x = d \/ In x s).
Proof.
  unfold dsorted. induction 1 as [|y s S IH F]; intros U; cbn; [intuition congruence|].
  unfold dep_cmp at 1. destruct (N.compare_spec (d_id d) (d_id y)) as [E|E|E]; cbn.
  - assert (y = d) by (apply U; [now left|congruence]). subst y. intuition congruence.
  - intuition congruence.
  - rewrite IH; [intuition congruence|]. intros z I. apply U. now right.
Qed.

Lemma deps_unique deps x y : dsorted deps -> In x deps -> In y deps -> d_id x = d_id y -> x = y.
Proof.
  unfold dsorted. intros S. induction S as [|d s S IH F]; intros I J E; [destruct I|]. rewrite Forall_forall in F.
  destruct I as [->|I], J as [->|J]; auto.
  - apply F in J. lia.
  - apply F in I. lia.
Qed.

Lemma eqb_name lib (d : dependency) : (d_name d =? lib)%string = true <-> d_name d = lib.
Proof. apply String.eqb_eq. Qed.

Lemma used_deps_ok deps : dsorted deps -> forall libs used, dsorted used -> incl used deps ->
  match used_deps libs deps used with
  | Ok r => dsorted r /\ incl r deps /\ forall d, In d r <-> In d used \/ dep_used libs deps d
  | Err e => exists lib, e = UnknownLib lib /\ In lib libs /\ lib <> "_"%string /\ forall d, In d deps -> d_name d <> lib
  | _ => False
  end.
Proof.
  intros SD. induction libs as [|lib libs IH]; intros used SU IU; cbn [used_deps].
  - split; [exact SU|]. split; [exact IU|]. intros d. split; [auto|]. intros [I|(lib & [] & _)]. exact I.
  - assert (ADD : forall d, dep_used (lib :: libs) deps d <->
       (lib <> "_"%string /\ first (fun d => d_name d = lib) deps d) \/ dep_used libs deps d).
    { intros d. unfold dep_used. split.
      - intros (l & [->|I] & N & F); [left; auto|right; eauto].
      - intros [[N F]|(l & I & N & F)]; [exists lib; cbn; auto|exists l; cbn; auto]. }
    unfold LIB_EMBEDDED. destruct (String.eqb_spec lib "_") as [->|NE].
    + specialize (IH used SU IU). destruct (used_deps libs deps used) as [r|e| |]; auto.
      * destruct IH as (A & B & C). split; [exact A|]. split; [exact B|]. intros d. rewrite ADD. split; intros X; [apply C in X; tauto|].
        apply C. destruct X as [X|[[N _]|X]]; [auto|congruence|auto].
      * destruct IH as (l & -> & I & N & H). exists l. cbn. auto.
    + destruct (find (fun d => (d_name d =? lib)%string) deps) as [d|] eqn:F.
      * apply (find_first _ (fun d => d_name d = lib)) in F; [|apply eqb_name].
        assert (ID : In d deps) by (destruct F as (a & b & -> & _); apply in_or_app; cbn; auto).
        assert (MEM : forall x, In x (set_insert dep_cmp d used) <-> x = d \/ In x used).
        { intros x. apply set_insert_dep; [exact SU|]. intros y I. apply deps_unique with (deps := deps); auto. }
        assert (SU' : dsorted (set_insert dep_cmp d used)) by now apply set_insert_sorted.
        specialize (IH (set_insert dep_cmp d used) SU').
        destruct (used_deps libs deps (set_insert dep_cmp d used)) as [r|e| |];
          [|destruct IH as (l & -> & I & N & H); [intros x I; apply MEM in I as [->|I]; auto|exists l; cbn; auto]
           |apply IH; intros x I; apply MEM in I as [->|I]; auto|apply IH; intros x I; apply MEM in I as [->|I]; auto].
        destruct IH as (A & B & C); [intros x I; apply MEM in I as [->|I]; auto|].
        split; [exact A|]. split; [exact B|]. intros x. rewrite ADD. split; intros X.
        -- apply C in X. rewrite MEM in X. destruct X as [[->|X]|X]; auto.
        -- apply C. rewrite MEM. destruct X as [X|[[N X]|X]]; auto. left. left.
           rewrite <- (find_first (fun d => (d_name d =? lib)%string)) in X, F by apply eqb_name. congruence.
      * assert (NONE : forall d, In d deps -> d_name d <> lib).
        { intros d I E. apply (find_none _ _ F) in I. cbn in I. rewrite E, String.eqb_refl in I. discriminate I. }
        destruct (existsb (fun d => (d_name d =? lib)%string) used) eqn:X.
        { apply existsb_exists in X as (d & I & E). apply String.eqb_eq in E. apply IU in I. now apply NONE in I. }
        exists lib. cbn. auto.
Qed.

Lemma dsorted_eq (l l' : list dependency) : dsorted l -> dsorted l' -> (forall d, In d l <-> In d l') -> l = l'.
Proof.
  unfold dsorted. intros S. revert l'. induction S as [|x l S IH F]; intros l' S' E.
  - destruct l' as [|y l']; [reflexivity|]. exfalso. apply (E y). now left.
  - destruct S' as [|y l' S' F']; [exfalso; apply (E x); now left|]. rewrite Forall_forall in F, F'.
    assert (x = y).
    { destruct (proj1 (E x) (or_introl eq_refl)) as [->|I]; [reflexivity|].
      destruct (proj2 (E y) (or_introl eq_refl)) as [->|I']; [reflexivity|].
      apply F' in I. apply F in I'. lia. }
    subst y. f_equal. apply IH; [exact S'|]. intros z. specialize (E z). cbn in E. split; intros I.
    + destruct (proj1 E (or_intror I)) as [->|I']; [|exact I']. apply F in I. lia.
    + destruct (proj2 E (or_intror I)) as [->|I']; [|exact I']. apply F' in I. lia.
Qed.
