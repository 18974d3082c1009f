(** Proofs about the derivation of libraries from Rust types: the compiled library. *)
From Coq Require Import NArith Arith List Bool String Sorted Permutation Lia.
From Verif Require Import Base Sha256 Ty Ids TypeSys Spec SpecIds TyProofs IdProofs LibCodec SpecLib LibCodecProofs Build SpecBuild BuildProofs
  MapLemmas Compile SpecCompile CompileProofs CompileProofs2 CompileProofs3 Transpile SpecTranspile TranspileProofs TranspileProofs2.
Import ListNotations.
Local Open Scope N_scope.
Local Opaque tagged_hash.

(** ** Heights *)

Fixpoint height (s : stype) : nat := match s with SType _ body => S (list_max (refs (map_ty height body))) end.
Lemma height_ref n body r : In r (refs body) -> (height r < height (SType n body))%nat.
Proof.
  intros I. cbn [height]. rewrite refs_map. assert (L : (list_max (map height (refs body)) <= list_max (map height (refs body)))%nat) by lia.
  apply list_max_le in L. rewrite Forall_forall in L. specialize (L _ (in_map height _ _ I)). lia.
Qed.
Lemma height_part p s : part p s -> (height p <= height s)%nat.
Proof. induction 1 as [|p r n body I P IH]; [lia|]. apply (height_ref n) in I. lia. Qed.

Lemma sem_id_unnamed_inner {R} (cr : R -> bytes) t : sem_id_unnamed cr t = sem_id_inner cr None t.
Proof. unfold sem_id_unnamed. destruct (as_wrapped_ty (fun _ => None) t) as [i|] eqn:E; [|reflexivity]. exfalso. revert E. unfold as_wrapped_ty. destruct t as [| | | |[|? [|? ?]]| | | | |]; discriminate. Qed.

(** ** Related types *)

Lemma related_map {A B C} (f : A -> B) (rel : B -> C -> Prop) t t' : ty_related rel (map_ty f t) t' -> ty_related (fun a c => rel (f a) c) t t'.
Proof.
  assert (F : forall l l', Forall2 rel (map f l) l' -> Forall2 (fun a c => rel (f a) c) l l').
  { induction l; intros l' H; inversion H; subst; constructor; auto. }
  assert (G : forall (K : Type) (l : list (K * A)) (l' : list (K * C)),
     Forall2 (fun a b => fst a = fst b /\ rel (snd a) (snd b)) (map (fun e => (fst e, f (snd e))) l) l' ->
     Forall2 (fun a b => fst a = fst b /\ rel (f (snd a)) (snd b)) l l').
  { induction l; intros l' H; inversion H; subst; constructor; auto. }
  destruct t, t'; cbn; auto.
Qed.
Lemma related_commit {A B} (ca : A -> bytes) (cb : B -> bytes) (t : ty A) (t' : ty B) :
  ty_related (fun a b => ca a = cb b) t t' -> commit_ty ca t = commit_ty cb t'.
Proof.
  unfold commit_ty. destruct t, t'; cbn; try contradiction; intros H.
  - now subst.
  - reflexivity.
  - now subst.
  - f_equal. induction H as [|a b l l' [E F] H IH]; cbn; [reflexivity|]. now rewrite E, F, IH.
  - f_equal. induction H as [|a b l l' E H IH]; cbn; [reflexivity|]. now rewrite E, IH.
  - f_equal. induction H as [|a b l l' [E F] H IH]; cbn; [reflexivity|]. now rewrite E, F, IH.
  - destruct H as [-> ->]. reflexivity.
  - destruct H as [-> ->]. reflexivity.
  - destruct H as [-> ->]. reflexivity.
  - destruct H as (-> & -> & ->). reflexivity.
Qed.
Lemma related_ids {A B} (ia : A -> semid) (ib : B -> semid) (t : ty A) (t' : ty B) :
  ty_related (fun a b => ia a = ib b) t t' -> map_ty ia t = map_ty ib t'.
Proof.
  destruct t, t'; cbn; try contradiction; intros H.
  - now subst.
  - reflexivity.
  - now subst.
  - f_equal. induction H as [|a b l l' [E F] H IH]; cbn; [reflexivity|]. now rewrite E, F, IH.
  - f_equal. induction H as [|a b l l' E H IH]; cbn; [reflexivity|]. now rewrite E, IH.
  - f_equal. induction H as [|a b l l' [E F] H IH]; cbn; [reflexivity|]. now rewrite E, F, IH.
  - destruct H as [-> ->]. reflexivity.
  - destruct H as [-> ->]. reflexivity.
  - destruct H as [-> ->]. reflexivity.
  - destruct H as (-> & -> & ->). reflexivity.
Qed.

Lemma inside_cases own p n body : inside own p (SType n body) ->
  p = SType n body \/ exists r, In r (refs body) /\ inside own p r /\ (forall lib m, n = Some (lib, m) -> lib = own).
Proof. intros H. inversion H; subst; eauto. Qed.

Section Library.
Variable own : string.
Variable known : list (dependency * option (list semid)).
Variable U : stype -> Prop.
Hypothesis U_closed : forall s p, U s -> part p s -> U p.
Hypothesis U_coherent : coherent U.
Notation inv := (inv own known U).
Notation ref := (st_ref own known).
Notation def := (st_def own known).

Lemma ref_mentions r m : mentions (ref r) m -> exists p, part p r /\ st_name p = Some (own, m).
Proof.
  induction r as [n body IH] using stype_induction. destruct n as [[lib n]|]; cbn [st_ref].
  - destruct (lib =? own)%string eqn:E; intros M; [|inversion M]. apply String.eqb_eq in E. subst lib. inversion M; subst.
    eexists. split; [constructor|reflexivity].
  - intros M. inversion M as [|t r m' I M']; subst. rewrite refs_map in I. apply in_map_iff in I as (r' & <- & I).
    rewrite Forall_forall in IH. destruct (IH r' I M') as (p & P & N). exists p. split; [|exact N]. econstructor; eauto.
Qed.
Lemma ref_nested r k : nested k (ref r) <-> levels k r.
Proof.
  revert k. induction r as [n body IH] using stype_induction. intros k. destruct n as [[lib n]|]; cbn [st_ref].
  - destruct k; cbn; destruct (lib =? own)%string; cbn; tauto.
  - destruct k as [|k]; cbn [nested levels]; [tauto|]. rewrite refs_map, Forall_map. rewrite !Forall_forall. rewrite Forall_forall in IH.
    split; intros H r I; apply (IH r I); auto.
Qed.

(** ** Conditions for compilation *)

Variable b : lib_builder.
Hypothesis V : inv b.
Variable deps : list dependency.
Let y : sym_lib := mkSymLib own deps (lb_extern b) (lb_types b).

Lemma entry_sound n t : In (n, t) (lb_types b) -> exists s, U s /\ st_name s = Some (own, n) /\ t = def s /\ done own known b s.
Proof. intros I. apply (inv_sound _ _ _ b V). apply (mget_In _ string_lawful); [apply V|exact I]. Qed.
Lemma uses_sound n m : uses y n m -> exists s p, U s /\ U p /\ st_name s = Some (own, n) /\ st_name p = Some (own, m)
  /\ (height p < height s)%nat /\ In n (map fst (lb_types b)) /\ In m (map fst (lb_types b)).
Proof.
  intros (t & r & I & J & M). cbn in I. pose proof I as I0. apply entry_sound in I as (s & Us & N & -> & D).
  unfold st_def in J. rewrite refs_map in J. apply in_map_iff in J as (r' & <- & J).
  destruct (ref_mentions _ _ M) as (p & P & NP). exists s, p. destruct s as [nm body]. cbn [st_body] in J.
  assert (PS : part p (SType nm body)) by (econstructor; eauto).
  split; [exact Us|]. split; [eapply U_closed; eauto|]. split; [exact N|]. split; [exact NP|]. split; [|split].
  - apply height_part in P. apply (height_ref nm) in J. lia.
  - now apply (in_map fst) in I0.
  - apply D in PS. unfold present in PS. rewrite NP, String.eqb_refl in PS. apply (mget_In _ string_lawful) in PS; [|apply V].
    now apply (in_map fst) in PS.
Qed.
Lemma rank_exists (l : list (string * ty tref)) : (forall n, In n (map fst l) -> exists s, U s /\ st_name s = Some (own, n)) ->
  exists rank : string -> nat, forall n s, In n (map fst l) -> U s -> st_name s = Some (own, n) -> rank n = height s.
Proof.
  induction l as [|[n t] l IH]; intros H.
  - exists (fun _ => O). intros n s [].
  - destruct IH as [rank R]; [intros m I; apply H; now right|]. destruct (H n (or_introl eq_refl)) as (s & Us & N).
    exists (fun m => if (m =? n)%string then height s else rank m). intros m s' I Us' N'.
    destruct (String.eqb_spec m n) as [->|NE].
    + now rewrite (U_coherent s s' _ Us Us' N N').
    + apply R; auto. destruct I as [E|I]; [|exact I]. cbn in E. congruence.
Qed.
Lemma derived_acyclic : lib_acyclic y.
Proof.
  destruct (rank_exists (lb_types b)) as [rank R].
  - intros n I. apply in_map_iff in I as ([n' t] & <- & I). apply entry_sound in I as (s & Us & N & _). eauto.
  - exists rank. intros n m H. destruct (uses_sound _ _ H) as (s & p & Us & Up & N & NP & L & I & J).
    rewrite (R n s), (R m p); auto.
Qed.
Lemma derived_resolvable : lib_resolvable y.
Proof. intros n m H. destruct (uses_sound _ _ H) as (s & p & _ & _ & _ & _ & _ & _ & J). exact J. Qed.
Lemma derived_nested : (forall s n, U s -> st_name s = Some (own, n) -> Forall (levels 3) (refs (st_body s))) -> lib_nested y.
Proof.
  intros H. apply Forall_forall. intros [n t] I. apply entry_sound in I as (s & Us & N & -> & _). cbn [snd]. unfold st_def.
  rewrite refs_map, Forall_map. specialize (H s n Us N). eapply Forall_impl; [|exact H]. intros r. apply ref_nested.
Qed.

(** ** Ids *)

Variable l : type_lib.
Hypothesis C : lib_compiled y l.

Definition faithful (s : stype) : Prop :=
  (forall r, libref_compiled (named_in l) (ref s) r -> commit_libref r = st_commit s /\ libref_id r = st_id s)
  /\ (forall r, ref0_compiled (named_in l) (ref s) r -> commit_ref0 r = st_commit s /\ ref0_id r = st_id s)
  /\ (forall r, ref1_compiled (named_in l) (ref s) r -> commit_ref1 r = st_commit s /\ ref1_id r = st_id s)
  /\ (forall r, ref2_compiled (named_in l) (ref s) r -> commit_ref2 r = st_commit s /\ ref2_id r = st_id s).

Lemma level_commit {B} (rel : tref -> B -> Prop) (cb : B -> bytes) body (t' : ty B) : ty_related rel (map_ty ref body) t' ->
  (forall r r', In r (refs body) -> rel (ref r) r' -> cb r' = st_commit r) -> commit_ty cb t' = commit_ty st_commit body.
Proof.
  intros T H. symmetry. apply related_commit. apply related_map in T. eapply ty_related_weaken; [|exact T].
  cbn. intros r r' I R. symmetry. now apply H.
Qed.
Lemma type_unique n t1 t2 : In (n, t1) (l_types l) -> In (n, t2) (l_types l) -> t1 = t2.
Proof.
  intros I J. assert (ND : NoDup (map fst (l_types l))).
  { rewrite (compiled_keys _ _ C). apply (msorted_NoDup _ string_lawful). apply V. }
  revert ND I J. clear. induction (l_types l) as [|[k v] m IH]; cbn; [intros _ []|]. intros ND. inversion ND as [|? ? N ND']; subst.
  assert (X : forall u, In (n, u) m -> In n (map fst m)) by (intros u I; now apply (in_map fst) in I).
  intros [[= -> ->]|I] [E|J].
  - injection E as ->. reflexivity.
  - apply X in J. contradiction.
  - injection E as -> ->. apply X in I. contradiction.
  - now apply IH.
Qed.
Lemma entry_type n t' : In (n, t') (l_types l) -> exists s, U s /\ st_name s = Some (own, n)
  /\ ty_related (libref_compiled (named_in l)) (def s) t'.
Proof.
  intros I. assert (K : In n (map fst (y_types y))) by (rewrite <- (compiled_keys _ _ C); now apply (in_map fst) in I).
  apply in_map_iff in K as ([n' t] & <- & K). cbn [fst] in *. destruct (compiled_type _ _ _ _ C K) as (t2 & J & T).
  rewrite (type_unique _ _ _ I J). apply entry_sound in K as (s & Us & N & -> & _). eauto.
Qed.

Lemma sem_named lib n body (t' : ty lib_ref) : ty_related (libref_compiled (named_in l)) (map_ty ref body) t' ->
  Forall faithful (refs body) -> sem_id_named commit_libref n t' = st_id (SType (Some (lib, n)) body).
Proof.
  intros T F. unfold sem_id_named, sem_id_inner, sem_message. cbn [st_id]. f_equal. f_equal.
  apply (level_commit _ _ _ _ T). intros r r' I R. rewrite Forall_forall in F. now apply (F r I).
Qed.
Lemma sem_unnamed {B} (rel : tref -> B -> Prop) (cb : B -> bytes) body (t' : ty B) : ty_related rel (map_ty ref body) t' ->
  (forall r r', In r (refs body) -> rel (ref r) r' -> cb r' = st_commit r) -> sem_id_unnamed cb t' = st_id (SType None body).
Proof.
  intros T H. rewrite sem_id_unnamed_inner. unfold sem_id_inner, sem_message. cbn [st_id]. f_equal. cbn [app].
  now apply (level_commit _ _ _ _ T).
Qed.

Lemma all_faithful s : U s -> faithful s.
Proof.
  induction s as [nm body IH] using stype_induction. intros Us.
  assert (F : Forall faithful (refs body)).
  { rewrite Forall_forall in *. intros r I. apply IH; [exact I|]. eapply U_closed; [exact Us|]. econstructor; [exact I|constructor]. }
  clear IH. pose proof F as F0. rewrite Forall_forall in F0.
  destruct nm as [[lib n]|].
  - assert (ID : forall id, named_in l n id -> lib = own -> id = st_id (SType (Some (lib, n)) body)).
    { intros id (t' & I & ->) ->. destruct (entry_type n t' I) as (s & Us' & N & T).
      rewrite (U_coherent s _ _ Us' Us N eq_refl) in T. unfold st_def in T. cbn [st_body] in T. now apply (sem_named own n body t'). }
    remember (st_id (SType (Some (lib, n)) body)) as sid eqn:SID.
    assert (CM : st_commit (SType (Some (lib, n)) body) = commit_id sid) by (rewrite SID; reflexivity).
    unfold faithful. cbn [st_ref]. rewrite <- SID, CM. destruct (lib =? own)%string eqn:LE.
    + apply String.eqb_eq in LE. assert (ID' : forall id, named_in l n id -> id = sid) by (intros id X; now apply ID). clear ID.
      repeat split; destruct r as [t|id|e]; cbn in *; try contradiction; apply ID' in H; subst id; reflexivity.
    + repeat split; destruct r as [t|id|e]; cbn in *; try contradiction; destruct H as [_ ->]; reflexivity.
  - assert (L2 : forall r, ref2_compiled (named_in l) (ref (SType None body)) r -> False) by (intros [[]|id|e] H; exact H).
    assert (L1 : forall r, ref1_compiled (named_in l) (ref (SType None body)) r ->
      commit_ref1 r = st_commit (SType None body) /\ ref1_id r = st_id (SType None body)).
    { intros [t|id|e] H; try destruct H. cbn [st_ref] in H. cbn in H.
      assert (X : forall r r', In r (refs body) -> ref2_compiled (named_in l) (ref r) r' -> commit_ref2 r' = st_commit r) by (intros r r' I; apply (F0 r I)).
      split; [exact (level_commit _ _ _ _ H X)|exact (sem_unnamed _ _ _ _ H X)]. }
    assert (L0 : forall r, ref0_compiled (named_in l) (ref (SType None body)) r ->
      commit_ref0 r = st_commit (SType None body) /\ ref0_id r = st_id (SType None body)).
    { intros [t|id|e] H; try destruct H. cbn [st_ref] in H. cbn in H.
      assert (X : forall r r', In r (refs body) -> ref1_compiled (named_in l) (ref r) r' -> commit_ref1 r' = st_commit r) by (intros r r' I; apply (F0 r I)).
      split; [exact (level_commit _ _ _ _ H X)|exact (sem_unnamed _ _ _ _ H X)]. }
    assert (L : forall r, libref_compiled (named_in l) (ref (SType None body)) r ->
      commit_libref r = st_commit (SType None body) /\ libref_id r = st_id (SType None body)).
    { intros [t|id|e] H; try destruct H. cbn [st_ref] in H. cbn in H.
      assert (X : forall r r', In r (refs body) -> ref0_compiled (named_in l) (ref r) r' -> commit_ref0 r' = st_commit r) by (intros r r' I; apply (F0 r I)).
      split; [exact (level_commit _ _ _ _ H X)|exact (sem_unnamed _ _ _ _ H X)]. }
    split; [exact L|]. split; [exact L0|]. split; [exact L1|]. intros r H. destruct (L2 r H).
Qed.

(** A type of the library. *)
Lemma library_type s n : U s -> st_name s = Some (own, n) -> present own known b s ->
  exists t', In (n, t') (l_types l) /\ lib_type_id (n, t') = st_id s /\ map_ty libref_id t' = map_ty st_id (st_body s)
    /\ ty_related (libref_compiled (named_in l)) (def s) t'.
Proof.
  intros Us N P. unfold present in P. rewrite N, String.eqb_refl in P. apply (mget_In _ string_lawful) in P; [|apply V].
  destruct (compiled_type _ _ _ _ C P) as (t' & I & T). exists t'. split; [exact I|].
  destruct s as [nm body]. cbn [st_name] in N. subst nm. unfold st_def in *. cbn [st_body] in *.
  assert (F : Forall faithful (refs body)).
  { apply Forall_forall. intros r J. apply all_faithful. eapply U_closed; [exact Us|]. econstructor; [exact J|constructor]. }
  split; [|split; [|exact T]].
  - exact (sem_named own n body t' T F).
  - symmetry. apply related_ids. apply related_map in T. eapply ty_related_weaken; [|exact T]. cbn. intros r r' J R.
    rewrite Forall_forall in F. symmetry. now apply (F r J).
Qed.

(** ** Definitions *)

(** Some library has this definition. *)
Definition defined (ds : list definition) (s : stype) : Prop :=
  exists d, In d ds /\ def_id d = st_id s /\ def_ty d = map_ty st_id (st_body s).

Lemma level_ids {B} (rel : tref -> B -> Prop) (ib : B -> semid) body (t' : ty B) : ty_related rel (map_ty ref body) t' ->
  (forall r r', In r (refs body) -> rel (ref r) r' -> ib r' = st_id r) -> map_ty ib t' = map_ty st_id body.
Proof.
  intros T H. symmetry. apply related_ids. apply related_map in T. eapply ty_related_weaken; [|exact T].
  cbn. intros r r' I R. symmetry. now apply H.
Qed.
Lemma level_In {B} (rel : tref -> B -> Prop) body (t' : ty B) r : ty_related rel (map_ty ref body) t' -> In r (refs body) ->
  exists r', In r' (refs t') /\ rel (ref r) r'.
Proof. intros T I. apply related_map, ty_related_refs in T. apply (Forall2_In_l _ _ _ _ T I). Qed.

(** The type is not from another library. *)
Definition local (p : stype) : Prop := forall lib n, st_name p = Some (lib, n) -> lib = own.
Definition defines (s : stype) : Prop :=
  (forall n, st_name s = Some (own, n) -> forall p, inside own p s -> local p -> defined (lib_defs l) p)
  /\ (st_name s = None ->
      (forall r, libref_compiled (named_in l) (ref s) r -> incl (libref_defs r) (lib_defs l) ->
         forall p, inside own p s -> local p -> defined (lib_defs l) p)
      /\ (forall r, ref0_compiled (named_in l) (ref s) r -> incl (ref0_defs r) (lib_defs l) ->
         forall p, inside own p s -> local p -> defined (lib_defs l) p)
      /\ (forall r, ref1_compiled (named_in l) (ref s) r -> incl (ref1_defs r) (lib_defs l) ->
         forall p, inside own p s -> local p -> defined (lib_defs l) p)).

Lemma defines_level {B} (rel : tref -> B -> Prop) (defs : B -> list definition) body (t' : ty B) p r :
  ty_related rel (map_ty ref body) t' -> Forall defines (refs body) ->
  (forall r r', st_name r = None -> defines r -> rel (ref r) r' -> incl (defs r') (lib_defs l) ->
     forall p, inside own p r -> local p -> defined (lib_defs l) p) ->
  incl (flat_map defs (refs t')) (lib_defs l) -> In r (refs body) -> inside own p r -> local p -> defined (lib_defs l) p.
Proof.
  intros T F H I J S L. rewrite Forall_forall in F. pose proof (F r J) as D. destruct (st_name r) as [[lib n]|] eqn:N.
  - destruct (string_dec lib own) as [->|NE].
    + destruct D as [D _]. exact (D n N p S L).
    + inversion S as [s|q r' nm body' K Q O]; subst.
      * apply L in N. congruence.
      * cbn in N. subst nm. specialize (O lib n eq_refl). congruence.
  - destruct (level_In rel body t' r T J) as (r' & K & R). apply (H r r' N D R); auto.
    intros d Id. apply I. apply in_flat_map. eauto.
Qed.

Lemma all_define s : U s -> done own known b s -> defines s.
Proof.
  induction s as [nm body IH] using stype_induction. intros Us D.
  assert (F : Forall defines (refs body)).
  { rewrite Forall_forall in *. intros r I. apply IH; [exact I| |].
    - eapply U_closed; [exact Us|]. econstructor; [exact I|constructor].
    - intros p P. apply D. econstructor; eauto. }
  clear IH. pose proof (all_faithful _ Us) as FA.
  assert (FR : forall r, In r (refs body) -> faithful r).
  { intros r I. apply all_faithful. eapply U_closed; [exact Us|]. econstructor; [exact I|constructor]. }
  split.
  - intros n N p S L. cbn in N. subst nm.
    destruct (library_type _ n Us eq_refl (D _ (part_self _))) as (t' & I & ID & TY & T). unfold st_def in T. cbn [st_body] in T, TY.
    assert (INC : incl (type_defs (l_name l) (n, t')) (lib_defs l)).
    { intros d Id. unfold lib_defs. apply in_flat_map. exists (n, t'). auto. }
    apply inside_cases in S as [->|(r & J & S & _)].
    + exists (lib_type_id (n, t'), mkSymTy (Some (mkFqn (l_name l) n)) (map_ty libref_id t')).
      split; [|split; [exact ID|exact TY]]. apply INC. unfold type_defs. cbn [fst snd]. apply in_or_app. right. now left.
    + apply (defines_level _ libref_defs body t' p r T F); auto.
      * intros r0 r' N0 D0. now apply D0.
      * intros d Id. apply INC. unfold type_defs. apply in_or_app. now left.
  - cbn [st_name]. intros ->. destruct FA as (FL & F0 & F1 & _). split; [|split].
    + intros r R INC p S L. destruct (FL r R) as [_ ID]. cbn [st_ref] in R. destruct r as [t|id|e]; try destruct R. cbn in R.
      apply inside_cases in S as [->|(r & J & S & _)].
      * exists (libref_id (RInline t), mkSymTy None (map_ty ref0_id t)). split; [|split; [exact ID|]].
        -- apply INC. cbn [libref_defs]. apply in_or_app. right. now left.
        -- apply (level_ids _ _ _ _ R). intros r r' I. now apply (FR r I).
      * apply (defines_level _ ref0_defs body t p r R F); auto.
        -- intros r0 r' N0 D0. now apply D0.
        -- intros d Id. apply INC. cbn [libref_defs]. apply in_or_app. now left.
    + intros r R INC p S L. destruct (F0 r R) as [_ ID]. cbn [st_ref] in R. destruct r as [t|id|e]; try destruct R. cbn in R.
      apply inside_cases in S as [->|(r & J & S & _)].
      * exists (ref0_id (RInline t), mkSymTy None (map_ty ref1_id t)). split; [|split; [exact ID|]].
        -- apply INC. cbn [ref0_defs]. apply in_or_app. right. now left.
        -- apply (level_ids _ _ _ _ R). intros r r' I. now apply (FR r I).
      * apply (defines_level _ ref1_defs body t p r R F); auto.
        -- intros r0 r' N0 D0. now apply D0.
        -- intros d Id. apply INC. cbn [ref0_defs]. apply in_or_app. now left.
    + intros r R INC p S L. destruct (F1 r R) as [_ ID]. cbn [st_ref] in R. destruct r as [t|id|e]; try destruct R. cbn in R.
      apply inside_cases in S as [->|(r & J & S & _)].
      * exists (ref1_id (RInline t), mkSymTy None (map_ty ref2_id t)). split; [|split; [exact ID|]].
        -- apply INC. cbn [ref1_defs]. now left.
        -- apply (level_ids _ _ _ _ R). intros r r' I. now apply (FR r I).
      * apply (defines_level (ref2_compiled (named_in l)) (fun _ => []) body t p r R F); auto.
        -- intros r0 r' N0 _ R0. destruct r0 as [nm body0]. cbn in N0. subst nm. cbn [st_ref] in R0. destruct r' as [[]|id|e]; destruct R0.
        -- intros d Id. apply in_flat_map in Id as (x & _ & []).
Qed.
End Library.

(** ** From Rust types *)

Lemma involved_closed ts s p : involved ts s -> part p s -> involved ts p.
Proof. intros (t & I & S) P. exists t. split; [exact I|]. eapply part_trans; eauto. Qed.

Lemma transpiled dbg own known ts : transpilable own known ts ->
  exists b, transpile dbg ts (builder_with own known) = Ok b /\ inv own known (involved ts) b
    /\ forall s, involved ts s -> done own known b s.
Proof.
  intros T. destruct (transpile_spec own known (involved ts) (involved_closed ts) (tp_coherent _ _ _ T) (tp_libraries _ _ _ T)
    (tp_layered _ _ _ T) (tp_known _ _ _ T) dbg ts (tp_types _ _ _ T)) with (b := builder_with own known) as (b & E & V & _ & D).
  - intros t I. exists t. split; [exact I|constructor].
  - apply inv_new.
  - exists b. split; [exact E|]. split; [exact V|]. intros s (t & I & S) p P. apply (D t I). eapply part_trans; eauto.
Qed.

Section Derived.
Variables (own : string) (known : list (dependency * option (list semid))) (ts : list rust) (b : lib_builder).
Hypothesis T : transpilable own known ts.
Hypothesis V : inv own known (involved ts) b.
Hypothesis D : forall s, involved ts s -> done own known b s.

Lemma types_iff n t : In (n, t) (lb_types b) <-> exists s, involved ts s /\ st_name s = Some (own, n) /\ t = st_def own known s.
Proof.
  split.
  - intros I. destruct (entry_sound _ _ _ b V n t I) as (s & Us & N & E & _). eauto.
  - intros (s & Us & N & ->). pose proof (D s Us s (part_self s)) as P. unfold present in P. rewrite N, String.eqb_refl in P.
    apply (mget_In _ string_lawful) in P; [exact P|apply V].
Qed.
Lemma extern_keys lib : In lib (map fst (lb_extern b)) <-> exists s n, involved ts s /\ st_name s = Some (lib, n) /\ lib <> own.
Proof.
  split.
  - intros I. apply in_map_iff in I as ([l ids] & <- & I). apply (mget_In _ string_lawful) in I; [|apply V]. cbn [fst].
    destruct (inv_ids _ _ _ b V _ _ I) as (_ & NE & NO & H). destruct ids as [|[id n] ids]; [congruence|].
    destruct (H id n (or_introl eq_refl)) as (s & Us & N & _). eauto.
  - intros (s & n & Us & N & NO). pose proof (D s Us s (part_self s)) as P. unfold present in P. rewrite N in P.
    apply String.eqb_neq in NO. rewrite NO in P. destruct P as (ids & G & _). apply (mget_In _ string_lawful) in G; [|apply V].
    now apply (in_map fst) in G.
Qed.
Lemma extern_ids lib ids id : In (lib, ids) (lb_extern b) ->
  (In id (map fst ids) <-> exists s n, involved ts s /\ st_name s = Some (lib, n) /\ id = st_id s).
Proof.
  intros I. apply (mget_In _ string_lawful) in I as G; [|apply V]. destruct (inv_ids _ _ _ b V _ _ G) as (_ & _ & NO & H). split.
  - intros J. apply in_map_iff in J as ([id' n] & <- & J). destruct (H _ _ J) as (s & Us & N & E). eauto.
  - intros (s & n & Us & N & ->). pose proof (D s Us s (part_self s)) as P. unfold present in P. rewrite N in P.
    apply String.eqb_neq in NO. rewrite NO in P. destruct P as (ids' & G' & J). rewrite G in G'. injection G' as <-. exact J.
Qed.
Lemma extern_pair lib ids id n : In (lib, ids) (lb_extern b) -> In (id, n) ids ->
  exists s, involved ts s /\ st_name s = Some (lib, n) /\ id = st_id s /\ lib <> own.
Proof.
  intros I J. apply (mget_In _ string_lawful) in I; [|apply V]. destruct (inv_ids _ _ _ b V _ _ I) as (_ & _ & NO & H).
  destruct (H _ _ J) as (s & Us & N & E). eauto.
Qed.
Lemma names_NoDup lib (ids : list (semid * string)) : NoDup (map fst ids) ->
  (forall id n, In (id, n) ids -> exists s, involved ts s /\ st_name s = Some (lib, n) /\ id = st_id s) -> NoDup (map snd ids).
Proof.
  induction ids as [|[id n] ids IH]; cbn; intros ND H; [constructor|]. inversion ND as [|? ? N ND']; subst. constructor; [|apply IH; auto].
  intros I. apply in_map_iff in I as ([id' n'] & E & I). cbn in E. subst n'.
  destruct (H id n (or_introl eq_refl)) as (s & Us & Ns & ->). destruct (H id' n (or_intror I)) as (s' & Us' & Ns' & ->).
  rewrite (tp_coherent _ _ _ T s' s _ Us' Us Ns' Ns) in I. apply N. apply in_map_iff. exists (st_id s, n). split; [exact eq_refl|exact I].
Qed.
Lemma derived_ok (dbg : bool) : symbols_ok dbg known b.
Proof.
  split.
  - destruct (tp_some _ _ _ T) as (s & n & Us & N). intros E. assert (I : In (n, st_def own known s) (lb_types b)) by (apply types_iff; eauto).
    rewrite E in I. destruct I.
  - apply T.
  - intros n t I. apply types_iff in I as (s & Us & N & ->). unfold st_def. rewrite refs_map. unfold lenN. rewrite map_length.
    pose proof (tp_items _ _ _ T s n Us N) as L. unfold lenN in L. destruct dbg; lia.
  - intros lib ids I. apply (mget_In _ string_lawful) in I; [|apply V]. destruct (inv_ids _ _ _ b V _ _ I) as (S & _ & _ & H).
    pose proof (names_NoDup lib ids (msorted_NoDup _ N_lawful _ S) H) as ND.
    pose proof (tp_counts _ _ _ T lib (map snd ids) ND) as L. unfold lenN in *. rewrite map_length in L. unfold u16_max.
    assert (X : N.of_nat (List.length ids) <= 65535); [|exact X]. apply L. intros n J. apply in_map_iff in J as ([id n'] & <- & J).
    destruct (H _ _ J) as (s & Us & N & _). eauto.
  - assert (L : lenN (lb_extern b) <= lenN (map (fun k => (d_name (fst k), tt)) known)).
    { apply used_length; [apply (msorted_NoDup _ string_lawful); apply V|]. intros lib I. apply extern_keys in I as (s & n & Us & N & NO).
      destruct (tp_known _ _ _ T s lib n Us N NO) as (k & K & <-). rewrite map_map. cbn. apply in_map_iff. eauto. }
    pose proof (tp_deps _ _ _ T) as L'. unfold lenN in *. rewrite map_length in L. unfold u8_max. lia.
Qed.
Lemma types_count : 1 <= lenN (lb_types b) <= u16_max.
Proof.
  split.
  - pose proof (so_some _ _ _ (derived_ok true)) as NE. unfold lenN. destruct (lb_types b); [congruence|]. cbn. lia.
  - pose proof (tp_counts _ _ _ T own (map fst (lb_types b))) as L. unfold lenN in *. rewrite map_length in L. apply L.
    + apply (msorted_NoDup _ string_lawful). apply V.
    + intros n I. apply in_map_iff in I as ([n' t] & <- & I). apply types_iff in I as (s & Us & N & _). eauto.
Qed.

(** The dependencies. *)
Definition deps_spec (deps : list dependency) : Prop :=
  dsorted deps /\ (forall d, In d deps <-> exists lib o, In lib (map fst (lb_extern b)) /\ dep_named known lib = Some (d, o))
  /\ lenN deps <= u8_max.

Lemma symbols_result (dbg : bool) b' : reordered b b' ->
  exists deps, deps_spec deps
    /\ match compile_symbols dbg b' with
       | Ok s => s = mkSymLib own deps (lb_extern b) (lb_types b) /\ forall lib id n, ~ lacking own known (involved ts) lib id n
       | Err e => exists lib id n, e = TeMissesType lib id n /\ lacking own known (involved ts) lib id n
       | _ => False
       end.
Proof.
  intros R. destruct (symbols_spec own known (involved ts) (tp_libraries _ _ _ T) (tp_known _ _ _ T) dbg b b' V R (derived_ok dbg))
    as (deps & DS & DM & DL & M). exists deps. split; [split; [exact DS|split; [exact DM|exact DL]]|].
  destruct (compile_symbols dbg b') as [s|e| |]; try contradiction.
  - destruct M as [-> P]. split; [reflexivity|]. intros lib id n (s & [d o] & types & Us & N & NO & -> & F & E & NI). cbn in E. subst o.
    apply NI. assert (K : In lib (map fst (lb_extern b))) by (apply extern_keys; eauto). apply in_map_iff in K as ([l ids] & E & K). cbn in E. subst l.
    apply (P lib ids K (st_id s) d types); [|exact F]. apply (extern_ids lib ids _ K). eauto.
  - destruct M as (lib & ids & id & n & d & types & -> & I & J & F & NI). exists lib, id, n. split; [reflexivity|].
    destruct (extern_pair lib ids id n I J) as (s & Us & N & E & NO). exists s, (d, Some types), types.
    split; [exact Us|]. split; [exact N|]. split; [exact NO|]. split; [exact E|]. split; [exact F|]. split; [reflexivity|exact NI].
Qed.

Lemma derived_known deps : deps_spec deps -> lib_known (mkSymLib own deps (lb_extern b) (lb_types b)).
Proof.
  intros (_ & DM & _) lib I _. cbn in *. pose proof I as I'. apply extern_keys in I' as (s & n & Us & N & NO).
  destruct (find_known own known (involved ts) (tp_known _ _ _ T) s lib n Us N NO) as ([d o] & F & _).
  exists d. split; [apply DM; exists lib, o; auto|]. apply dep_named_In in F. apply F.
Qed.
Lemma derived_ordered deps : deps_spec deps -> lib_ordered (mkSymLib own deps (lb_extern b) (lb_types b)).
Proof. intros (DS & _). split; [apply V|exact DS]. Qed.
Lemma derived_compile (dbg : bool) deps : deps_spec deps ->
  exists o, returns (fun fuel => compile fuel dbg (mkSymLib own deps (lb_extern b) (lb_types b))) o
    /\ match o with
       | Ok l => lib_compiled (mkSymLib own deps (lb_extern b) (lb_types b)) l /\ levels_ok own (involved ts)
       | Err e => (exists n path inner, e = NestedInline n path inner) /\ ~ levels_ok own (involved ts)
       | _ => False
       end.
Proof.
  intros DS. pose proof (derived_ordered deps DS) as O.
  destruct (compile_returns dbg _ O (derived_acyclic own known (involved ts) (involved_closed ts) (tp_coherent _ _ _ T) b V deps)
    (derived_resolvable own known (involved ts) (involved_closed ts) b V deps) types_count) as (o & R & G).
  { apply DS. }
  exists o. split; [exact R|]. destruct o as [l|e| |]; cbn in G; try contradiction.
  - destruct R as (n & R). specialize (R n (le_n n)). pose proof (compile_ok _ _ _ _ O R) as (C & _). split; [exact C|].
    apply compiled_nested in C. unfold lib_nested in C. rewrite Forall_forall in C. intros s m Us N.
    assert (I : In (m, st_def own known s) (lb_types b)) by (apply types_iff; eauto). specialize (C _ I). cbn [snd] in C.
    unfold st_def in C. rewrite refs_map, Forall_map in C. eapply Forall_impl; [|exact C]. intros r. apply ref_nested.
  - destruct e as [|n path inner|lib].
    + destruct G.
    + split; [eauto|]. intros L. destruct G as (t & r & I & J & X). apply X.
      pose proof (derived_nested own known (involved ts) b V deps L) as Ne. unfold lib_nested in Ne. rewrite Forall_forall in Ne.
      specialize (Ne _ I). rewrite Forall_forall in Ne. now apply Ne.
    + destruct G as (I & NE & H). destruct (derived_known deps DS lib I NE) as (d & J & E). now apply H in J.
Qed.
End Derived.

(** ** Any order *)

Lemma symbols_of_result dbg own known ts r : transpilable own known ts -> symbols_of dbg own known ts r ->
  match r with
  | Ok s => forall lib id n, ~ lacking own known (involved ts) lib id n
  | Err e => exists lib id n, e = TeMissesType lib id n /\ lacking own known (involved ts) lib id n
  | _ => False
  end.
Proof.
  intros T (b & b' & E & R & <-). destruct (transpiled dbg own known ts T) as (b0 & E0 & V & D). rewrite E in E0. injection E0 as <-.
  destruct (symbols_result own known ts b T V D dbg b' R) as (deps & _ & M).
  destruct (compile_symbols dbg b') as [s|e| |]; try contradiction; [now apply M|exact M].
Qed.

Lemma derives_spec dbg own known ts r : transpilable own known ts -> derives dbg own known ts r ->
  exists b deps, transpile dbg ts (builder_with own known) = Ok b /\ inv own known (involved ts) b
    /\ (forall s, involved ts s -> done own known b s) /\ deps_spec known b deps
    /\ match r with
       | Ok l => lib_compiled (mkSymLib own deps (lb_extern b) (lb_types b)) l /\ levels_ok own (involved ts)
                 /\ forall lib id n, ~ lacking own known (involved ts) lib id n
       | Err (inl e) => exists lib id n, e = TeMissesType lib id n /\ lacking own known (involved ts) lib id n
       | Err (inr e) => (exists n path inner, e = NestedInline n path inner) /\ ~ levels_ok own (involved ts)
       | _ => False
       end.
Proof.
  intros T (b & b' & E & R & (k & F)). destruct (transpiled dbg own known ts T) as (b0 & E0 & V & D). rewrite E in E0. injection E0 as <-.
  destruct (symbols_result own known ts b T V D dbg b' R) as (deps & DS & M). exists b, deps.
  split; [exact E|]. split; [exact V|]. split; [exact D|]. split; [exact DS|]. unfold compile_builder in F.
  destruct (compile_symbols dbg b') as [s|e| |]; try contradiction.
  - destruct M as [-> NL]. destruct (derived_compile own known ts b T V D dbg deps DS) as (o & (k' & F') & M).
    specialize (F (max k k') ltac:(lia)). specialize (F' (max k k') ltac:(lia)). rewrite F' in F. destruct o as [l|e| |]; try contradiction; subst r.
    + split; [apply M|]. split; [apply M|exact NL].
    + exact M.
  - specialize (F k (le_n k)). subst r. exact M.
Qed.
Lemma derives_total dbg own known ts : transpilable own known ts -> exists r, derives dbg own known ts r.
Proof.
  intros T. destruct (transpiled dbg own known ts T) as (b & E & V & D).
  assert (R : reordered b b) by (split; reflexivity).
  destruct (symbols_result own known ts b T V D dbg b R) as (deps & DS & M).
  destruct (compile_symbols dbg b) as [s|e| |] eqn:CS; try contradiction.
  - destruct M as [-> NL]. destruct (derived_compile own known ts b T V D dbg deps DS) as (o & (k & F) & M).
    destruct o as [l|e| |]; try contradiction.
    + exists (Ok l). exists b, b. split; [exact E|]. split; [exact R|]. exists k. intros fuel L. unfold compile_builder. now rewrite CS, (F fuel L).
    + exists (Err (inr e)). exists b, b. split; [exact E|]. split; [exact R|]. exists k. intros fuel L. unfold compile_builder. now rewrite CS, (F fuel L).
  - exists (Err (inl e)). exists b, b. split; [exact E|]. split; [exact R|]. exists O. intros fuel L. unfold compile_builder. now rewrite CS.
Qed.

Lemma derives_library dbg own known ts l : transpilable own known ts -> derives dbg own known ts (Ok l) ->
  l_name l = own /\ increasing (by_key name_lt) (l_types l)
  /\ (forall n, In n (map fst (l_types l)) <-> exists s, involved ts s /\ st_name s = Some (own, n))
  /\ (forall s n, involved ts s -> st_name s = Some (own, n) ->
       exists t, In (n, t) (l_types l) /\ lib_type_id (n, t) = st_id s /\ map_ty libref_id t = map_ty st_id (st_body s))
  /\ (forall lib, In lib (map fst (l_extern l)) <-> exists s n, involved ts s /\ st_name s = Some (lib, n) /\ lib <> own)
  /\ (forall lib ids id, In (lib, ids) (l_extern l) ->
       (In id (map fst ids) <-> exists s n, involved ts s /\ st_name s = Some (lib, n) /\ id = st_id s))
  /\ (forall d, In d (l_deps l) <-> exists s lib n o, involved ts s /\ st_name s = Some (lib, n) /\ lib <> own
       /\ dep_named known lib = Some (d, o))
  /\ (forall s p n, involved ts s -> st_name s = Some (own, n) -> inside own p s ->
       (forall lib m, st_name p = Some (lib, m) -> lib = own) -> defined (lib_defs l) p).
Proof.
  intros T DR. destruct (derives_spec _ _ _ _ _ T DR) as (b & deps & E & V & D & DS & C & _).
  assert (KN : lib_known (mkSymLib own deps (lb_extern b) (lb_types b))) by now apply (derived_known own known ts b T V D).
  pose proof C as (L1 & L2 & L3 & L4 & L5). cbn in L1, L2, L4.
  split; [exact L1|]. split; [|split; [|split; [|split; [|split; [|split]]]]].
  - pose proof (compiled_keys _ _ C) as K. cbn in K. unfold increasing. pose proof (msorted_keys _ _ (inv_types _ _ _ b V)) as S. rewrite <- K in S.
    clear -S. revert S. induction (l_types l) as [|[n t] m IH]; cbn; intros S; [constructor|]. inversion S as [|? ? S' F]; subst.
    constructor; [now apply IH|]. rewrite Forall_map in F. eapply Forall_impl; [|exact F]. auto.
  - intros n. rewrite (compiled_keys _ _ C). cbn. split.
    + intros I. apply in_map_iff in I as ([n' t] & <- & I). apply (types_iff own known ts b V D) in I as (s & Us & N & _). eauto.
    + intros (s & Us & N). apply in_map_iff. exists (n, st_def own known s). split; [reflexivity|]. apply (types_iff own known ts b V D). eauto.
  - intros s n Us N.
    destruct (library_type own known (involved ts) (involved_closed ts) (tp_coherent _ _ _ T) b V deps l C s n Us N (D s Us s (part_self s)))
      as (t & I & ID & TY & _). eauto.
  - intros lib. rewrite L2. apply (extern_keys own known ts b V D).
  - intros lib ids id I. rewrite L2 in I. now apply (extern_ids own known ts b V D).
  - intros d. rewrite L4. unfold dep_used. destruct DS as (SD & DM & _). split.
    + intros (lib & I & NE & F). apply (extern_keys own known ts b V D) in I as (s & n & Us & N & NO).
      assert (ID : In d deps) by (destruct F as (x & z & -> & _); apply in_or_app; right; now left).
      destruct F as (x & z & X & NM & _). apply DM in ID as (lib' & o & _ & F). apply dep_named_In in F as F'. destruct F' as [_ F'].
      cbn in F'. exists s, lib, n, o. split; [exact Us|]. split; [exact N|]. split; [exact NO|]. rewrite <- NM, F'. exact F.
    + intros (s & lib & n & o & Us & N & NO & F). assert (K : In lib (map fst (lb_extern b))) by (apply (extern_keys own known ts b V D); eauto).
      exists lib. split; [exact K|]. split; [exact (tp_libraries _ _ _ T s lib n Us N)|].
      destruct (find (fun d => (d_name d =? lib)%string) deps) as [d'|] eqn:FD.
      * pose proof FD as FD'. apply (find_first _ (fun d => d_name d = lib)) in FD; [|apply eqb_name].
        apply find_some in FD' as [J NM]. apply String.eqb_eq in NM. apply DM in J as (lib' & o' & _ & F').
        pose proof F' as F2. apply dep_named_In in F2 as [_ F2]. cbn in F2. rewrite <- F2, NM in F'. rewrite F in F'. injection F' as -> _. exact FD.
      * exfalso. assert (J : In d deps) by (apply DM; exists lib, o; auto). apply (find_none _ _ FD) in J. apply dep_named_In in F as [_ F].
        cbn in F. rewrite F, String.eqb_refl in J. discriminate J.
  - intros s p n Us N S L.
    destruct (all_define own known (involved ts) (involved_closed ts) (tp_coherent _ _ _ T) b V deps l C s Us (D s Us)) as [A _].
    exact (A n N p S L).
Qed.

Lemma derives_unique dbg dbg' own known ts ts' l l' : transpilable own known ts -> transpilable own known ts' ->
  (forall s, involved ts s <-> involved ts' s) -> ids_differ (involved ts) ->
  derives dbg own known ts (Ok l) -> derives dbg' own known ts' (Ok l') -> l = l'.
Proof.
  intros T T' EQ DI DR DR'.
  destruct (derives_spec _ _ _ _ _ T DR) as (b & deps & E & V & D & DS & C & _).
  destruct (derives_spec _ _ _ _ _ T' DR') as (b' & deps' & E' & V' & D' & DS' & C' & _).
  assert (ET : lb_types b = lb_types b').
  { apply (msorted_eq _ string_lawful); [apply V|apply V'|]. intros n t.
    rewrite (types_iff own known ts b V D), (types_iff own known ts' b' V' D'). split; intros (s & Us & X); exists s; (split; [now apply EQ|exact X]). }
  assert (KX : forall lib, In lib (map fst (lb_extern b)) <-> In lib (map fst (lb_extern b'))).
  { intros lib. rewrite (extern_keys own known ts b V D), (extern_keys own known ts' b' V' D').
    split; intros (s & n & Us & X); exists s, n; (split; [now apply EQ|exact X]). }
  assert (PAIR : forall ts0 b0 lib ids, (forall s, involved ts0 s <-> involved ts s) -> inv own known (involved ts0) b0 ->
    (forall s, involved ts0 s -> done own known b0 s) -> In (lib, ids) (lb_extern b0) ->
    forall id n, In (id, n) ids <-> exists s, involved ts s /\ st_name s = Some (lib, n) /\ id = st_id s).
  { intros ts0 b0 lib ids EQ0 V0 D0 I id n. split.
    - intros J. destruct (extern_pair own known ts0 b0 V0 lib ids id n I J) as (s & Us & N & X & _). exists s. split; [now apply EQ0|]. auto.
    - intros (s & Us & N & X). assert (K : In id (map fst ids)).
      { apply (extern_ids own known ts0 b0 V0 D0 lib ids id I). exists s, n. split; [now apply EQ0|]. auto. }
      apply in_map_iff in K as ([id' n'] & E0 & J). cbn in E0. subst id'.
      destruct (extern_pair own known ts0 b0 V0 lib ids id n' I J) as (s' & Us' & N' & X' & _). apply EQ0 in Us'.
      rewrite X in X'. now rewrite (DI s s' lib n n' Us Us' N N' X'). }
  assert (EE : lb_extern b = lb_extern b').
  { assert (INC : forall ts1 b1 ts2 b2, (forall s, involved ts1 s <-> involved ts s) -> inv own known (involved ts1) b1 ->
      (forall s, involved ts1 s -> done own known b1 s) -> (forall s, involved ts2 s <-> involved ts s) -> inv own known (involved ts2) b2 ->
      (forall s, involved ts2 s -> done own known b2 s) -> (forall lib, In lib (map fst (lb_extern b1)) -> In lib (map fst (lb_extern b2))) ->
      forall lib ids, In (lib, ids) (lb_extern b1) -> In (lib, ids) (lb_extern b2)).
    { intros ts1 b1 ts2 b2 Q1 V1 D1 Q2 V2 D2 K lib ids I. pose proof (K lib (in_map fst _ _ I)) as J. apply in_map_iff in J as ([lib' ids'] & E0 & J).
      cbn in E0. subst lib'. replace ids with ids'; [exact J|]. apply (msorted_eq _ N_lawful).
      - apply (inv_ids _ _ _ b2 V2 lib). apply (mget_In _ string_lawful); [apply V2|exact J].
      - apply (inv_ids _ _ _ b1 V1 lib). apply (mget_In _ string_lawful); [apply V1|exact I].
      - intros id n. rewrite (PAIR ts2 b2 lib ids' Q2 V2 D2 J id n), (PAIR ts1 b1 lib ids Q1 V1 D1 I id n). reflexivity. }
    apply (msorted_eq _ string_lawful); [apply V|apply V'|]. intros lib ids. split.
    - apply (INC ts b ts' b'); auto; [reflexivity|intros s; symmetry; apply EQ|intros lib'; apply KX].
    - apply (INC ts' b' ts b); auto; [intros s; symmetry; apply EQ|reflexivity|intros lib'; apply KX]. }
  assert (ED : deps = deps').
  { apply dsorted_eq; [apply DS|apply DS'|]. destruct DS as (_ & M & _), DS' as (_ & M' & _). intros d. rewrite M, M'.
    split; intros (lib & o & I & X); exists lib, o; (split; [now apply KX|exact X]). }
  rewrite <- ET, <- EE, <- ED in C'. eapply compiled_unique; [|  |exact C|exact C'].
  - apply (derived_ordered own known ts b V deps DS).
  - exact (derived_acyclic own known (involved ts) (involved_closed ts) (tp_coherent _ _ _ T) b V deps).
Qed.

(** ** Systems *)

Lemma height_proper p s : part p s -> p = s \/ (height p < height s)%nat.
Proof. intros P. destruct s as [n body]. apply part_cases in P as [->|(r & I & P)]; [now left|]. right. apply height_part in P. apply (height_ref n) in I. lia. Qed.
Lemma part_split own p s : part p s ->
  inside own p s /\ (forall lib n, st_name p = Some (lib, n) -> lib = own)
  \/ exists r lib n, part r s /\ part p r /\ st_name r = Some (lib, n) /\ lib <> own.
Proof.
  assert (FOR : forall s, (exists lib n, st_name s = Some (lib, n) /\ lib <> own) \/ forall lib n, st_name s = Some (lib, n) -> lib = own).
  { intros [[[lib n]|] body]; cbn; [|right; discriminate]. destruct (string_dec lib own) as [->|NE]; [right; intros l m [= <- <-]; reflexivity|].
    left. eauto. }
  intros P. induction P as [s|p r n body I P IH].
  - destruct (FOR s) as [(lib & n & N & NE)|L]; [right; exists s, lib, n; repeat split; auto; constructor|]. left. split; [constructor|exact L].
  - destruct (FOR (SType n body)) as [(lib & m & N & NE)|L].
    + right. exists (SType n body), lib, m. split; [constructor|]. split; [econstructor; eauto|auto].
    + destruct IH as [[S L']|(r' & lib & m & P1 & P2 & N & NE)].
      * left. split; [|exact L']. econstructor; eauto.
      * right. exists r', lib, m. split; [econstructor; eauto|auto].
Qed.

(** ** Examples *)

Fixpoint parts (s : stype) : list stype := match s with SType _ body => s :: List.concat (refs (map_ty parts body)) end.
Lemma part_parts p s : part p s <-> In p (parts s).
Proof.
  split.
  - intros P. induction P as [[n body]|p r n body I P IH]; cbn [parts]; [now left|]. right. rewrite refs_map. apply in_concat.
    exists (parts r). split; [now apply in_map|exact IH].
  - revert p. induction s as [n body IH] using stype_induction. intros p. cbn [parts]. intros [<-|I]; [constructor|].
    rewrite refs_map in I. apply in_concat in I as (l & J & I). apply in_map_iff in J as (r & <- & J). rewrite Forall_forall in IH.
    econstructor; [exact J|]. now apply IH.
Qed.
Lemma involved_parts ts s : involved ts s <-> In s (flat_map (fun t => parts (meaning t)) ts).
Proof. unfold involved. rewrite in_flat_map. split; intros (t & I & P); exists t; (split; [exact I|now apply part_parts]). Qed.

Lemma loop_more dbg names : forall fuel p r, compile_loop fuel dbg names p = r -> r <> Diverge -> forall fuel', (fuel <= fuel')%nat ->
  compile_loop fuel' dbg names p = r.
Proof.
  induction fuel as [|fuel IH]; intros p r E ND fuel' L.
  - cbn [compile_loop] in E. destruct fuel'; cbn [compile_loop]; destruct (pr_old p); congruence.
  - destruct fuel' as [|fuel']; [lia|]. cbn [compile_loop] in *. destruct (pr_old p); [exact E|].
    destruct (compile_pass names p false) as [[p' found]|e| |]; cbn [bind] in *; auto.
    destruct (dbg && negb found); [exact E|]. apply (IH p' r E ND). lia.
Qed.
Lemma compile_more fuel dbg s l : compile fuel dbg s = Ok l -> forall fuel', (fuel <= fuel')%nat -> compile fuel' dbg s = Ok l.
Proof.
  intros E fuel' L. unfold compile in *. destruct (compile_loop fuel dbg _ _) as [t|e| |] eqn:CL; cbn [bind] in E; try discriminate E.
  rewrite (loop_more _ _ _ _ _ CL ltac:(discriminate) fuel' L). exact E.
Qed.
Lemma derives_run fuel dbg own known ts b l : transpile dbg ts (builder_with own known) = Ok b -> compile_builder fuel dbg b = Ok l ->
  derives dbg own known ts (Ok l).
Proof.
  intros E C. exists b, b. split; [exact E|]. split; [split; reflexivity|]. exists fuel. intros fuel' L. unfold compile_builder in *.
  destruct (compile_symbols dbg b) as [s|e| |]; try discriminate C. destruct (compile fuel dbg s) as [l'|e| |] eqn:CC; try discriminate C.
  injection C as ->. now rewrite (compile_more _ _ _ _ CC fuel' L).
Qed.
