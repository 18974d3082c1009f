(** Exactly when a type system is built, and when it does not depend on the order of imports: C23 and C24. *)
From Coq Require Import NArith List Bool String Permutation Lia.
From Verif Require Import Base Ty Ids TypeSys LibCodec Build Spec SpecIds SpecSys SpecBuild BuildProofs BuildProofs2 PropBuild.
Import ListNotations.
Local Open Scope N_scope.

(** Specification: a list has at most [n] different elements. *)
Definition at_most {A} (n : N) (l : list A) : Prop := forall k, NoDup k -> incl k l -> lenN k <= n.

Lemma at_most_same {A} n (l m : list A) : NoDup m -> (forall x, In x m <-> In x l) -> (at_most n l <-> lenN m <= n).
Proof.
  intros D E. split; intros H.
  - apply H; [exact D|]. intros x I. now apply E.
  - intros k K I. unfold lenN in *. assert (List.length k <= List.length m)%nat; [|lia].
    apply NoDup_incl_length; [exact K|]. intros x J. apply E. now apply I.
Qed.

Lemma at_most_incl {A} n (l m : list A) : incl m l -> at_most n l -> at_most n m.
Proof. intros I H k K J. apply H; [exact K|]. intros x X. apply I. now apply J. Qed.

Theorem C23_exact : forall (dbg : bool) ls, defs_iterable dbg (libs_defs ls) ->
  (exists s, build dbg ls = Ok s) <->
  (forall id, ~ missing ls id) /\ at_most u16_max (map lib_id ls) /\ at_most u24_max (map def_id (libs_defs ls)).
Proof.
  intros dbg ls It. destruct (build_eq dbg ls) as (b & B & Eb). rewrite Eb.
  assert (A1 : at_most u16_max (map lib_id ls) <-> lenN (b_imported b) <= u16_max).
  { unfold lenN. rewrite <- (map_length d_id (b_imported b)). apply at_most_same; [apply dsorted_NoDup, (built_order _ _ B)|].
    intros x. apply (built_imported _ _ B). }
  assert (A2 : at_most u24_max (map def_id (libs_defs ls)) <-> lenN (b_types b) <= u24_max).
  { unfold lenN. rewrite <- (map_length fst (b_types b)). apply at_most_same; [apply sorted_keys, (built_sorted _ _ B)|].
    intros x. apply (types_keys _ _ _ B). }
  rewrite A1, A2. clear A1 A2. split.
  - intros [s F]. destruct (finalize_ok _ _ _ _ B F) as (P & L1 & L2 & _). split; [|auto].
    intros id. rewrite <- (built_pending _ _ B), P. intros [].
  - intros (M & L1 & L2). rewrite (finalize_eq _ _ _ B It).
    destruct (b_pending b) as [|p ps] eqn:P; [|destruct (M (d_id p)); rewrite <- (built_pending _ _ B), P; now left].
    apply N.leb_le in L1. apply N.leb_le in L2. rewrite L1, L2. eauto.
Qed.
Example C23_exact_case : (exists s, build true ex_libs = Ok s) /\ ~ exists s, build true [ex_user] = Ok s.
Proof.
  split.
  - destruct ex_libs_build as (s & E & _). now exists s.
  - destruct C23_case as (M & _). intros [s E]. exact (C23_success _ _ _ E _ M).
Qed.
Print Assumptions C23_exact.

(** ** C24 *)

Lemma last_find ls d : last_def ls d <-> find (fun d' => def_id d' =? def_id d) (rev (libs_defs ls)) = Some d.
Proof.
  rewrite find_last. unfold last_def. split; [intros H; split; [reflexivity|exact H]|intros [_ H]; exact H].
Qed.

Lemma find_app {A} (f : A -> bool) l m : find f (l ++ m) = match find f l with Some x => Some x | None => find f m end.
Proof. induction l as [|x l IH]; cbn; [reflexivity|]. destruct (f x); [reflexivity|exact IH]. Qed.

Lemma libs_defs_app a b : libs_defs (a ++ b) = (libs_defs a ++ libs_defs b)%list.
Proof. unfold libs_defs. apply flat_map_app. Qed.

(** The last definition is the last one of some library. *)
Lemma last_split ls d : last_def ls d -> exists l, In l ls /\ last_def [l] d.
Proof.
  rewrite last_find. induction ls as [|l ls IH] using rev_ind; [discriminate|].
  rewrite libs_defs_app, rev_app_distr, find_app. destruct (find _ (rev (libs_defs [l]))) as [x|] eqn:F; intros E.
  - injection E as ->. exists l. split; [apply in_or_app; right; now left|]. now apply last_find.
  - destruct (IH E) as (l' & I & L). exists l'. split; [apply in_or_app; now left|exact L].
Qed.

(** The last definition of the last library is there. *)
Lemma last_at_end ls l d : last_def [l] d -> last_def (ls ++ [l]) d.
Proof. rewrite !last_find, libs_defs_app, rev_app_distr, find_app. intros ->. reflexivity. Qed.

Lemma last_exists ls id : In id (map def_id (libs_defs ls)) -> exists d, last_def ls d /\ def_id d = id.
Proof.
  intros I. destruct (find (fun d => def_id d =? id) (rev (libs_defs ls))) as [d|] eqn:F.
  - exists d. pose proof (find_some _ _ F) as [_ E]. apply N.eqb_eq in E. split; [|exact E]. apply last_find. now rewrite E.
  - exfalso. apply in_map_iff in I as (d & E & I). apply in_rev in I. apply (find_none _ _ F) in I.
    rewrite E, N.eqb_refl in I. discriminate I.
Qed.

(** Libraries in another order are built as well. *)
Lemma build_perm (dbg : bool) ls ls' s : defs_iterable dbg (libs_defs ls) -> Permutation ls ls' -> build dbg ls = Ok s ->
  exists s', build dbg ls' = Ok s'.
Proof.
  intros It P E. assert (It' : defs_iterable dbg (libs_defs ls')).
  { intros d I. apply It. eapply Permutation_in; [apply Permutation_sym, libs_defs_perm, P|exact I]. }
  destruct (proj1 (C23_exact dbg ls It) (ex_intro _ s E)) as (M & A1 & A2). apply (C23_exact dbg ls' It'). split; [|split].
  - intros id X. apply (M id). revert X. apply missing_perm. now apply Permutation_sym.
  - revert A1. apply at_most_incl. intros x. apply Permutation_in, Permutation_map, Permutation_sym, P.
  - revert A2. apply at_most_incl. intros x. apply Permutation_in, Permutation_map, Permutation_sym, libs_defs_perm, P.
Qed.

(** The order of imports has no influence exactly when libraries which define the same id define it as the same type (each by its
    last definition). *)
Theorem C24_exact : forall (dbg : bool) ls s, defs_iterable dbg (libs_defs ls) -> build dbg ls = Ok s ->
  (forall ls', Permutation ls ls' -> exists s', build dbg ls' = Ok s' /\ ss_types s' = ss_types s) <->
  forall l l' d d', In l ls -> In l' ls -> last_def [l] d -> last_def [l'] d' -> def_id d = def_id d' -> def_ty d = def_ty d'.
Proof.
  intros dbg ls s It E. split.
  - intros H. assert (X : forall l d, In l ls -> last_def [l] d -> sys_get (ss_types s) (def_id d) = Some (def_ty d)).
    { intros l d I L. apply in_split in I as (a & b & ->).
      destruct (H ((a ++ b) ++ [l])%list) as (s' & E' & <-).
      { rewrite <- app_assoc. apply Permutation_app_head. apply Permutation_cons_append. }
      apply (C25_exact _ _ _ E'). exists d. split; [now apply last_at_end|auto]. }
    intros l l' d d' I I' L L' Q. pose proof (X l d I L) as Y. rewrite Q, (X l' d' I' L') in Y. congruence.
  - intros A ls' P. destruct (build_perm dbg ls ls' s It P E) as (s' & E'). exists s'. split; [exact E'|].
    destruct (C45 _ _ _ E) as (K & _ & O). destruct (C45 _ _ _ E') as (K' & _ & O'). apply sorted_eq; [exact O'|exact O|].
    assert (P' : Permutation ls' ls) by now apply Permutation_sym.
    assert (X : forall m m' t t' id, Permutation m m' -> (forall l, In l m -> In l ls) ->
      (exists d, last_def m d /\ def_id d = id /\ def_ty d = t) -> (exists d, last_def m' d /\ def_id d = id /\ def_ty d = t') -> t = t').
    { intros m m' t t' id Q W (d & L & D & <-) (d' & L' & D' & <-). apply last_split in L as (l & I & L). apply last_split in L' as (l' & I' & L').
      apply (A l l'); auto; [|congruence]. apply W. eapply Permutation_in; [apply Permutation_sym, Q|exact I']. }
    intros id. destruct (C25_exact _ _ _ E) as (G & _). destruct (C25_exact _ _ _ E') as (G' & _). unfold sys_get in G, G'.
    destruct (om_get N.compare id (ss_types s)) as [t|] eqn:T; destruct (om_get N.compare id (ss_types s')) as [t'|] eqn:T'.
    + f_equal. symmetry. apply (X ls ls' t t' id P); [auto|now apply G|now apply G'].
    + exfalso. apply get_none in T'. apply T'. apply K'. assert (I : In id (map fst (ss_types s))) by (apply get_In in T; [|exact O]; now apply (in_map fst) in T).
      apply K in I. revert I. apply Permutation_in, Permutation_map, libs_defs_perm, P.
    + exfalso. apply get_none in T. apply T. apply K. assert (I : In id (map fst (ss_types s'))) by (apply get_In in T'; [|exact O']; now apply (in_map fst) in T').
      apply K' in I. revert I. apply Permutation_in, Permutation_map, libs_defs_perm, P'.
    + reflexivity.
Qed.
Print Assumptions C24_exact.
Example C24_exact_case : defs_iterable true (libs_defs ex_libs) /\ exists s, build true ex_libs = Ok s
  /\ forall ls', Permutation ex_libs ls' -> exists s', build true ls' = Ok s' /\ ss_types s' = ss_types s.
Proof.
  destruct C23_case as (_ & _ & It & _). destruct C24_case as (_ & C & s & E). split; [exact It|]. exists s. split; [exact E|].
  apply (C24_exact true ex_libs s It E). intros l l' d d' I I' L L' Q.
  assert (X : forall m e, In m ex_libs -> last_def [m] e -> In e (libs_defs ex_libs)).
  { intros m e J (a & b & D & _). apply in_flat_map. exists m. split; [exact J|]. unfold libs_defs in D. cbn [flat_map] in D.
    rewrite app_nil_r in D. rewrite D. apply in_or_app. right. now left. }
  apply C; eauto.
Qed.
