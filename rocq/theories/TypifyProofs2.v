(** Proofs about typification of values: what is checked, termination. *)
From Coq Require Import NArith ZArith List Bool String Ascii Strings.Byte Lia Arith.Wf_nat Permutation.
From Verif Require Import Base Ty Ids Val TypeSys Encode Decode DecodeShort Typify Spec SpecTypify.
From Verif Require Import CodecLemmas ValLemmas RoundTrip ReadLemmas Sound CodecProofs TypifyProofs.
Import ListNotations.
Local Open Scope N_scope.

Ltac inv_if H :=
  repeat match type of H with
  | (if ?b then _ else _) = Ok _ => let X := fresh "C" in destruct b eqn:X;
      try (match type of H with Err _ = Ok _ => discriminate H end)
  end.

Lemma map_outcome_length {E A B} (f : A -> outcome E B) l l' : map_outcome f l = Ok l' -> List.length l' = List.length l.
Proof.
  revert l'; induction l as [|x l IH]; intros l' H; cbn in H; [now injection H as <-|].
  apply bind_Ok in H as [y [_ H]]. apply bind_Ok in H as [ys [H' H]]. injection H as <-. cbn. now rewrite (IH ys).
Qed.

Lemma typify_set_length rec id r l new l' : typify_set rec id r l new = Ok l' ->
  List.length l' = (List.length new + List.length l)%nat.
Proof.
  revert new; induction l as [|x l IH]; intros new H; cbn in H; [injection H as <-; cbn; lia|].
  apply bind_Ok in H as [y [_ H]]. destruct existsb; [discriminate|]. apply IH in H. rewrite app_length in H. cbn in *. lia.
Qed.

Lemma typify_map_length rec id k r l new l' : typify_map rec id k r l new = Ok l' ->
  List.length l' = (List.length new + List.length l)%nat.
Proof.
  revert new; induction l as [|[xk xv] l IH]; intros new H; cbn in H; [injection H as <-; cbn; lia|].
  apply bind_Ok in H as [y [_ H]]. apply bind_Ok in H as [y' [_ H]].
  destruct existsb; [discriminate|]. apply IH in H. rewrite app_length in H. cbn in *. lia.
Qed.

Lemma typify_inv fuel sys v id w : typify_val fuel sys v id = Ok w ->
  exists f t, fuel = S f /\ type_of sys id = Some t /\ typify_ty (typify_val f sys) id t v = Ok w.
Proof.
  destruct fuel as [|f]; [discriminate|]. cbn [typify_val]. intros H. apply bind_Ok in H as [t [H1 H2]].
  exists f, t. destruct (type_of sys id); [|discriminate]. injection H1 as <-. auto.
Qed.

Lemma typify_size fuel sys v id w t sz : typify_val fuel sys v id = Ok w -> type_of sys id = Some t ->
  (exists r, t = TList r sz \/ t = TSet r sz \/ exists k, t = TMap k r sz) ->
  exists n, vsize w = Some n /\ s_min sz <= n <= s_max sz.
Proof.
  intros H T X. apply typify_inv in H as (f & t' & -> & T' & H). rewrite T in T'. injection T' as <-.
  destruct X as [r [->|[->|[k ->]]]]; cbn in H; destruct v; try (match type of H with Err _ = Ok _ => discriminate H end).
  - destruct (sizing_check sz (slen s)) eqn:C; [|discriminate H]. apply sizing_check_inv in C. exists (slen s).
    split; [|exact C]. cbn in H.
    destruct (is_unicode_id r); [injection H as <-; reflexivity|].
    destruct (is_byte_id r); [injection H as <-; cbn; now rewrite slen_bytes|].
    destruct (is_ascii s); [injection H as <-; reflexivity|discriminate H].
  - destruct (sizing_check sz (lenN b)) eqn:C; [|discriminate H]. apply sizing_check_inv in C. exists (lenN b).
    split; [|exact C]. cbn in H. destruct (is_byte_id r); [injection H as <-; reflexivity|discriminate H].
  - inv_if H. apply bind_Ok in H as [l' [H' H]]. injection H as <-. apply map_outcome_length in H'.
    cbn. eexists; (split; [reflexivity|]). apply negb_false_iff in C. apply sizing_check_inv in C.
    unfold lenN in *. now rewrite H'.
  - inv_if H. apply bind_Ok in H as [l' [H' H]]. injection H as <-. apply typify_set_length in H'.
    cbn. eexists; (split; [reflexivity|]). apply negb_false_iff in C. apply sizing_check_inv in C.
    unfold lenN in *. now rewrite H'.
  - inv_if H. apply bind_Ok in H as [l' [H' H]]. injection H as <-. apply typify_map_length in H'.
    cbn. eexists; (split; [reflexivity|]). apply negb_false_iff in C. apply sizing_check_inv in C.
    unfold lenN in *. now rewrite H'.
Qed.

Lemma typify_array fuel sys v id w r len : typify_val fuel sys v id = Ok w -> type_of sys id = Some (TArray r len) ->
  w = v /\ exists n, vsize w = Some n /\ n <= len.
Proof.
  intros H T. apply typify_inv in H as (f & t' & -> & T' & H). rewrite T in T'. injection T' as <-.
  cbn in H; destruct v; try (match type of H with Err _ = Ok _ => discriminate H end);
    inv_if H; injection H as <-; (split; [reflexivity|]); cbn; eexists;
    (split; [reflexivity|]); match goal with C : (_ <? _) = false |- _ => apply N.ltb_ge in C; exact C end.
Qed.

(** ** Repeated elements *)

Definition all_differ (l : list sval) : Prop := ForallOrdPairs (fun x y => sval_eqb x y = false) l.

Lemma FOP_app {A} (R : A -> A -> Prop) l y : ForallOrdPairs R l -> Forall (fun x => R x y) l -> ForallOrdPairs R (l ++ [y]).
Proof.
  induction 1 as [|x l H F IH]; intros G; cbn.
  - constructor; constructor.
  - inversion G; subst. constructor; [|auto]. apply Forall_app. split; [assumption|]. constructor; auto.
Qed.

Lemma existsb_Forall {A} (f : A -> bool) l : existsb f l = false -> Forall (fun x => f x = false) l.
Proof. induction l; cbn; intros H; constructor; apply orb_false_iff in H as [? ?]; auto. Qed.

Lemma typify_set_differ rec id r l new l' : all_differ new -> typify_set rec id r l new = Ok l' -> all_differ l'.
Proof.
  revert new; induction l as [|x l IH]; intros new D H; cbn in H; [now injection H as <-|].
  apply bind_Ok in H as [y [_ H]]. destruct existsb eqn:X; [discriminate|]. apply IH in H; [exact H|].
  apply FOP_app; [exact D|]. apply existsb_Forall in X. exact X.
Qed.

Lemma typify_map_differ rec id k r l new l' : all_differ (map fst new) -> typify_map rec id k r l new = Ok l' ->
  all_differ (map fst l').
Proof.
  revert new; induction l as [|[xk xv] l IH]; intros new D H; cbn in H; [now injection H as <-|].
  apply bind_Ok in H as [y [_ H]]. apply bind_Ok in H as [y' [_ H]].
  destruct existsb eqn:X; [discriminate|]. apply IH in H; [exact H|].
  rewrite map_app. apply FOP_app; [exact D|]. apply existsb_Forall in X. apply Forall_map. exact X.
Qed.

Lemma typify_distinct_set fuel sys v id r sz w : typify_val fuel sys v id = Ok w -> type_of sys id = Some (TSet r sz) ->
  exists l, w = VSet l /\ all_differ l.
Proof.
  intros H T. apply typify_inv in H as (f & t' & -> & T' & H). rewrite T in T'. injection T' as <-.
  cbn in H; destruct v; try (match type of H with Err _ = Ok _ => discriminate H end). inv_if H. apply bind_Ok in H as [l' [H' H]]. injection H as <-.
  eexists; split; [reflexivity|]. eapply typify_set_differ; [|exact H']. constructor.
Qed.

Lemma typify_distinct_map fuel sys v id k r sz w : typify_val fuel sys v id = Ok w -> type_of sys id = Some (TMap k r sz) ->
  exists l, w = VMap l /\ all_differ (map fst l).
Proof.
  intros H T. apply typify_inv in H as (f & t' & -> & T' & H). rewrite T in T'. injection T' as <-.
  cbn in H; destruct v; try (match type of H with Err _ = Ok _ => discriminate H end). inv_if H. apply bind_Ok in H as [l' [H' H]]. injection H as <-.
  eexists; split; [reflexivity|]. eapply typify_map_differ; [|exact H']. constructor.
Qed.

(** ** Structures *)

Lemma imap_insert_names {V} k (v : V) m : NoDup (map fst m) ->
  NoDup (map fst (imap_insert k v m)) /\ forall n, In n (map fst (imap_insert k v m)) <-> n = k \/ In n (map fst m).
Proof.
  induction m as [|[k' v'] m IH]; cbn; intros ND.
  - split; [repeat constructor; auto|]. intros; intuition.
  - inversion ND as [|? ? NI ND']; subst. destruct (String.eqb_spec k' k) as [->|NE]; cbn.
    + split; [constructor; assumption|]. intros; intuition.
    + destruct (IH ND') as [A B]. split.
      * constructor; [|exact A]. rewrite B. intros [->|I]; auto.
      * intros n. rewrite B. intuition.
Qed.

Lemma typify_struct_names rec req l new l' : NoDup (map fst new) -> typify_struct rec req l new = Ok l' ->
  NoDup (map fst l') /\ (forall n, In n (map fst l') <-> In n (map fst new) \/ In n (map fst l))
  /\ (forall n, In n (map fst l) -> In n (map fst req)).
Proof.
  revert new; induction l as [|[n x] l IH]; intros new ND H; cbn in H.
  - injection H as <-. repeat split; auto; cbn; tauto.
  - apply bind_Ok in H as [id [H1 H]]. apply bind_Ok in H as [y [_ H]].
    destruct (imap_insert_names n y new ND) as [A B].
    apply IH in H as (H2 & H3 & H4); [|exact A]. split; [exact H2|]. split.
    + intros q. rewrite H3, B. cbn. intuition.
    + intros q [<-|I]; [|auto]. unfold nf_ty_by_name in H1. 
      destruct (find (fun f => (fst f =? n)%string) req) as [[n' r]|] eqn:F; [|discriminate].
      apply find_some in F as [F E]. apply String.eqb_eq in E. cbn in E. subst. cbn. now apply (in_map fst) in F.
Qed.

Lemma typify_mstruct_names rec req l new l' : NoDup (map fst new) -> typify_mstruct rec req l new = Ok l' ->
  NoDup (map fst l') /\ (forall n, In n (map fst l') <-> In n (map fst new) \/ In (VStr n) (map fst l))
  /\ (forall k, In k (map fst l) -> exists n, k = VStr n /\ In n (map fst req)).
Proof.
  revert new; induction l as [|[n x] l IH]; intros new ND H; cbn in H.
  - injection H as <-. repeat split; auto; cbn; tauto.
  - destruct n as [| |n| | | | | | | |]; try discriminate H. destruct (name_ok n); [|discriminate H].
    apply bind_Ok in H as [id [H1 H]]. apply bind_Ok in H as [y [_ H]].
    destruct (imap_insert_names n y new ND) as [A B].
    apply IH in H as (H2 & H3 & H4); [|exact A]. split; [exact H2|]. split.
    + intros q. rewrite H3, B. cbn. intuition; try congruence. subst. auto. left. left. congruence.
    + intros q [<-|I]; [|auto]. unfold nf_ty_by_name in H1. 
      destruct (find (fun f => (fst f =? n)%string) req) as [[n' r]|] eqn:F; [|discriminate].
      apply find_some in F as [F E]. apply String.eqb_eq in E. cbn in E. subst. cbn. exists n. split; [reflexivity|].
      now apply (in_map fst) in F.
Qed.

Lemma complete_names (a b : list string) : NoDup a -> List.length a = List.length b ->
  (forall n, In n a -> In n b) -> forall n, In n a <-> In n b.
Proof.
  intros ND L I n. split; [apply I|].
  apply NoDup_length_incl; auto. rewrite L. reflexivity.
Qed.

Lemma typify_struct_complete fuel sys l id fs w : typify_val fuel sys (VStruct l) id = Ok w ->
  type_of sys id = Some (TStruct fs) -> NoDup (map fst l) ->
  exists l', w = VStruct l' /\ NoDup (map fst l') /\ forall n, In n (map fst l') <-> In n (map fst fs).
Proof.
  intros H T ND. apply typify_inv in H as (f & t' & -> & T' & H). rewrite T in T'. injection T' as <-.
  cbn in H. inv_if H. apply negb_false_iff, N.eqb_eq in C.
  apply bind_Ok in H as [l' [H' H]]. injection H as <-.
  eexists; split; [reflexivity|]. apply typify_struct_names in H' as (A & B & D); [|constructor].
  split; [exact A|]. intros n. rewrite B. cbn.
  rewrite <- (complete_names (map fst l) (map fst fs) ND); auto; [tauto|].
  rewrite !map_length. unfold lenN in C. lia.
Qed.

Lemma typify_mstruct_known fuel sys l id fs w : typify_val fuel sys (VMap l) id = Ok w ->
  type_of sys id = Some (TStruct fs) ->
  exists l', w = VStruct l' /\ NoDup (map fst l')
    /\ (forall n, In n (map fst l') <-> In (VStr n) (map fst l))
    /\ (forall n, In n (map fst l') -> In n (map fst fs)).
Proof.
  intros H T. apply typify_inv in H as (f & t' & -> & T' & H). rewrite T in T'. injection T' as <-.
  cbn in H. 
  apply bind_Ok in H as [l' [H' H]]. injection H as <-.
  eexists; split; [reflexivity|]. apply typify_mstruct_names in H' as (A & B & D); [|constructor].
  split; [exact A|]. split; intros n; rewrite B; cbn; [tauto|]. intros [[]|I].
  destruct (D _ I) as (n' & E & I'). injection E as ->. exact I'.
Qed.
