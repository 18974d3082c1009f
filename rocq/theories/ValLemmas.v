(** Lemmas on values: induction principle, equality. *)
From Coq Require Import NArith ZArith List Bool String Ascii Strings.Byte Lia.
From Verif Require Import Base Val CodecLemmas.
Import ListNotations.
Local Open Scope N_scope.

Lemma sval_ind' (P : sval -> Prop) :
  P VUnit -> (forall n, P (VNum n)) -> (forall s, P (VStr s)) -> (forall b, P (VBytes b)) ->
  (forall fs, Forall (fun e => P (snd e)) fs -> P (VStruct fs)) ->
  (forall t, P (VEnum t)) -> (forall t v, P v -> P (VUnion t v)) ->
  (forall l, Forall P l -> P (VList l)) -> (forall l, Forall P l -> P (VSet l)) ->
  (forall l, Forall P l -> P (VTuple l)) ->
  (forall l, Forall (fun e => P (fst e) /\ P (snd e)) l -> P (VMap l)) ->
  forall v, P v.
Proof.
  intros H1 H2 H3 H4 H5 H6 H7 H8 H9 H10 H11.
  fix go 1. intros [|n|s|b|fs|t|t v|l|l|l|l].
  - exact H1.
  - apply H2.
  - apply H3.
  - apply H4.
  - apply H5. induction fs as [|[k v] fs IH]; constructor; [apply go|exact IH].
  - apply H6.
  - apply H7, go.
  - apply H8. induction l as [|v l IH]; constructor; [apply go|exact IH].
  - apply H9. induction l as [|v l IH]; constructor; [apply go|exact IH].
  - apply H10. induction l as [|v l IH]; constructor; [apply go|exact IH].
  - apply H11. induction l as [|[k v] l IH]; constructor; [split; apply go|exact IH].
Qed.

Lemma snum_eqb_eq a b : snum_eqb a b = true <-> a = b.
Proof.
  destruct a, b; cbn; rewrite ?N.eqb_eq, ?Z.eqb_eq; split; intros H; try discriminate; try congruence.
Qed.

Lemma etag_eqb_eq a b : etag_eqb a b = true <-> a = b.
Proof.
  destruct a, b; cbn; rewrite ?N.eqb_eq, ?String.eqb_eq; split; intros H; try discriminate; try congruence.
Qed.

Lemma bytes_eqb_eq a b : bytes_eqb a b = true <-> a = b.
Proof.
  revert b; induction a as [|x a IH]; intros [|y b]; cbn; split; intros H; try discriminate; try congruence.
  - apply andb_true_iff in H as [H1 H2]. apply Byte.byte_dec_bl in H1. apply IH in H2. congruence.
  - injection H as <- <-. apply andb_true_iff. split; [now apply Byte.byte_dec_lb|now apply IH].
Qed.

(** Equality of values is reflexive when the field names of all structures inside differ. *)
Fixpoint fields_ok (v : sval) : Prop :=
  match v with
  | VStruct fs =>
      NoDup (map fst fs)
      /\ (fix go l := match l with [] => True | e :: l => fields_ok (snd e) /\ go l end) fs
  | VUnion _ w => fields_ok w
  | VList l | VSet l | VTuple l =>
      (fix go l := match l with [] => True | x :: l => fields_ok x /\ go l end) l
  | VMap l =>
      (fix go l := match l with [] => True | e :: l => fields_ok (fst e) /\ fields_ok (snd e) /\ go l end) l
  | _ => True
  end.

Lemma sval_eqb_refl v : fields_ok v -> sval_eqb v v = true.
Proof.
  induction v as [|n|s|b|fs IH|t|t v IH|l IH|l IH|l IH|l IH] using sval_ind'; cbn; intros F.
  - reflexivity.
  - now apply snum_eqb_eq.
  - apply String.eqb_refl.
  - now apply bytes_eqb_eq.
  - destruct F as [ND F]. rewrite N.eqb_refl. cbn. apply forallb_forall. intros [k v] I. cbn.
    rewrite (imap_get_In fs k v) by assumption.
    rewrite Forall_forall in IH. apply (IH (k, v)); [assumption|]. cbn.
    clear -F I. induction fs as [|e fs IH]; [easy|]. destruct F as [F1 F2]. destruct I as [->|I]; auto.
  - now apply etag_eqb_eq.
  - apply andb_true_iff. split; [now apply etag_eqb_eq|auto].
  - induction IH as [|x l H IH IHl]; [reflexivity|]. destruct F. apply andb_true_iff. auto.
  - induction IH as [|x l H IH IHl]; [reflexivity|]. destruct F. apply andb_true_iff. auto.
  - induction IH as [|x l H IH IHl]; [reflexivity|]. destruct F. apply andb_true_iff. auto.
  - induction IH as [|[k x] l [H1 H2] IH IHl]; [reflexivity|]. destruct F as [F1 [F2 F3]]. cbn in *.
    rewrite !andb_true_iff. auto.
Qed.
