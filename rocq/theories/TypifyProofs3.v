(** Proofs about typification of values: termination, numbers. *)
From Coq Require Import NArith ZArith List Bool String Ascii Strings.Byte Lia Arith.Wf_nat.
From Verif Require Import Base Ty Ids Val TypeSys Encode Decode DecodeShort Typify Spec SpecTypify.
From Verif Require Import CodecLemmas ValLemmas RoundTrip ReadLemmas Sound CodecProofs TypifyProofs TypifyProofs2.
Import ListNotations.
Local Open Scope N_scope.

(** ** Termination *)

(** Both calls give the same result, and they return. *)
Definition same {E A} (a b : outcome E A) : Prop := a = b /\ ndiv a.

Lemma same_bind {E A B} (o1 o2 : outcome E A) (f1 f2 : A -> outcome E B) :
  same o1 o2 -> (forall a, o1 = Ok a -> same (f1 a) (f2 a)) -> same (bind o1 f1) (bind o2 f2).
Proof.
  intros [<- N] F. unfold same, ndiv in *. destruct o1; cbn; auto; split; congruence.
Qed.

Lemma same_refl {E A} (a : outcome E A) : ndiv a -> same a a.
Proof. split; auto. Qed.

Section Agree.
Variables (rec1 rec2 : sval -> semid -> outcome typ_error sval).

Lemma same_zip l ids : (forall v r, In r ids -> same (rec1 v r) (rec2 v r)) ->
  same (typify_zip rec1 l ids) (typify_zip rec2 l ids).
Proof.
  revert ids; induction l as [|x l IH]; intros [|id ids] H; cbn; try (apply same_refl; discriminate).
  apply same_bind; [apply H; now left|]. intros y _. apply same_bind; [apply IH; intros; apply H; now right|].
  intros ys _. apply same_refl; discriminate.
Qed.

Lemma same_map_outcome l r : (forall v, same (rec1 v r) (rec2 v r)) ->
  same (map_outcome (fun x => rec1 x r) l) (map_outcome (fun x => rec2 x r) l).
Proof.
  intros H. induction l as [|x l IH]; cbn; [apply same_refl; discriminate|].
  apply same_bind; [apply H|]. intros y _. apply same_bind; [apply IH|]. intros ys _. apply same_refl; discriminate.
Qed.

Lemma same_set id r l new : (forall v, same (rec1 v r) (rec2 v r)) ->
  same (typify_set rec1 id r l new) (typify_set rec2 id r l new).
Proof.
  intros H. revert new. induction l as [|x l IH]; intros new; cbn; [apply same_refl; discriminate|].
  apply same_bind; [apply H|]. intros y _. destruct existsb; [apply same_refl; discriminate|apply IH].
Qed.

Lemma same_map id k r l new : (forall v, same (rec1 v k) (rec2 v k)) -> (forall v, same (rec1 v r) (rec2 v r)) ->
  same (typify_map rec1 id k r l new) (typify_map rec2 id k r l new).
Proof.
  intros H H'. revert new. induction l as [|[xk x] l IH]; intros new; cbn; [apply same_refl; discriminate|].
  apply same_bind; [apply H|]. intros yk _. apply same_bind; [apply H'|]. intros y _.
  destruct existsb; [apply same_refl; discriminate|apply IH].
Qed.

Lemma nf_ty_In {R} (fs : list (string * R)) n r : nf_ty_by_name fs n = Some r -> In r (map snd fs).
Proof.
  unfold nf_ty_by_name. destruct (find (fun f => (fst f =? n)%string) fs) as [[n' r']|] eqn:F; [|discriminate].
  intros H. injection H as <-. apply find_some in F as [F _]. now apply (in_map snd) in F.
Qed.

Lemma same_struct req l new : (forall v r, In r (map snd req) -> same (rec1 v r) (rec2 v r)) ->
  same (typify_struct rec1 req l new) (typify_struct rec2 req l new).
Proof.
  intros H. revert new. induction l as [|[n x] l IH]; intros new; cbn; [apply same_refl; discriminate|].
  destruct (nf_ty_by_name req n) as [r|] eqn:F; cbn; [|apply same_refl; discriminate].
  apply same_bind; [apply H; eapply nf_ty_In; eauto|]. intros y _. apply IH.
Qed.

Lemma same_mstruct req l new : (forall v r, In r (map snd req) -> same (rec1 v r) (rec2 v r)) ->
  same (typify_mstruct rec1 req l new) (typify_mstruct rec2 req l new).
Proof.
  intros H. revert new. induction l as [|[k x] l IH]; intros new; cbn; [apply same_refl; discriminate|].
  destruct k; try (apply same_refl; discriminate).
  destruct (name_ok s); [|apply same_refl; discriminate].
  destruct (nf_ty_by_name req s) as [r|] eqn:F; cbn; [|apply same_refl; discriminate].
  apply same_bind; [apply H; eapply nf_ty_In; eauto|]. intros y _. apply IH.
Qed.

Lemma uv_name_In {R} (vs : list (variant * R)) n r : uv_ty_by_name vs n = Some r -> In r (map snd vs).
Proof.
  unfold uv_ty_by_name, uv_by_name.
  destruct (find (fun e => (v_name (fst e) =? n)%string) vs) as [e|] eqn:F; [|discriminate].
  intros H. injection H as <-. apply find_some in F as [F _]. now apply in_map.
Qed.

Lemma uv_tag_In {R} (vs : list (variant * R)) n r : uv_ty_by_tag vs n = Some r -> In r (map snd vs).
Proof.
  unfold uv_ty_by_tag, uv_by_tag.
  destruct (find (fun e => v_tag (fst e) =? n) vs) as [e|] eqn:F; [|discriminate].
  intros H. injection H as <-. apply find_some in F as [F _]. now apply in_map.
Qed.

Ltac fin := match goal with |- Ok _ <> _ => discriminate | |- Err _ <> _ => discriminate | |- Panic <> _ => discriminate end.
Ltac ret := apply same_refl; unfold ndiv; fin.

Lemma same_ty id t v : (forall v r, In r (refs t) -> same (rec1 v r) (rec2 v r)) ->
  same (typify_ty rec1 id t v) (typify_ty rec2 id t v).
Proof.
  intros H. destruct t as [p| |vs|vs|fs|fs|r len|r sz|r sz|k r sz]; cbn [refs] in H.
  - assert (E : typify_ty rec1 id (TPrim p) v = typify_ty rec2 id (TPrim p) v) by reflexivity.
    rewrite E. apply same_refl. unfold typify_ty, ndiv.
    destruct v as [|n| | |l| | |l| |l|l]; try fin; try (destruct l); try (destruct n); try fin;
      repeat match goal with |- (if ?b then _ else _) <> _ => destruct b; try fin end.
  - apply same_refl. unfold typify_ty, ndiv. destruct v; try fin. destruct (slen s =? 1); fin.
  - apply same_refl. unfold typify_ty, ndiv. destruct v as [|n|s| | |t| | | | |]; try fin.
    + destruct n; try fin. destruct (n <? 256); [|fin]. destruct ev_name_by_tag; fin.
    + destruct (_ && _); [fin|]. destruct name_ok; [|fin]. destruct ev_has_name; fin.
    + destruct t; [destruct ev_tag_by_name; fin|destruct ev_name_by_tag; fin].
  - assert (S : forall w, same (typify_some rec1 vs w) (typify_some rec2 vs w)).
    { intros w. unfold typify_some. destruct (uv_ty_by_tag vs 1) as [r|] eqn:F; cbn [expect bind]; [|ret].
      apply same_bind; [apply H; eapply uv_tag_In; eauto|]. intros; ret. }
    unfold typify_ty. destruct v as [| | | | | |t w| | |l|]; try (destruct (is_option (TUnion vs)); [apply S|ret]).
    + destruct (is_option (TUnion vs)); ret.
    + destruct t as [n|n].
      * destruct (uv_ty_by_name vs n) eqn:F; [|ret].
        apply same_bind; [apply H; eapply uv_name_In; eauto|]. intros; ret.
      * destruct (uv_ty_by_tag vs n) eqn:F; [|ret].
        apply same_bind; [apply H; eapply uv_tag_In; eauto|]. intros; ret.
    + destruct l as [|a [|b [|? ?]]]; try (destruct (is_option (TUnion vs)); [apply S|ret]).
      destruct (is_option (TUnion vs)); [|ret].
      destruct (uv_ty_by_tag vs 1) as [r|] eqn:F; cbn [expect bind]; [|ret].
      destruct (_ && _); [ret|]. destruct sval_eqb; [|ret].
      apply same_bind; [apply H; eapply uv_tag_In; eauto|]. intros; ret.
  - unfold typify_ty.
    assert (NT : same match fs with [f] => let* w := rec1 v f in Ok (VTuple [w]) | _ => Err (TypeMismatch v (TTuple fs)) end
                      match fs with [f] => let* w := rec2 v f in Ok (VTuple [w]) | _ => Err (TypeMismatch v (TTuple fs)) end).
    { destruct fs as [|f [|? ?]]; try ret. apply same_bind; [apply H; now left|]. intros; ret. }
    destruct v as [| |s| | | | |l| |l|]; try exact NT.
    + destruct (_ && _); [ret|exact NT].
    + apply same_bind; [now apply same_zip|]. intros; ret.
    + destruct (negb _); [ret|]. apply same_bind; [now apply same_zip|]. intros; ret.
  - unfold typify_ty. destruct v; try ret.
    + destruct (negb _); [ret|]. apply same_bind; [now apply same_struct|]. intros; ret.
    + apply same_bind; [now apply same_mstruct|]. intros; ret.
  - unfold typify_ty. apply same_refl. unfold ndiv. destruct v; try fin.
    + destruct (len <? slen s); [fin|]. destruct (_ || _); fin.
    + destruct (is_byte_id r); [|fin]. destruct (len <? lenN b); fin.
    + destruct (len <? lenN l); fin.
  - unfold typify_ty. destruct v; try ret.
    + destruct (negb _); [ret|]. destruct (is_unicode_id r); [ret|]. destruct (is_byte_id r); [ret|].
      destruct (is_ascii s); ret.
    + destruct (negb _); [ret|]. destruct (is_byte_id r); ret.
    + destruct (negb _); [ret|]. apply same_bind; [|intros; ret]. apply same_map_outcome. intros; apply H; now left.
  - unfold typify_ty. destruct v; try ret.
    destruct (negb _); [ret|]. apply same_bind; [|intros; ret]. apply same_set. intros; apply H; now left.
  - unfold typify_ty. destruct v; try ret.
    destruct (negb _); [ret|]. apply same_bind; [|intros; ret].
    apply same_map; intros; apply H; [now left|right; now left].
Qed.
End Agree.

Lemma typify_stable sys rank : ranked sys rank ->
  forall n id v f1 f2, (rank id < n)%nat -> (rank id < f1)%nat -> (rank id < f2)%nat ->
  same (typify_val f1 sys v id) (typify_val f2 sys v id).
Proof.
  intros R. induction n as [|n IH]; intros id v f1 f2 L L1 L2; [lia|].
  destruct f1 as [|f1]; [lia|]. destruct f2 as [|f2]; [lia|]. cbn [typify_val].
  unfold type_of. destruct (N.eqb_spec id unit_id).
  - cbn [ok_or bind]. apply same_ty. intros w r [].
  - destruct (sys_find sys id) as [t|] eqn:F; cbn [ok_or bind]; [|apply same_refl; discriminate].
    apply same_ty. intros w r I. pose proof (R _ _ _ F I). apply IH; lia.
Qed.

Lemma typify_terminates sys v id : acyclic sys ->
  exists r, r <> Diverge /\ returns (fun fuel => typify fuel sys v id) r.
Proof.
  intros [rank R]. destruct (typify_stable sys rank R (S (rank id)) id v (S (rank id)) (S (rank id))) as [_ N]; try lia.
  exists (typify (S (rank id)) sys v id). split.
  - unfold typify. apply ndiv_bind; [exact N|]. discriminate.
  - exists (S (rank id)). intros fuel L.
    destruct (typify_stable sys rank R (S (rank id)) id v fuel (S (rank id))) as [E _]; try lia.
    unfold typify. now rewrite E.
Qed.

(** ** Numbers *)

Lemma slice_to_le k n w : (w <= k)%nat -> slice_to w (le k n) = Some (le w n).
Proof. apply slice_le. Qed.

Lemma uint_serialized c sys id p w n max_len : wf_sys sys -> sys_find sys id = Some (TPrim p) -> uint_width p = Some w ->
  w <= max_len ->
  exists b, strict_serialize_value max_len c sys (mkTyped id (VNum (Uint n))) = Ok b
    /\ returns (fun fuel => strict_deserialize_type fuel c sys id b) (Ok (mkTyped id (VNum (Uint (n mod 2 ^ (8 * w)))))).
Proof.
  intros W F U M. destruct (RoundTrip.uint_width_cases p w U) as (P & L & R).
  exists (le (N.to_nat w) n).
  assert (LL : lenN (le (N.to_nat w) n) = w) by (unfold lenN; rewrite le_length; lia).
  split.
  - apply serialize_ok; [|lia]. cbn [write_val]. rewrite (type_of_find _ _ _ W F). cbn [expect bind].
    rewrite P, slice_le by lia. reflexivity.
  - exists 1%nat. intros [|fuel] Lf; [lia|]. apply deserialize_all.
    + cbn [read_type]. rewrite F. cbn [ok_or bind read_ty]. rewrite R.
      unfold read_uint. rewrite <- (app_nil_r (le _ n)), take_app' by apply le_length. cbn [ok_or bind].
      rewrite unle_le_mod, N2Nat.id. reflexivity.
    + rewrite LL. unfold u32_max. lia.
Qed.

(** The number of [w] bytes in two's complement which equals [z] modulo 2^(8w). *)
Definition wrap (w : N) (z : Z) : Z :=
  let h := (2 ^ (8 * Z.of_N w - 1))%Z in ((z + h) mod (2 * h) - h)%Z.

Lemma wrap_spec w z : 1 <= w ->
  (- 2 ^ (8 * Z.of_N w - 1) <= wrap w z < 2 ^ (8 * Z.of_N w - 1))%Z
  /\ exists q, z = (wrap w z + q * 2 ^ (8 * Z.of_N w))%Z.
Proof.
  intros H. unfold wrap. set (h := (2 ^ (8 * Z.of_N w - 1))%Z).
  assert (0 < h)%Z by (apply Z.pow_pos_nonneg; lia).
  assert (E : (2 ^ (8 * Z.of_N w) = 2 * h)%Z).
  { unfold h. rewrite <- Z.pow_succ_r by lia. f_equal. lia. }
  pose proof (Z.mod_pos_bound (z + h) (2 * h) ltac:(lia)). split; [lia|].
  exists ((z + h) / (2 * h))%Z. rewrite E. pose proof (Z.div_mod (z + h) (2 * h) ltac:(lia)). lia.
Qed.

Lemma untwos_twos_wrap w z : 1 <= w -> untwos (N.to_nat w) (twos (N.to_nat w) z) = wrap w z.
Proof.
  intros H. destruct (wrap_spec w z H) as [B [q E]]. 
  rewrite <- (untwos_twos (N.to_nat w) (wrap w z)); [|lia|rewrite N_nat_Z; exact B].
  f_equal. unfold twos. f_equal. rewrite N_nat_Z. rewrite E at 1. apply Z.mod_add. apply Z.pow_nonzero; lia.
Qed.

Lemma int_serialized c sys id p w z max_len : wf_sys sys -> sys_find sys id = Some (TPrim p) -> int_width p = Some w ->
  w <= max_len ->
  exists b, strict_serialize_value max_len c sys (mkTyped id (VNum (Int z))) = Ok b
    /\ returns (fun fuel => strict_deserialize_type fuel c sys id b) (Ok (mkTyped id (VNum (Int (wrap w z))))).
Proof.
  intros W F U M. destruct (RoundTrip.int_width_cases p w U) as (P & L & R).
  exists (le (N.to_nat w) (twos (N.to_nat w) z)).
  assert (LL : lenN (le (N.to_nat w) (twos (N.to_nat w) z)) = w) by (unfold lenN; rewrite le_length; lia).
  split.
  - apply serialize_ok; [|lia]. cbn [write_val]. rewrite (type_of_find _ _ _ W F). cbn [expect bind].
    rewrite P, slice_le by lia. rewrite twos_narrow by lia. reflexivity.
  - exists 1%nat. intros [|fuel] Lf; [lia|]. apply deserialize_all.
    + cbn [read_type]. rewrite F. cbn [ok_or bind read_ty]. rewrite R. unfold read_int.
      rewrite <- (app_nil_r (le _ _)), read_uint_le by apply twos_bound. cbn [bind].
      rewrite untwos_twos_wrap by lia. reflexivity.
    + rewrite LL. unfold u32_max. lia.
Qed.
