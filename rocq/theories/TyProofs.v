(** Iteration over components of types and paths in types. *)
From Coq Require Import NArith List Bool String Lia.
From Verif Require Import Base Ty Ids TypeSys Spec SpecSys.
Import ListNotations.
Local Open Scope N_scope.

Lemma nth_error_map' {A B} (f : A -> B) l n : nth_error (map f l) n = option_map f (nth_error l n).
Proof. revert n; induction l as [|x l IH]; intros [|n]; cbn; auto. Qed.

Lemma ty_at_refs {R} (t : ty R) pos : ty_at t pos = nth_error (refs t) (N.to_nat pos).
Proof.
  assert (S1 : forall n, nth_error (@nil R) n = None) by (intros []; reflexivity).
  destruct t; cbn; unfold uv_ty_by_pos, nf_ty_by_pos, uf_ty_by_pos; rewrite ?nth_error_map', ?S1; auto.
  1-3: destruct (N.eqb_spec pos 0) as [->|N0]; [reflexivity|]; destruct (N.to_nat pos) as [|n] eqn:E; [lia|]; cbn; now rewrite S1.
  destruct (N.eqb_spec pos 0) as [->|N0]; [reflexivity|].
  destruct (N.eqb_spec pos 1) as [->|N1]; [reflexivity|].
  destruct (N.to_nat pos) as [|[|n]] eqn:E; [lia|lia|]; cbn; now rewrite S1.
Qed.

Lemma count_refs {R} (t : ty R) : count_type_refs t = lenN (refs t).
Proof. destruct t; cbn; unfold lenN; rewrite ?map_length; reflexivity. Qed.

Lemma skipn_nth {A} (l : list A) n x : nth_error l n = Some x -> skipn n l = x :: skipn (S n) l.
Proof. revert n; induction l as [|y l IH]; intros [|n] H; try discriminate; cbn in *; [congruence|auto]. Qed.

Lemma iter_run_ok {R} (dbg : bool) (t : ty R) (n : nat) : forall pos fuel : nat,
  (pos + n = List.length (refs t))%nat -> (n < fuel)%nat -> (pos + n <= if dbg then 254 else 255)%nat ->
  exists l, iter_run fuel dbg t (N.of_nat pos) = Ok l
    /\ map fst l = skipn pos (refs t) /\ map snd l = map (fun i => case_at t (N.of_nat i)) (seq pos n).
Proof.
  induction n as [|n IH]; intros pos [|fuel] L F B; try lia; cbn [iter_run]; unfold iter_next.
  - rewrite ty_at_refs, Nat2N.id. 
    replace (nth_error (refs t) pos) with (@None R) by (symmetry; apply nth_error_None; lia).
    exists []. rewrite skipn_all2 by lia. unfold u8_incr.
    destruct (N.eqb_spec (N.of_nat pos) 255); [destruct dbg; [lia|]|]; cbn; auto.
  - rewrite ty_at_refs, Nat2N.id. destruct (nth_error (refs t) pos) as [r|] eqn:E; [|apply nth_error_None in E; lia].
    unfold u8_incr. destruct (N.eqb_spec (N.of_nat pos) 255); [destruct dbg; lia|]. cbn [bind option_map].
    replace (N.of_nat pos + 1) with (N.of_nat (S pos)) by lia.
    destruct (IH (S pos) fuel) as (l & -> & A & C); try lia.
    eexists; split; [reflexivity|]. cbn [map fst snd seq]. rewrite A, C. split; [symmetry; now apply skipn_nth|reflexivity].
Qed.

Lemma type_refs_ok {R} (dbg : bool) (t : ty R) : lenN (refs t) <= (if dbg then 254 else 255) ->
  exists l, type_refs dbg t = Ok l /\ map fst l = refs t
    /\ map snd l = map (fun i => case_at t (N.of_nat i)) (seq 0 (List.length (refs t))).
Proof.
  intros B. unfold lenN in B. unfold type_refs.
  destruct (iter_run_ok dbg t (List.length (refs t)) 0 257) as (l & E & A & C); [reflexivity|destruct dbg; lia|destruct dbg; lia|].
  exists l. auto.
Qed.

Lemma type_refs_panic {R} (t : ty R) : lenN (refs t) = 255 -> type_refs true t = Panic.
Proof.
  intros B. unfold type_refs.
  assert (P : forall n pos fuel, (pos + n = 255)%nat -> (n < fuel)%nat -> iter_run fuel true t (N.of_nat pos) = Panic).
  { unfold lenN in B. induction n as [|n IH]; intros pos [|fuel] L F; try lia; cbn [iter_run]; unfold iter_next.
    - replace (N.of_nat pos) with 255 by lia. reflexivity.
    - rewrite ty_at_refs, Nat2N.id. destruct (nth_error (refs t) pos) as [r|] eqn:E; [|apply nth_error_None in E; lia].
      unfold u8_incr. destruct (N.eqb_spec (N.of_nat pos) 255); [lia|]. cbn [bind option_map].
      replace (N.of_nat pos + 1) with (N.of_nat (S pos)) by lia. rewrite IH by lia. reflexivity. }
  exact (P 255%nat 0%nat 257%nat eq_refl ltac:(lia)).
Qed.

(** ** Roles *)

Lemma number_nth {A B} (f : N -> A -> B) l n pos : nth_error (number f pos l) n
  = option_map (f (pos + N.of_nat n)) (nth_error l n).
Proof.
  revert n pos; induction l as [|x l IH]; intros [|n] pos; cbn; [reflexivity|reflexivity|now rewrite N.add_0_r|].
  rewrite IH. replace (pos + 1 + N.of_nat n) with (pos + N.of_nat (S n)) by lia. reflexivity.
Qed.

Lemma components_nth {R} (t : ty R) pos : (forall fs, t <> TTuple fs) ->
  nth_error (components t) (N.to_nat pos)
  = match ty_at t pos, case_at t pos with Some r, Some c => Some (r, c) | _, _ => None end.
Proof.
  intros NT. assert (S1 : forall A n, nth_error (@nil A) n = None) by (intros A []; reflexivity).
  destruct t; cbn [components ty_at case_at]; rewrite ?S1; auto.
  - rewrite number_nth, N2Nat.id. unfold uv_ty_by_pos, uv_name_by_pos. destruct nth_error; reflexivity.
  - now destruct (NT fs).
  - rewrite number_nth, N2Nat.id. unfold nf_ty_by_pos. destruct nth_error; reflexivity.
  - destruct (N.eqb_spec pos 0) as [->|]; [reflexivity|]. destruct (N.to_nat pos) as [|m] eqn:E; [lia|]. cbn. now rewrite S1.
  - destruct (N.eqb_spec pos 0) as [->|]; [reflexivity|]. destruct (N.to_nat pos) as [|m] eqn:E; [lia|]. cbn. now rewrite S1.
  - destruct (N.eqb_spec pos 0) as [->|]; [reflexivity|]. destruct (N.to_nat pos) as [|m] eqn:E; [lia|]. cbn. now rewrite S1.
  - destruct (N.eqb_spec pos 0) as [->|]; [reflexivity|]. destruct (N.eqb_spec pos 1) as [->|]; [reflexivity|].
    destruct (N.to_nat pos) as [|[|m]] eqn:E; [lia|lia|]. cbn. now rewrite S1.
Qed.

Lemma case_iff {R} (t : ty R) pos : (forall fs, t <> TTuple fs) ->
  (exists r, ty_at t pos = Some r) <-> (exists c, case_at t pos = Some c).
Proof.
  intros NT. destruct t; cbn [ty_at case_at]; unfold uv_ty_by_pos, uv_name_by_pos, nf_ty_by_pos; try tauto;
    try (split; intros [? H]; discriminate H).
  - destruct nth_error; cbn; split; intros [? H]; try discriminate; eauto.
  - now destruct (NT fs).
  - destruct nth_error; cbn; split; intros [? H]; try discriminate; eauto.
  - destruct (pos =? 0); split; intros [? H]; try discriminate; eauto.
  - destruct (pos =? 0); split; intros [? H]; try discriminate; eauto.
  - destruct (pos =? 0); split; intros [? H]; try discriminate; eauto.
  - destruct (pos =? 0); [split; intros [? H]; eauto|]. destruct (pos =? 1); split; intros [? H]; try discriminate; eauto.
Qed.

Lemma nth_error_ext' {A} (l1 l2 : list A) : (forall n, nth_error l1 n = nth_error l2 n) -> l1 = l2.
Proof.
  revert l2; induction l1 as [|x l1 IH]; intros [|y l2] H; auto.
  - specialize (H 0%nat). discriminate.
  - specialize (H 0%nat). discriminate.
  - f_equal; [specialize (H 0%nat); now injection H|]. apply IH. intros n. exact (H (S n)).
Qed.

Lemma type_refs_components {R} (dbg : bool) (t : ty R) : (forall fs, t <> TTuple fs) ->
  lenN (refs t) <= (if dbg then 254 else 255) ->
  type_refs dbg t = Ok (map (fun e => (fst e, Some (snd e))) (components t)).
Proof.
  intros NT B. destruct (type_refs_ok dbg t B) as (l & -> & A & C). f_equal. apply nth_error_ext'. intros n.
  rewrite nth_error_map'. pose proof (components_nth t (N.of_nat n) NT) as E. rewrite Nat2N.id in E. rewrite E. clear E.
  rewrite ty_at_refs, Nat2N.id, <- A, nth_error_map'.
  destruct (nth_error l n) as [[r c]|] eqn:E; cbn [option_map fst]; [|reflexivity].
  assert (X : c = case_at t (N.of_nat n)).
  { apply (map_nth_error snd) in E. rewrite C, nth_error_map' in E.
    destruct (nth_error (seq 0 (List.length (refs t))) n) as [k|] eqn:K; [|discriminate].
    assert (L : (n < List.length (refs t))%nat).
    { rewrite <- (seq_length (List.length (refs t)) 0). apply nth_error_Some. congruence. }
    pose proof (@seq_nth (List.length (refs t)) 0 n 0%nat L) as SN. apply (nth_error_nth _ _ 0%nat) in K.
    cbn in E, SN. rewrite SN in K. subst k. now injection E. }
  subst c. destruct (proj1 (case_iff t (N.of_nat n) NT)) as [c Q].
  { exists r. rewrite ty_at_refs, Nat2N.id, <- A, nth_error_map', E. reflexivity. }
  rewrite Q. reflexivity.
Qed.

Lemma case_tuple {R} (fs : list R) pos c : pos < lenN fs -> case_at (TTuple fs) pos <> Some c.
Proof. cbn. intros L. destruct (N.eqb_spec (lenN fs) pos); [lia|discriminate]. Qed.

(** ** Paths *)

Lemma find_In_by {A B} (f : A -> B) (eqb : B -> B -> bool) (E : forall a b, eqb a b = true <-> a = b) l x :
  NoDup (map f l) -> In x l -> find (fun y => eqb (f y) (f x)) l = Some x.
Proof.
  induction l as [|y l IH]; [intros _ []|]. cbn. intros ND I. inversion ND as [|? ? NI ND']; subst.
  destruct (eqb (f y) (f x)) eqn:Q.
  - apply E in Q. destruct I as [->|I]; [reflexivity|]. exfalso. apply NI. rewrite Q. now apply in_map.
  - destruct I as [->|I]; [|auto]. exfalso. assert (eqb (f x) (f x) = true) by now apply E. congruence.
Qed.

Lemma step_ref_spec {R} (t : ty R) s r : (forall fs, t <> TTuple fs) -> unambiguous t ->
  step_ref t s = Some r <-> step_to t s r.
Proof.
  intros NT U. split.
  - intros H. destruct t, s; try discriminate; cbn in H.
    + unfold uv_ty_by_tag, uv_by_tag in H. destruct find as [[v r']|] eqn:F in H; [|discriminate]. injection H as <-.
      apply find_some in F as [I E]. apply N.eqb_eq in E. cbn in *. subst pos. now apply ST_variant_no.
    + unfold uv_ty_by_name, uv_by_name in H. destruct find as [[v r']|] eqn:F in H; [|discriminate]. injection H as <-.
      apply find_some in F as [I E]. apply String.eqb_eq in E. cbn in *. subst name. now apply ST_variant.
    + unfold nf_ty_by_name in H. destruct find as [[n r']|] eqn:F in H; [|discriminate]. injection H as <-.
      apply find_some in F as [I E]. apply String.eqb_eq in E. cbn in *. subst name. now apply ST_field.
    + unfold nf_ty_by_pos in H. destruct nth_error as [f|] eqn:F in H; [|discriminate]. injection H as <-. now apply ST_field_no.
    + injection H as <-. constructor.
    + injection H as <-. constructor.
    + injection H as <-. constructor.
    + injection H as <-. constructor.
    + injection H as <-. constructor.
  - intros H. destruct H as [fs n r I|vs v r I|fs pos f E|vs v r I|fs pos r E| | | | | ]; cbn; auto; cbn in U.
    + unfold nf_ty_by_name. pose proof (find_In_by fst String.eqb String.eqb_eq fs (n, r) U I) as Q. cbn in Q.
      now rewrite Q.
    + unfold uv_ty_by_name, uv_by_name.
      pose proof (find_In_by (fun v => v_name (fst v)) String.eqb String.eqb_eq vs (v, r) (proj1 U) I) as Q. cbn in Q.
      now rewrite Q.
    + unfold nf_ty_by_pos. now rewrite E.
    + unfold uv_ty_by_tag, uv_by_tag.
      pose proof (find_In_by (fun v => v_tag (fst v)) N.eqb N.eqb_eq vs (v, r) (proj2 U) I) as Q. cbn in Q.
      now rewrite Q.
    + now destruct (NT fs).
Qed.

(** What the lookup by path does: each step is made from the starting type, the first one is the last to be
    made. *)
Lemma at_path_loop_spec {R} as_ty (self : ty R) rp : forall t so_far,
  at_path_loop as_ty self rp t so_far
  = match find (fun i => match step_ref self (nth i rp SIndex) with Some r => match as_ty r with Some _ => false | None => true end | None => true end)
          (seq 0 (List.length rp)) with
    | Some i => Err (so_far ++ firstn (S i) rp)
    | None => match rev rp with
              | [] => Ok t
              | s :: _ => match step_ref self s with Some r => match as_ty r with Some t' => Ok t' | None => Panic end | None => Panic end
              end
    end.
Proof.
  induction rp as [|s rp IH]; intros t so_far; [reflexivity|].
  cbn [at_path_loop List.length seq find nth].
  destruct (step_ref self s) as [r|] eqn:E; [|reflexivity].
  destruct (as_ty r) as [t'|] eqn:A; [|reflexivity].
  rewrite IH. rewrite <- seq_shift.
  assert (FM : forall f l, find f (map S l) = option_map S (find (fun i => f (S i)) l)).
  { intros f l. induction l as [|x l IHl]; [reflexivity|]. cbn. destruct (f (S x)); [reflexivity|exact IHl]. }
  rewrite FM. cbn [nth]. match goal with |- match ?x with _ => _ end = _ => destruct x as [i|] end; cbn [option_map].
  - rewrite <- app_assoc. reflexivity.
  - cbn [rev]. destruct (rev rp) as [|x l]; cbn; [now rewrite E, A|reflexivity].
Qed.
