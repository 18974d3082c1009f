(** Proofs about type trees and layouts: existence of trees, nesting of layout expressions. *)
From Coq Require Import Arith NArith List Bool String Lia.
From Verif Require Import Base Ty Ids TypeSys LibCodec Build Layout Spec SpecSys SpecLayout CodecLemmas TyProofs ExtractProofs LayoutProofs.
Import ListNotations.
Local Open Scope string_scope.
Local Open Scope list_scope.
Local Open Scope N_scope.

(** ** Trees exist *)

Section Exist.
Variable sys : symbolic_sys.
Notation types := (ss_types sys).
Hypothesis ORD : ordered types.
Hypothesis COMPLETE : complete types.
Hypothesis WF : consistent types.

Lemma components_refs {R} (t : ty R) : map fst (components t) = refs t.
Proof.
  assert (N : forall A B C (f : N -> A -> B * C) (g : A -> B), (forall p a, fst (f p a) = g a) ->
            forall l pos, map fst (number f pos l) = map g l).
  { intros A B C f g E l. induction l; intros; cbn; [reflexivity|]. now rewrite E, IHl. }
  destruct t; cbn; try reflexivity.
  - now rewrite N with (g := snd).
  - rewrite N with (g := fun x => x); [now rewrite map_id|reflexivity].
  - now rewrite N with (g := snd).
Qed.

Lemma restricted_dec fs : (exists a1 a2 min max, restricted_string types fs a1 a2 min max)
  \/ forall a1 a2 min max, ~ restricted_string types fs a1 a2 min max.
Proof.
  destruct fs as [|a [|b [|]]]; try (right; intros a1 a2 mi ma R; inversion R; discriminate).
  destruct (sys_find types a) as [ta|] eqn:A;
    [|right; intros a1 a2 mi ma R; inversion R as [? ? ? ? ? Q]; injection Q as <- <-; congruence].
  destruct (chars_type ta) as [a1|] eqn:CA;
    [|right; intros a1 a2 mi ma R; inversion R as [? ? ? ? ? Q]; injection Q as <- <-; congruence].
  destruct (sys_find types b) as [tb|] eqn:B;
    [|right; intros ? a2 mi ma R; inversion R as [? ? ? ? ? Q]; injection Q as <- <-; congruence].
  destruct tb as [| | | | | | |r [mi ma]| |];
    try (right; intros ? a2 ? ? R; inversion R as [? ? ? ? ? Q]; injection Q as <- <-; congruence).
  destruct (sys_find types r) as [tr|] eqn:TR.
  2:{ right; intros ? a2 ? ? R; inversion R as [? ? ? ? ? Q]; injection Q as <- <-. congruence. }
  destruct (chars_type tr) as [a2|] eqn:CR.
  2:{ right; intros ? a2 ? ? R; inversion R as [? ? ? ? ? Q]; injection Q as <- <-. congruence. }
  left. exists a1, a2, mi, ma. econstructor; eauto.
Qed.

Lemma laid_exists rank : ranked types rank -> forall n id, (rank id < n)%nat -> In id (map fst types) ->
  forall role outer, exists tr, laid sys id role outer tr.
Proof.
  intros RK. induction n as [|n IH]; intros id L K role outer; [lia|].
  apply in_map_iff in K. destruct K as [[id' t] [E I]]. cbn in E. subst id'.
  assert (SUB : forall r, In r (refs t) -> forall role outer, exists tr, laid sys r role outer tr).
  { intros r J. apply IH; [|eapply COMPLETE; eauto].
    assert (rank r < rank id)%nat; [|lia]. eapply RK; [|exact J]. now apply find_In. }
  assert (NODE : plain types t -> exists tr, laid sys id role outer tr).
  { intros P.
    assert (F : exists trs, Forall2 (fun c tr => laid sys (fst c) (known_role (snd c)) [] tr) (components t) trs).
    { assert (S' : forall c, In c (components t) -> In (fst c) (refs t)).
      { intros c J. rewrite <- components_refs. now apply in_map. }
      revert S'. generalize (components t) as cs. induction cs as [|c cs IHc]; intros S'; [exists []; constructor|].
      destruct (SUB (fst c) (S' c (or_introl eq_refl)) (known_role (snd c)) []) as [tr T].
      destruct IHc as [trs F]; [intros; apply S'; now right|]. exists (tr :: trs). now constructor. }
    destruct F as [trs F]. eexists. eapply La_node; eauto. }
  pose proof I as T. rewrite <- find_In in T by exact ORD.
  destruct t as [p| |vs|vs|fs|fs|r len|r s|r s|k r s]; try (apply NODE; exact Logic.I).
  - destruct (as_some (TUnion vs)) as [r|] eqn:A.
    + apply as_some_iff in A. destruct (SUB r) with (role := Some (CUnionVariant 1 "some")) (outer := outer ++ [NOption]) as [tr LA].
      { destruct A as [r0 [= ->]]. cbn. auto. }
      exists tr. eapply La_option; eauto.
    + apply NODE. intros r O. apply as_some_iff in O. congruence.
  - destruct (restricted_dec fs) as [(a1 & a2 & mi & ma & R)|NR].
    + destruct R as [first rest r t1 t2 Q F1 C1 F2 F3 C2]. subst fs. eexists.
      destruct (WF _ _ I) as [_ W]. cbn in W. rewrite F2 in W. cbn in W.
      rewrite find_In in F1, F2, F3 by exact ORD.
      destruct (WF _ _ F2) as [[W2 W3] _]. cbn in W2, W3.
      eapply La_string; eauto; unfold u64_max; lia.
    + destruct fs as [|r [|r' fs]].
      * apply NODE. split; [discriminate|exact NR].
      * destruct (SUB r (or_introl eq_refl) role (outer ++ [NNewType (lookup (ss_symbols sys) id)])) as [tr LA].
        exists tr. eapply La_newtype; eauto.
      * apply NODE. split; [|exact NR]. unfold lenN. cbn. lia.
  - destruct (is_byte_id r) eqn:B.
    + apply byte_item_iff in B. eexists. eapply La_byte_array; eauto.
    + apply NODE. now apply byte_item_false.
  - assert (K : In r (map fst types)) by (eapply COMPLETE; [exact I|cbn; auto]).
    apply in_map_iff in K. destruct K as [[r' rt] [E J]]. cbn in E. subst r'.
    destruct (chars_type rt) as [a|] eqn:C; [eexists; eapply La_chars; eauto|].
    assert (D : rt = TUnicode \/ rt = TPrim P_U8 \/ rt = TPrim P_BYTE \/ (rt <> TUnicode /\ rt <> TPrim P_U8 /\ rt <> TPrim P_BYTE)).
    { destruct rt as [c| | | | | | | | |]; auto; try (right; right; right; repeat split; discriminate).
      destruct (N.eq_dec c P_U8) as [->|]; auto. destruct (N.eq_dec c P_BYTE) as [->|]; auto.
      right; right; right. repeat split; congruence. }
    destruct D as [-> | [-> | [-> | (N1 & N2 & N3)]]].
    + eexists; eapply La_text; eauto.
    + eexists; eapply La_bytes; eauto.
    + eexists; eapply La_bytes; eauto.
    + apply NODE. exists rt. auto.
Qed.

End Exist.

(** ** Layout expressions *)

Definition add (e root : vesper) : vesper :=
  mkVesper (x_subject root) (x_pred root) (x_attrs root) (x_content root ++ [e]) (x_comment root).

(** The expression at a path, and the change of it. *)
Fixpoint expr_at (root : vesper) (path : list nat) : option vesper :=
  match path with
  | [] => Some root
  | i :: path => match nth_error (x_content root) i with Some c => expr_at c path | None => None end
  end.
Fixpoint put (root : vesper) (path : list nat) (e : vesper) : vesper :=
  match path with
  | [] => e
  | i :: path =>
      match nth_error (x_content root) i with
      | Some c => mkVesper (x_subject root) (x_pred root) (x_attrs root)
                    (firstn i (x_content root) ++ put c path e :: skipn (S i) (x_content root)) (x_comment root)
      | None => root
      end
  end.

Lemma push_at_put path e : forall root sub, expr_at root path = Some sub ->
  push_at path e root = Some (put root path (add e sub), List.length (x_content sub)).
Proof.
  induction path as [|i path IH]; intros root sub E; cbn in *; [now injection E as ->|].
  destruct (nth_error (x_content root) i) as [c|]; [|discriminate]. now rewrite (IH _ _ E).
Qed.

Lemma nth_put {A} (l : list A) i x : (i < List.length l)%nat -> nth_error (firstn i l ++ x :: skipn (S i) l) i = Some x.
Proof. intros L. rewrite nth_error_app2; rewrite firstn_length_le by lia; [now rewrite Nat.sub_diag|lia]. Qed.

Lemma expr_at_put path e : forall root sub, expr_at root path = Some sub -> expr_at (put root path e) path = Some e.
Proof.
  induction path as [|i path IH]; intros root sub E; cbn [put expr_at] in *; [reflexivity|].
  destruct (nth_error (x_content root) i) as [c|] eqn:N; [|discriminate]. cbn [x_content].
  rewrite nth_put by (apply nth_error_Some; congruence). eauto.
Qed.

Lemma put_put path e e' : forall root sub, expr_at root path = Some sub -> put (put root path e) path e' = put root path e'.
Proof.
  induction path as [|i path IH]; intros root sub E; cbn [put expr_at] in *; [reflexivity|].
  destruct (nth_error (x_content root) i) as [c|] eqn:N; [|discriminate]. cbn [x_content x_subject x_pred x_attrs x_comment].
  assert (L : (i < List.length (x_content root))%nat) by (apply nth_error_Some; congruence).
  rewrite nth_put by exact L. rewrite (IH _ _ E). f_equal. f_equal.
  - rewrite firstn_app, firstn_length_le, firstn_firstn, Nat.min_id, Nat.sub_diag by lia. cbn. now rewrite app_nil_r.
  - f_equal. rewrite skipn_app, firstn_length_le by lia. rewrite skipn_all2 by (rewrite firstn_length_le; lia).
    replace (S i - i)%nat with 1%nat by lia. reflexivity.
Qed.

Lemma expr_at_app p q : forall root, expr_at root (p ++ q) = match expr_at root p with Some e => expr_at e q | None => None end.
Proof.
  induction p as [|i p IH]; intros root; cbn; [reflexivity|]. destruct (nth_error (x_content root) i); [apply IH|reflexivity].
Qed.

Lemma put_app p q e : forall root sub, expr_at root p = Some sub -> put root (p ++ q) e = put root p (put sub q e).
Proof.
  induction p as [|i p IH]; intros root sub E; cbn in *; [now injection E as ->|].
  destruct (nth_error (x_content root) i) as [c|]; [|discriminate]. now rewrite (IH _ _ E).
Qed.

Lemma put_last sub e e' : put (add e sub) [List.length (x_content sub)] e' = add e' sub.
Proof.
  unfold add. cbn [put x_content x_subject x_pred x_attrs x_comment].
  rewrite nth_error_app2, Nat.sub_diag by lia. cbn [nth_error]. f_equal.
  rewrite firstn_app, firstn_all2, Nat.sub_diag by lia. cbn [firstn]. rewrite app_nil_r. f_equal. f_equal.
  apply skipn_all2. rewrite app_length. cbn. lia.
Qed.

(** The path after going up to the depth. *)
Definition cut (depth : N) (path : list nat) : list nat :=
  if depth <=? lenN path then firstn (N.to_nat (depth - 1)) path else path.

Lemma vesper_step dbg i items root path pp parent :
  0 < i_depth i -> cut (i_depth i) path = pp -> expr_at root pp = Some parent ->
  vesper_loop dbg (i :: items) (Some root) path
  = vesper_loop dbg items (Some (put root pp (add (info_vesper i) parent))) (pp ++ [List.length (x_content parent)]).
Proof.
  intros D C E. cbn [vesper_loop]. destruct (i_depth i) as [|d] eqn:DD; [lia|].
  unfold cut in C. destruct path as [|p path]; rewrite C; cbn [expect bind]; rewrite (push_at_put _ _ _ _ E); reflexivity.
Qed.

Definition with_content (e : vesper) (l : list vesper) : vesper :=
  mkVesper (x_subject e) (x_pred e) (x_attrs e) l (x_comment e).

Lemma info_content i : x_content (info_vesper i) = [].
Proof.
  unfold info_vesper. destruct (vesper_subject (i_fqn i) (i_item i)) as [[s a] c].
  destruct (fold_left _ _ _) as [p n]. reflexivity.
Qed.

Lemma vesper_tree dbg : forall tr clean first base pp root parent path items,
  options_first clean first tr ->
  let D := match tr with Tree _ _ _ ws _ => base + options ws end in
  0 < base -> lenN pp + 1 <= D -> (clean = true -> lenN pp + 1 = base) ->
  cut D path = pp -> expr_at root pp = Some parent ->
  exists rest, vesper_loop dbg (items_of base tr ++ items) (Some root) path
  = vesper_loop dbg items (Some (put root pp (add (drawn tr) parent))) (pp ++ List.length (x_content parent) :: rest).
Proof.
  induction tr as [t n role ws trs IH] using tree_ind'.
  intros clean first base pp root parent path items O D B LE EX C E. subst D. cbn [options_first] in O. destruct O as [_ O].
  cbn [items_of]. rewrite <- app_comm_cons.
  rewrite (vesper_step dbg _ _ root path pp parent) by (cbn [i_depth]; solve [lia|exact C|exact E]).
  set (e0 := info_vesper _).
  assert (E0 : e0 = shown t n role ws) by reflexivity. clearbody e0.
  set (k := List.length (x_content parent)).
  set (D := base + options ws) in *. set (clean' := clean && (options ws =? 0)) in *.
  assert (EX' : clean' = true -> lenN pp + 1 = D).
  { unfold clean'. intros H. apply andb_true_iff in H. destruct H as [H1 H2]. apply N.eqb_eq in H2. unfold D. rewrite H2. rewrite EX; auto. lia. }
  (* the components *)
  assert (KIDS : forall trs done first path,
    Forall (fun tr => forall clean first base pp root parent path items,
       options_first clean first tr ->
       let D := match tr with Tree _ _ _ ws _ => base + options ws end in
       0 < base -> lenN pp + 1 <= D -> (clean = true -> lenN pp + 1 = base) ->
       cut D path = pp -> expr_at root pp = Some parent ->
       exists rest, vesper_loop dbg (items_of base tr ++ items) (Some root) path
       = vesper_loop dbg items (Some (put root pp (add (drawn tr) parent))) (pp ++ List.length (x_content parent) :: rest)) trs ->
    (fix go (first : bool) (trs : list tree) : Prop :=
            match trs with
            | [] => True
            | tr :: trs => options_first clean' first tr /\ go false trs
            end) first trs ->
    (first = true -> path = pp ++ [k]) ->
    (first = false -> exists j rest, path = pp ++ k :: j :: rest) ->
    exists rest, vesper_loop dbg (flat_map (items_of (D + 1)) trs ++ items)
       (Some (put root pp (add (with_content e0 done) parent))) path
     = vesper_loop dbg items (Some (put root pp (add (with_content e0 (done ++ map drawn trs)) parent))) (pp ++ k :: rest)).
  { clear trs IH O. induction trs as [|tr trs IHl]; intros done fst path' F O P1 P2.
    - cbn [flat_map app map]. rewrite app_nil_r. destruct fst.
      + exists []. now rewrite P1.
      + destruct P2 as (j & rest & ->); [reflexivity|]. exists (j :: rest). reflexivity.
    - apply Forall_cons_iff in F. destruct F as [F1 F2]. destruct O as [O1 O2]. cbn [flat_map]. rewrite <- app_assoc.
      specialize (F1 clean' fst (D + 1) (pp ++ [k]) (put root pp (add (with_content e0 done) parent)) (with_content e0 done) path'
                     (flat_map (items_of (D + 1)) trs ++ items) O1).
      destruct F1 as [rest F1].
      + lia.
      + destruct tr. unfold lenN in *. rewrite app_length. cbn [List.length]. lia.
      + intros H. apply EX' in H. unfold lenN in *. rewrite app_length. cbn [List.length]. lia.
      + destruct tr as [t' n' role' ws' trs']. unfold cut. destruct fst.
        * rewrite P1 by reflexivity. destruct (N.leb_spec (D + 1 + options ws') (lenN (pp ++ [k]))) as [X|X]; [|reflexivity].
          exfalso. revert X. unfold lenN in *. rewrite app_length. cbn [List.length]. lia.
        * destruct P2 as (j & rest & ->); [reflexivity|]. cbn [options_first] in O1. destruct O1 as [[O1|O1] _]; [discriminate|].
          apply andb_true_iff in O1. destruct O1 as [O1 O3]. apply N.eqb_eq in O3. rewrite O3. apply EX' in O1.
          unfold lenN in *. destruct (N.leb_spec (D + 1 + 0) (N.of_nat (List.length (pp ++ k :: j :: rest)))) as [X|X].
          -- replace (N.to_nat (D + 1 + 0 - 1)) with (List.length pp + 1)%nat by lia.
             replace (pp ++ k :: j :: rest) with ((pp ++ [k]) ++ j :: rest) by (now rewrite <- app_assoc).
             rewrite firstn_app, firstn_all2, app_length by (rewrite app_length; cbn; lia). cbn [List.length].
             replace (List.length pp + 1 - (List.length pp + 1))%nat with 0%nat by lia. cbn. now rewrite app_nil_r.
          -- exfalso. revert X. rewrite app_length. cbn [List.length]. lia.
      + rewrite expr_at_app, (expr_at_put _ _ _ _ E). unfold add. cbn. fold k.
        rewrite nth_error_app2; unfold k; rewrite ?Nat.sub_diag by lia; reflexivity || lia.
      + rewrite F1. rewrite (put_app _ _ _ _ _ (expr_at_put _ _ _ _ E)). unfold k at 1. rewrite put_last. rewrite (put_put _ _ _ _ _ E).
        specialize (IHl (done ++ [drawn tr]) false (pp ++ k :: List.length (x_content (with_content e0 done)) :: rest) F2 O2).
        destruct IHl as [rest' IHl]; [discriminate|intros _; eexists; eexists; reflexivity|].
        exists rest'. rewrite <- app_assoc in IHl. cbn [map app] in *. rewrite <- IHl. f_equal.
        rewrite <- app_assoc. reflexivity. }
  destruct (KIDS trs [] true (pp ++ [k]) IH O) as [rest K]; [reflexivity|discriminate|].
  exists rest. cbn [app] in K.
  replace (with_content e0 []) with e0 in K.
  2:{ rewrite E0. unfold shown, with_content. pose proof (info_content (mkInfo 0 t n role ws)) as Q. destruct (info_vesper _). cbn in *. now rewrite Q. }
  rewrite K. cbn [drawn]. rewrite <- E0. reflexivity.
Qed.

Lemma to_vesper_tree dbg tr : options_first true true tr ->
  match tr with Tree _ _ _ ws _ => options ws = 0 end -> to_vesper dbg (items_of 0 tr) = Ok (drawn tr).
Proof.
  destruct tr as [t n role ws trs]. intros [_ O] Z. rewrite Z in O. cbn [andb N.eqb] in O.
  unfold to_vesper. cbn [items_of]. rewrite Z. cbn [vesper_loop i_depth N.add].
  set (e0 := info_vesper _).
  assert (E0 : e0 = shown t n role ws) by reflexivity.
  assert (C0 : x_content e0 = []) by apply info_content. clearbody e0.
  assert (KIDS : forall trs done first path,
    (fix go (first : bool) (trs : list tree) : Prop :=
            match trs with
            | [] => True
            | tr :: trs => options_first true first tr /\ go false trs
            end) first trs ->
    (first = true -> path = []) -> (first = false -> exists j rest, path = j :: rest) ->
    exists path', vesper_loop dbg (flat_map (items_of 1) trs ++ []) (Some (with_content e0 done)) path
     = vesper_loop dbg [] (Some (with_content e0 (done ++ map drawn trs))) path').
  { clear trs O. induction trs as [|tr trs IHl]; intros done first path O P1 P2.
    - cbn [flat_map app map]. rewrite app_nil_r. eexists. reflexivity.
    - destruct O as [O1 O2]. cbn [flat_map]. rewrite <- app_assoc.
      destruct (vesper_tree dbg tr true first 1 [] (with_content e0 done) (with_content e0 done) path
                  (flat_map (items_of 1) trs ++ []) O1) as [rest V].
      + lia.
      + destruct tr. unfold lenN. cbn [List.length]. lia.
      + reflexivity.
      + destruct tr as [t' n' role' ws' trs']. unfold cut. destruct first.
        * rewrite P1 by reflexivity. destruct (1 + options ws' <=? lenN []); [now rewrite firstn_nil|reflexivity].
        * destruct P2 as (j & rest & ->); [reflexivity|]. cbn [options_first] in O1. destruct O1 as [[O1|O1] _]; [discriminate|].
          apply andb_true_iff in O1. destruct O1 as [_ O3]. apply N.eqb_eq in O3. rewrite O3.
          destruct (N.leb_spec (1 + 0) (lenN (j :: rest))) as [X|X]; [reflexivity|].
          exfalso. revert X. unfold lenN. cbn [List.length]. lia.
      + reflexivity.
      + rewrite V. cbn [put app].
        destruct (IHl (done ++ [drawn tr]) false (List.length (x_content (with_content e0 done)) :: rest) O2) as [p' I];
          [discriminate|intros _; eexists; eexists; reflexivity|].
        exists p'. rewrite <- app_assoc in I. cbn [map app] in *. rewrite <- I. reflexivity. }
  destruct (KIDS trs [] true [] O) as [p' K]; [reflexivity|discriminate|]. rewrite app_nil_r in K.
  replace (with_content e0 []) with e0 in K by (destruct e0; cbn in *; now subst).
  rewrite K. cbn [vesper_loop bind expect app drawn]. rewrite <- E0. reflexivity.
Qed.

Lemma no_options_first : forall tr first, no_options tr -> options_first true first tr.
Proof.
  induction tr as [t n role ws trs IH] using tree_ind'. intros first [O1 O2]. cbn [options_first]. rewrite O1. cbn [andb N.eqb].
  split; [now right|]. generalize true at 2. revert O2. induction IH as [|tr trs H IH IHl]; intros O2 b; [exact I|].
  destruct O2 as [O2 O3]. split; [now apply H|]. now apply IHl.
Qed.

(** ** Roles *)

Definition tree_name (tr : tree) := match tr with Tree _ n _ _ _ => n end.

Lemma laid_wrappers sys id role outer tr : laid sys id role outer tr ->
  exists ws, tree_wrappers tr = outer ++ ws /\ (options ws = 0 -> tree_role tr = role).
Proof.
  apply (laid_ind' sys (fun _ role outer tr => exists ws, tree_wrappers tr = outer ++ ws /\ (options ws = 0 -> tree_role tr = role)));
    clear; intros; cbn [tree_wrappers tree_role];
    try (eexists; split; [reflexivity|reflexivity]).
  - destruct H1 as (ws & -> & R). exists (NNewType (lookup (ss_symbols sys) id) :: ws). rewrite <- app_assoc. split; [reflexivity|exact R].
  - destruct H2 as (ws & -> & R). exists (NOption :: ws). rewrite <- app_assoc. split; [reflexivity|].
    unfold options, lenN. cbn. lia.
  - exists []. now rewrite app_nil_r.
  - exists []. now rewrite app_nil_r.
Qed.

Lemma drawn_subject tr : x_subject (drawn tr) = fst (fst (vesper_subject (tree_name tr) (tree_role tr))).
Proof.
  destruct tr as [t n role ws trs]. cbn [drawn x_subject tree_name tree_role]. unfold shown, info_vesper. cbn [i_fqn i_item].
  destruct (vesper_subject n role) as [[s a] c]. destruct (fold_left _ _ _) as [p l]. reflexivity.
Qed.

Lemma drawn_attrs tr : exists a b, x_attrs (drawn tr) = a ++ b
  ++ match tree_role tr with Some (CUnionVariant pos _) => [ATag pos] | _ => [] end.
Proof.
  destruct tr as [t n role ws trs]. cbn [drawn x_attrs tree_role]. unfold shown, info_vesper. cbn [i_fqn i_item i_ty i_nested].
  destruct (vesper_subject n role) as [[s a] c]. destruct (fold_left _ _ _) as [p l]. cbn [x_attrs].
  exists (a ++ vesper_type_attrs t ++ l), (match t with TEnum vs => map (fun v => AEnumVariant (v_tag v) (v_name v)) vs | _ => [] end).
  now rewrite <- !app_assoc.
Qed.

Lemma drawn_enum vs n role ws trs : exists a b, x_attrs (drawn (Tree (TEnum vs) n role ws trs)) =
  a ++ map (fun v => AEnumVariant (v_tag v) (v_name v)) vs ++ b.
Proof.
  cbn [drawn x_attrs tree_role]. unfold shown, info_vesper. cbn [i_fqn i_item i_ty i_nested].
  destruct (vesper_subject n role) as [[s a] c]. destruct (fold_left _ _ _) as [p l]. cbn [x_attrs vesper_type_attrs app].
  exists (a ++ l), (match role with Some (CUnionVariant pos _) => [ATag pos] | _ => [] end). now rewrite <- !app_assoc.
Qed.

Lemma drawn_content tr : x_content (drawn tr) = match tr with Tree _ _ _ _ trs => map drawn trs end.
Proof. now destruct tr. Qed.

Lemma laid_node sys id role outer tr : laid sys id role outer tr ->
  match tr with
  | Tree (TStruct _ as t) _ _ _ trs | Tree (TUnion _ as t) _ _ _ trs =>
      Forall2 (fun c tr => laid sys (fst c) (known_role (snd c)) [] tr) (components t) trs
  | _ => True
  end.
Proof.
  apply (laid_ind' sys (fun _ _ _ tr => match tr with
    | Tree (TStruct _ as t) _ _ _ trs | Tree (TUnion _ as t) _ _ _ trs =>
      Forall2 (fun c tr => laid sys (fst c) (known_role (snd c)) [] tr) (components t) trs
    | _ => True
    end)); clear; intros; try assumption; try exact I.
  assert (F : Forall2 (fun c tr => laid sys (fst c) (known_role (snd c)) [] tr) (components t) trees).
  { clear -H1. induction H1 as [|c tr cs trs [L _]]; constructor; auto. }
  destruct t; try exact I; exact F.
Qed.

(** Tags are shown for variants only. *)
Lemma subject_no_tag n role s a c tag : vesper_subject n role = (s, a, c) -> ~ In (ATag tag) a.
Proof.
  unfold vesper_subject. intros E.
  repeat match type of E with
  | context [match ?x with _ => _ end] => destruct x
  end; injection E as <- <- <-; cbn; intuition discriminate.
Qed.

Lemma nested_no_tag ws : forall p l p' l' tag,
  fold_left (fun '(p, l) n => let (p, l') := vesper_nested p n in (p, l ++ l')) ws (p, l) = (p', l') ->
  ~ In (ATag tag) l -> ~ In (ATag tag) l'.
Proof.
  induction ws as [|w ws IH]; intros p l p' l' tag E N; [now injection E as <- <-|].
  cbn [fold_left] in E. destruct (vesper_nested p w) as [p1 l1] eqn:V. apply (IH _ _ _ _ tag) in E; [exact E|].
  rewrite in_app_iff. intros [H|H]; [now apply N|]. revert V H. unfold vesper_nested.
  destruct w as [q| | |q| |q q' s]; try destruct q; try destruct q'; intros [= _ <-]; cbn; intuition discriminate.
Qed.

Lemma drawn_tag tr tag : In (ATag tag) (x_attrs (drawn tr)) <-> exists name, tree_role tr = Some (CUnionVariant tag name).
Proof.
  destruct tr as [t n role ws trs]. cbn [drawn x_attrs tree_role]. unfold shown, info_vesper. cbn [i_fqn i_item i_ty i_nested].
  destruct (vesper_subject n role) as [[s a] c] eqn:S.
  match goal with |- context [fold_left ?f ws ?x] => destruct (fold_left f ws x) as [p l] eqn:F end. cbn [x_attrs].
  rewrite !in_app_iff. split.
  - intros [H|[H|[H|[H|H]]]].
    + now apply (subject_no_tag _ _ _ _ _ _ S) in H.
    + unfold vesper_type_attrs in H. destruct t; cbn in H; try destruct (_ =? _); cbn in H; intuition discriminate.
    + now apply (nested_no_tag _ _ _ _ _ tag F) in H.
    + destruct t; cbn in H; try tauto. apply in_map_iff in H. destruct H as (v & H & _). discriminate.
    + destruct role as [[]|]; cbn in H; try tauto. destruct H as [[= ->]|[]]. eauto.
  - intros [name ->]. right; right; right; right. now left.
Qed.
