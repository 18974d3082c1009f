(** The expressions shown for the items of a layout: all of them, in their order. *)
From Coq Require Import Arith NArith List Bool String Lia.
From Verif Require Import Base Ty Ids Val TypeSys LibCodec Build Layout Spec SpecSys SpecLayout LayoutProofs LayoutProofs2.
Import ListNotations.
Local Open Scope string_scope.
Local Open Scope list_scope.
Local Open Scope N_scope.

(** The path goes through the last expressions. *)
Fixpoint rightmost (root : vesper) (path : list nat) : Prop :=
  match path with
  | [] => True
  | i :: path => exists l c, x_content root = l ++ [c] /\ i = List.length l /\ rightmost c path
  end.

Lemma rightmost_firstn k : forall path root, rightmost root path -> rightmost root (firstn k path).
Proof.
  induction k as [|k IH]; intros [|i path] root R; cbn; auto. destruct R as (l & c & E & L & R). exists l, c. auto.
Qed.
Lemma rightmost_cut d path root : rightmost root path -> rightmost root (cut d path).
Proof. unfold cut. destruct (_ <=? _); [apply rightmost_firstn|auto]. Qed.

Lemma heads_leaf e : x_content e = [] -> heads e = [e].
Proof. destruct e as [s p a c m]. cbn. now intros ->. Qed.

Lemma heads_push path e : x_content e = [] -> forall root, rightmost root path ->
  exists r n, push_at path e root = Some (r, n) /\ heads r = heads root ++ [e] /\ rightmost r (path ++ [n]).
Proof.
  intros X. induction path as [|i path IH]; intros root R; cbn [push_at].
  - eexists _, _. split; [reflexivity|]. split.
    + destruct root as [s p a c m]. cbn [heads x_content x_subject x_pred x_attrs x_comment]. rewrite flat_map_app. cbn [flat_map].
      now rewrite app_nil_r, (heads_leaf e X).
    + exists (x_content root), e. cbn. auto.
  - destruct R as (l & c & E & L & R). rewrite E, L. rewrite nth_error_app2, Nat.sub_diag by lia. cbn [nth_error].
    destruct (IH c R) as (r & n & P & H & R'). rewrite P. eexists _, n. split; [reflexivity|].
    rewrite firstn_app, firstn_all, Nat.sub_diag, skipn_all2 by (rewrite app_length; cbn; lia). cbn [firstn]. rewrite app_nil_r.
    split.
    + destruct root as [s p a c' m]. cbn [heads x_content x_subject x_pred x_attrs x_comment] in *. subst c'.
      rewrite !flat_map_app. cbn [flat_map]. rewrite !app_nil_r, H. cbn. now rewrite app_assoc.
    + exists l, r. cbn. auto.
Qed.

Lemma loop_heads dbg : forall items root path, Forall (fun i => 0 < i_depth i) items -> rightmost root path ->
  exists e, vesper_loop dbg items (Some root) path = Ok (Some e) /\ heads e = heads root ++ map info_vesper items.
Proof.
  induction items as [|i items IH]; intros root path F R.
  - exists root. cbn. now rewrite app_nil_r.
  - apply Forall_cons_iff in F. destruct F as [D F]. apply (rightmost_cut (i_depth i)) in R.
    destruct (heads_push _ (info_vesper i) (info_content i) root R) as (r & n & P & H & R').
    destruct (IH r _ F R') as (e & L & H'). exists e. split.
    + rewrite <- L. clear L. cbn [vesper_loop]. unfold cut in *. destruct (i_depth i) as [|d]; [lia|].
      destruct path as [|p path]; cbn [expect bind]; rewrite P; reflexivity.
    + rewrite H', H. cbn [map]. now rewrite <- app_assoc.
Qed.

Lemma items_depth : forall tr d, Forall (fun i => d <= i_depth i) (items_of d tr).
Proof.
  induction tr as [t n role ws trs IH] using tree_ind'. intros d. cbn [items_of]. constructor; [cbn; lia|].
  apply Forall_flat_map. apply Forall_forall. intros tr I. rewrite Forall_forall in IH.
  eapply Forall_impl; [|apply (IH tr I)]. cbn beta. lia.
Qed.

Lemma heads_drawn : forall tr d, heads (drawn tr) = map info_vesper (items_of d tr).
Proof.
  induction tr as [t n role ws trs IH] using tree_ind'. intros d. cbn [items_of drawn heads map x_content x_subject x_pred x_attrs x_comment].
  f_equal.
  - assert (X := info_content (mkInfo 0 t n role ws)). fold (shown t n role ws) in X.
    change (info_vesper (mkInfo (d + options ws) t n role ws)) with (shown t n role ws).
    destruct (shown t n role ws) as [s p a c m]. cbn in *. now rewrite X.
  - generalize (d + options ws + 1). intros d'. induction IH as [|tr trs H _ IHl]; [reflexivity|]. cbn [map flat_map].
    rewrite map_app, <- (H d'), <- IHl. reflexivity.
Qed.

Lemma root_optional dbg tr : options (tree_wrappers tr) <> 0 -> to_vesper dbg (items_of 0 tr) = Panic.
Proof.
  destruct tr as [t n role ws trs]. cbn [tree_wrappers items_of]. intros O. unfold to_vesper. cbn [vesper_loop i_depth].
  destruct (0 + options ws) eqn:E; [lia|]. reflexivity.
Qed.

Lemma root_shown dbg tr : options (tree_wrappers tr) = 0 ->
  exists e, to_vesper dbg (items_of 0 tr) = Ok e /\ heads e = heads (drawn tr).
Proof.
  intros O. rewrite (heads_drawn tr 0). destruct tr as [t n role ws trs]. cbn [tree_wrappers] in O. unfold to_vesper. cbn [items_of]. rewrite O.
  set (i := mkInfo (0 + 0) t n role ws). set (rest := flat_map _ trs).
  assert (F : Forall (fun i => 0 < i_depth i) rest).
  { apply Forall_flat_map. apply Forall_forall. intros tr _. eapply Forall_impl; [|apply items_depth]. cbn beta. lia. }
  destruct (loop_heads dbg rest (info_vesper i) [] F I) as (e & L & H). exists e. split.
  - cbn [vesper_loop]. cbn [i_depth i]. change (0 + 0) with 0. cbn match. rewrite L. reflexivity.
  - rewrite H, (heads_leaf _ (info_content i)). reflexivity.
Qed.

(** ** Depths: those of the expressions, from the ones of the items *)

Fixpoint depths (d : N) (e : vesper) : list N :=
  match e with
  | mkVesper _ _ _ content _ => d :: flat_map (depths (d + 1)) content
  end.
Fixpoint placed (p : N) (l : list N) : list N :=
  match l with
  | [] => []
  | d :: l => let t := N.min d (p + 1) in t :: placed t l
  end.
Fixpoint true_depths (d : N) (tr : tree) : list N :=
  match tr with
  | Tree _ _ _ _ trs => d :: flat_map (true_depths (d + 1)) trs
  end.

Lemma depths_drawn : forall tr d, depths d (drawn tr) = true_depths d tr.
Proof.
  induction tr as [t n role ws trs IH] using tree_ind'. intros d. cbn [drawn depths true_depths]. f_equal.
  generalize (d + 1). intros d'. induction IH as [|tr trs H _ IHl]; [reflexivity|]. cbn [map flat_map]. now rewrite H, IHl.
Qed.

Lemma depths_push path e : x_content e = [] -> forall root r n d, rightmost root path -> push_at path e root = Some (r, n) ->
  depths d r = depths d root ++ [d + lenN path + 1].
Proof.
  intros X. assert (XE : forall d, depths d e = [d]) by (intros d; destruct e; cbn in *; now subst).
  induction path as [|i path IH]; intros root r n d R P; cbn [push_at] in P.
  - injection P as <- <-. destruct root as [s p a c m]. cbn [depths x_content x_subject x_pred x_attrs x_comment]. rewrite flat_map_app.
    cbn [flat_map]. rewrite app_nil_r, XE. cbn [app]. now replace (d + lenN [] + 1) with (d + 1) by (cbn; lia).
  - destruct R as (l & c & E & L & R). rewrite E, L in P. rewrite nth_error_app2, Nat.sub_diag in P by lia. cbn [nth_error] in P.
    rewrite firstn_app, firstn_all, Nat.sub_diag, skipn_all2 in P by (rewrite app_length; cbn; lia). cbn [firstn] in P. rewrite app_nil_r in P.
    destruct (push_at path e c) as [[c' n']|] eqn:PC; [|discriminate]. injection P as <- <-.
    destruct root as [s p a c0 m]. cbn [depths x_content x_subject x_pred x_attrs x_comment] in *. subst c0.
    rewrite !flat_map_app. cbn [flat_map]. rewrite !app_nil_r, (IH _ _ _ _ R PC). cbn [app]. rewrite app_assoc.
    f_equal. f_equal. f_equal. f_equal. unfold lenN. cbn [List.length]. lia.
Qed.

Lemma lenN_cut D path : 0 < D -> lenN (cut D path) + 1 = N.min D (lenN path + 1).
Proof.
  intros L. unfold cut. destruct (N.leb_spec D (lenN path)) as [H|H]; unfold lenN in *; [|lia]. rewrite firstn_length_le; lia.
Qed.

Lemma loop_depths dbg : forall items root path e, Forall (fun i => 0 < i_depth i) items -> rightmost root path ->
  vesper_loop dbg items (Some root) path = Ok (Some e) ->
  depths 0 e = depths 0 root ++ placed (lenN path) (map i_depth items).
Proof.
  induction items as [|i items IH]; intros root path e F R E.
  - cbn in *. injection E as ->. now rewrite app_nil_r.
  - apply Forall_cons_iff in F. destruct F as [D F]. apply (rightmost_cut (i_depth i)) in R.
    assert (LC := lenN_cut (i_depth i) path D).
    destruct (heads_push _ (info_vesper i) (info_content i) root R) as (r & n & P & _ & R').
    assert (DP := depths_push _ _ (info_content i) _ _ _ 0 R P).
    assert (L : vesper_loop dbg items (Some r) (cut (i_depth i) path ++ [n]) = Ok (Some e)).
    { rewrite <- E. clear E LC DP. cbn [vesper_loop]. unfold cut in *. destruct (i_depth i) as [|d]; [lia|].
      destruct path as [|p path]; cbn [expect bind]; rewrite P; reflexivity. }
    rewrite (IH _ _ _ F R' L), DP, <- app_assoc. cbn [map placed app]. f_equal.
    replace (lenN (cut (i_depth i) path ++ [n])) with (N.min (i_depth i) (lenN path + 1))
      by (rewrite <- LC; unfold lenN; rewrite app_length; cbn [List.length]; lia).
    f_equal. lia.
Qed.

Lemma placed_tree : forall tr first clean base t p l l',
  placed p (map i_depth (items_of base tr) ++ l) = true_depths t tr ++ l' ->
  (clean = true -> t = base) -> (clean = false -> t < base) -> (first = false -> t <= p) ->
  options_first clean first tr /\ exists p', t <= p' /\ placed p' l = l'.
Proof.
  induction tr as [t0 n role ws trs IH] using tree_ind'. intros first clean base t p l l' E C1 C2 P2.
  cbn [items_of map true_depths app placed i_depth] in E. injection E as E1 E2. rewrite E1 in E2.
  cbn [options_first]. set (clean' := clean && (options ws =? 0)).
  assert (C1' : clean' = true -> t + 1 = base + options ws + 1).
  { unfold clean'. intros H. apply andb_true_iff in H. destruct H as [H1 H2]. apply N.eqb_eq in H2. rewrite (C1 H1). lia. }
  assert (C2' : clean' = false -> t + 1 < base + options ws + 1).
  { unfold clean'. destruct clean; cbn [andb]; [|specialize (C2 eq_refl); lia]. specialize (C1 eq_refl). intros H. apply N.eqb_neq in H. lia. }
  assert (O : first = true \/ clean' = true).
  { destruct first; [now left|]. right. specialize (P2 eq_refl). destruct clean'; [reflexivity|]. specialize (C2' eq_refl). lia. }
  clearbody clean'. clear C1 C2 P2 E1 p.
  assert (K : forall trs first p, 
    Forall (fun tr => forall first clean base t p l l',
      placed p (map i_depth (items_of base tr) ++ l) = true_depths t tr ++ l' ->
      (clean = true -> t = base) -> (clean = false -> t < base) -> (first = false -> t <= p) ->
      options_first clean first tr /\ exists p', t <= p' /\ placed p' l = l') trs ->
    placed p (map i_depth (flat_map (items_of (base + options ws + 1)) trs) ++ l) = flat_map (true_depths (t + 1)) trs ++ l' ->
    t <= p -> (first = false -> t < p) ->
    (fix go (first : bool) (trs : list tree) : Prop :=
            match trs with
            | [] => True
            | tr :: trs => options_first clean' first tr /\ go false trs
            end) first trs /\ exists p', t <= p' /\ placed p' l = l').
  { clear trs IH E2 O. induction trs as [|tr trs IHl]; intros fst p F E L Q2.
    - split; [exact I|]. exists p. auto.
    - apply Forall_cons_iff in F. destruct F as [F1 F2]. cbn [flat_map] in E. rewrite map_app, <- !app_assoc in E.
      destruct (F1 fst clean' _ _ _ _ _ E C1' C2') as (O1 & p' & L1 & E').
      + intros H. specialize (Q2 H). lia.
      + destruct (IHl false p' F2 E') as (O2 & X); [lia|intros _; lia|]. split; [split; assumption|exact X]. }
  destruct (K trs true t IH E2) as (O2 & X); [lia|discriminate|]. split; [split; assumption|exact X].
Qed.

Lemma drawn_options_first dbg tr : to_vesper dbg (items_of 0 tr) = Ok (drawn tr) -> options_first true true tr.
Proof.
  intros T. destruct (N.eq_dec (options (tree_wrappers tr)) 0) as [O|O]; [|rewrite (root_optional dbg tr O) in T; discriminate].
  assert (E := depths_drawn tr 0). destruct tr as [t n role ws trs]. cbn [tree_wrappers] in O.
  unfold to_vesper in T. cbn [items_of] in T. rewrite O in T. change (0 + 0) with 0 in T.
  set (i := mkInfo 0 t n role ws) in T. set (rest := flat_map _ trs) in T.
  assert (F : Forall (fun i => 0 < i_depth i) rest).
  { apply Forall_flat_map. apply Forall_forall. intros tr _. eapply Forall_impl; [|apply items_depth]. cbn beta. lia. }
  cbn [vesper_loop i_depth i] in T. fold i in T.
  destruct (loop_heads dbg rest (info_vesper i) [] F I) as (e & L & _). rewrite L in T. cbn [bind expect] in T.
  apply (f_equal (fun o => match o with Ok x => x | _ => e end)) in T. cbn beta match in T. rewrite T in L. clear T e.
  apply (loop_depths dbg rest (info_vesper i) [] _ F I) in L. rewrite E in L. clear E.
  assert (D0 : depths 0 (info_vesper i) = [0]) by (assert (X := info_content i); destruct (info_vesper i); cbn in *; now subst).
  rewrite D0 in L.
  apply (placed_tree (Tree t n role ws trs) true true 0 0 0 [] []); [|reflexivity|discriminate|discriminate].
  rewrite !app_nil_r, L. cbn [items_of map placed app i_depth]. rewrite O. reflexivity.
Qed.

(** ** Roles: those of optional items are lost *)

Lemma laid_role sys id role outer tr : laid sys id role outer tr ->
  exists ws, tree_wrappers tr = outer ++ ws /\ tree_role tr = if options ws =? 0 then role else Some (CUnionVariant 1 "some").
Proof.
  apply (laid_ind' sys (fun _ role outer tr => exists ws, tree_wrappers tr = outer ++ ws
     /\ tree_role tr = if options ws =? 0 then role else Some (CUnionVariant 1 "some")));
    clear; intros; cbn [tree_wrappers tree_role];
    try (eexists; split; [reflexivity|reflexivity]).
  - destruct H1 as (ws & -> & R). exists (NNewType (lookup (ss_symbols sys) id) :: ws). rewrite <- app_assoc. split; [reflexivity|exact R].
  - destruct H2 as (ws & -> & R). exists (NOption :: ws). rewrite <- app_assoc. split; [reflexivity|]. rewrite R.
    assert (O : options (NOption :: ws) =? 0 = false) by (apply N.eqb_neq; unfold options, lenN; cbn; lia). rewrite O.
    now destruct (options ws =? 0).
  - exists []. now rewrite app_nil_r.
  - exists []. now rewrite app_nil_r.
Qed.

Lemma laid_role_here sys id role tr : laid sys id role [] tr ->
  tree_role tr = if options (tree_wrappers tr) =? 0 then role else Some (CUnionVariant 1 "some").
Proof. intros L. destruct (laid_role _ _ _ _ _ L) as (ws & E & R). cbn [app] in E. now rewrite E. Qed.
