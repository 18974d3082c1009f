(** Properties of type trees and memory layouts: C51-C53. *)
From Coq Require Import Arith NArith List Bool String Relations Lia.
From Verif Require Import Base Ty Ids Val TypeSys LibCodec Build Layout Spec SpecSys SpecLayout SpecWire CodecLemmas ExtractProofs
  LayoutProofs LayoutProofs2 LayoutEnds LayoutShown.
Import ListNotations.
Local Open Scope string_scope.
Local Open Scope list_scope.
Local Open Scope N_scope.

(** ** Systems used in the examples *)

(** A record of a counter in a new type, of a list of pairs, and of an optional number. *)
Definition ex_types : type_system :=
  [ (1, TPrim P_U8); (2, TTuple [1]); (3, TList 4 (mkSizing 0 255)); (4, TTuple [1; 6]); (5, TStruct [("counter", 2); ("list", 3)]);
    (6, TPrim P_U32); (7, TUnion [(mkVariant "none" 0, 8); (mkVariant "some" 1, 6)]); (8, TPrim P_UNIT);
    (9, TStruct [("first", 1); ("second", 7)]); (10, TUnion [(mkVariant "left" 3, 1); (mkVariant "right" 7, 6)]);
    (11, TUnion [(mkVariant "left" 0, 1); (mkVariant "right" 1, 6)]); (12, TStruct [("only", 7)]) ].
Definition ex_layout : symbolic_sys :=
  mkSymSys (mkSymbols [] [mkSymbol 2 (Some (mkFqn "Lib" "Counter")); mkSymbol 5 (Some (mkFqn "Lib" "Record"))]) ex_types.

Lemma ex_ordered : ordered ex_types.
Proof. repeat constructor. Qed.
Lemma ex_iterable dbg : iterable dbg ex_types.
Proof. destruct dbg; repeat constructor; discriminate. Qed.
Lemma ex_complete : complete ex_types.
Proof.
  intros id t r I J. repeat (destruct I as [E|I]; [injection E as <- <-; cbn in J; repeat (destruct J as [<-|J]; [cbn; tauto|]); destruct J|]).
  destruct I.
Qed.
Lemma ex_acyclic : acyclic ex_types.
Proof.
  exists (fun id => nth (N.to_nat id) [0; 0; 1; 3; 2; 4; 0; 1; 0; 2; 1; 1; 2]%nat 0%nat). intros id t r E J.
  apply (find_In ex_layout ex_ordered) in E.
  repeat (destruct E as [E|E]; [injection E as <- <-; cbn in J; repeat (destruct J as [<-|J]; [vm_compute; lia|]); destruct J|]). destruct E.
Qed.
Lemma ex_consistent : consistent ex_types.
Proof.
  intros id t E. split.
  - repeat (destruct E as [E|E]; [injection E as <- <-; cbn; repeat split; try reflexivity; try discriminate;
      repeat constructor; cbn; intuition discriminate|]). destruct E.
  - repeat (destruct E as [E|E]; [injection E as <- <-; exact I|]). destruct E.
Qed.

(** ** C51: iteration over a type tree *)

(** For complete systems without recursive types, up to 255 wrappers around each item, and components which
    can be iterated (see C37): otherwise see [C51_refuted]. *)
Theorem C51_partial : forall dbg sys id,
  ordered (ss_types sys) -> complete (ss_types sys) -> consistent (ss_types sys) -> acyclic (ss_types sys) ->
  iterable dbg (ss_types sys) -> In id (map fst (ss_types sys)) ->
  (exists tr, laid sys id None [] tr)
  /\ forall tr, laid sys id None [] tr -> few_wrappers tr ->
     returns (fun fuel => to_layout fuel dbg sys id) (Ok (items_of 0 tr)).
Proof.
  intros dbg sys id O C W [rank R] I K. split; [exact (laid_exists sys O C W rank R _ id (le_n _) K None [])|].
  intros tr L F. destruct (laid_In _ _ _ _ _ L) as [t J].
  pose proof (visits_all dbg sys O I _ _ _ _ L t 0 [] [] J F (resumes_end dbg sys)) as V. rewrite app_nil_r in V.
  destruct V as [n V]. exists n. intros fuel LE. unfold to_layout, tree_start. rewrite (get_In sys O _ _ J). cbn [expect bind].
  exact (V fuel LE).
Qed.
(** The tree of the record of the example. *)
Definition ex_tree : tree :=
  Tree (TStruct [("counter", 2); ("list", 3)]) (Some (mkFqn "Lib" "Record")) None []
    [ Tree (TPrim P_U8) None (Some (CNamedField 0 "counter")) [NNewType (Some (mkFqn "Lib" "Counter"))] [];
      Tree (TList 4 (mkSizing 0 255)) None (Some (CNamedField 1 "list")) []
        [ Tree (TTuple [1; 6]) None (Some CListItem) [] [Tree (TPrim P_U8) None None [] []; Tree (TPrim P_U32) None None [] []] ] ].
Lemma ex_laid : laid ex_layout 5 None [] ex_tree.
Proof.
  assert (G : forall id t, sys_find ex_types id = Some t -> In (id, t) (ss_types ex_layout)) by (intros; now apply (find_In ex_layout ex_ordered)).
  assert (U : forall role, laid ex_layout 1 role [] (Tree (TPrim P_U8) None role [] [])).
  { intros role. apply La_node; [now apply G|exact I|constructor]. }
  apply La_node; [now apply G|exact I|]. constructor; [|constructor; [|constructor]]; cbn [fst snd known_role].
  - eapply La_newtype; [now apply G|]. apply La_node; [now apply G|exact I|constructor].
  - apply La_node; [now apply G| |].
    + exists (TTuple [1; 6]). repeat split; try discriminate. now apply G.
    + constructor; [|constructor]. cbn [fst snd known_role]. apply La_node; [now apply G| |].
      * split; [discriminate|]. intros a1 a2 mi ma R. inversion R as [? ? ? ? ? Q F C]; injection Q as <- <-.
        vm_compute in F. injection F as <-. discriminate C.
      * constructor; [|constructor; [|constructor]]; cbn [fst snd known_role];
          (apply La_node; [now apply G|exact I|constructor]).
Qed.
Example C51_case : returns (fun fuel => to_layout fuel true ex_layout 5) (Ok (items_of 0 ex_tree)).
Proof.
  apply (C51_partial true ex_layout 5 ex_ordered ex_complete ex_consistent ex_acyclic (ex_iterable true)); [cbn; auto 10|exact ex_laid|].
  vm_compute. repeat split; discriminate.
Qed.
Print Assumptions C51_partial.

(** A recursive type: the iteration never ends. *)
Definition ex_recursive : symbolic_sys :=
  mkSymSys (mkSymbols [] []) [(1, TStruct [("children", 2)]); (2, TSet 1 (mkSizing 0 255))].
Theorem C51_refuted : exists sys id,
  ordered (ss_types sys) /\ complete (ss_types sys) /\ consistent (ss_types sys) /\ In id (map fst (ss_types sys))
  /\ forall dbg fuel, to_layout fuel dbg sys id = Diverge.
Proof.
  exists ex_recursive, 1. split; [repeat constructor|]. split; [|split; [|split]].
  - intros id t r [E|[E|[]]] J; injection E as <- <-; cbn in *; intuition.
  - intros id t [E|[E|[]]]; injection E as <- <-; cbn; repeat split; try discriminate; try exact I; repeat constructor; intuition.
  - now left.
  - intros dbg.
    assert (G : forall fuel item depth path, 
      tree_collect fuel dbg ex_recursive (mkIter 1 (Some (TStruct [("children", 2)])) item depth path []) = Diverge
      /\ tree_collect fuel dbg ex_recursive (mkIter 1 None item depth ((depth, (TStruct [("children", 2)], 0)) :: path) []) = Diverge
      /\ tree_collect fuel dbg ex_recursive (mkIter 2 None item depth ((depth, (TSet 1 (mkSizing 0 255), 0)) :: path) []) = Diverge).
    { induction fuel as [|fuel IH]; intros item depth path; [repeat split; reflexivity|].
      rewrite !tree_collect_S. destruct fuel as [|fuel]; [repeat split; reflexivity|]. split; [|split].
      - assert (E : tree_next (S fuel) dbg ex_recursive (mkIter 1 (Some (TStruct [("children", 2)])) item depth path [])
          = Ok (Some (mkInfo depth (TStruct [("children", 2)]) None item []),
                mkIter 1 None None (depth + 1) ((depth + 1, (TStruct [("children", 2)], 0)) :: path) []))
          by (destruct dbg; reflexivity).
        rewrite E. cbn [bind fst snd]. now rewrite (proj1 (proj2 (IH None (depth + 1) path))).
      - destruct fuel as [|fuel]; [destruct dbg; reflexivity|].
        assert (E : tree_next (S (S fuel)) dbg ex_recursive (mkIter 1 None item depth ((depth, (TStruct [("children", 2)], 0)) :: path) [])
          = Ok (Some (mkInfo depth (TSet 1 (mkSizing 0 255)) None (Some (CNamedField 0 "children")) []),
                mkIter 2 None None (depth + 1) ((depth + 1, (TSet 1 (mkSizing 0 255), 0)) :: (depth, (TStruct [("children", 2)], 1)) :: path) []))
          by (destruct dbg; reflexivity).
        rewrite E. cbn [bind fst snd]. now rewrite (proj2 (proj2 (IH None (depth + 1) _))).
      - destruct fuel as [|fuel]; [destruct dbg; reflexivity|].
        assert (E : tree_next (S (S fuel)) dbg ex_recursive (mkIter 2 None item depth ((depth, (TSet 1 (mkSizing 0 255), 0)) :: path) [])
          = Ok (Some (mkInfo depth (TStruct [("children", 2)]) None (Some CSetItem) []),
                mkIter 1 None None (depth + 1) ((depth + 1, (TStruct [("children", 2)], 0)) :: (depth, (TSet 1 (mkSizing 0 255), 1)) :: path) []))
          by (destruct dbg; reflexivity).
        rewrite E. cbn [bind fst snd]. now rewrite (proj1 (proj2 (IH None (depth + 1) _))). }
    intros fuel. exact (proj1 (G fuel None 0 [])).
Qed.
Print Assumptions C51_refuted.

(** Which types are iterated over: exactly those with a (finite) tree, at most 255 wrappers around each item; then the items
    are those of the tree. *)
Theorem C51_exact : forall dbg sys id,
  ordered (ss_types sys) -> complete (ss_types sys) -> consistent (ss_types sys) -> iterable dbg (ss_types sys) ->
  ((exists l, returns (fun fuel => to_layout fuel dbg sys id) (Ok l)) <-> exists tr, laid sys id None [] tr /\ few_wrappers tr)
  /\ forall fuel l, to_layout fuel dbg sys id = Ok l -> exists tr, laid sys id None [] tr /\ l = items_of 0 tr.
Proof.
  intros dbg sys id O C W I.
  assert (A : forall tr, laid sys id None [] tr -> few_wrappers tr -> returns (fun fuel => to_layout fuel dbg sys id) (Ok (items_of 0 tr))).
  { intros tr L F. destruct (laid_In _ _ _ _ _ L) as [t J].
    pose proof (visits_all dbg sys O I _ _ _ _ L t 0 [] [] J F (resumes_end dbg sys)) as V. rewrite app_nil_r in V.
    destruct V as [n V]. exists n. intros fuel LE. unfold to_layout, tree_start. rewrite (get_In sys O _ _ J). cbn [expect bind].
    exact (V fuel LE). }
  split.
  - split; [|intros (tr & L & F); eauto]. intros [l [n R]]. exact (layout_tree dbg sys O C W I id l n (R n (le_n n))).
  - intros fuel l E. destruct (layout_tree dbg sys O C W I id l fuel E) as (tr & L & F). exists tr. split; [exact L|].
    assert (R : returns (fun fuel => to_layout fuel dbg sys id) (Ok l)).
    { unfold to_layout in *. destruct (tree_start sys id) as [st|e| |]; cbn [bind] in *; try discriminate. now apply (collected_intro dbg sys st l fuel). }
    pose proof (returns_fun _ _ _ R (A tr L F)) as Q. now injection Q.
Qed.
Print Assumptions C51_exact.

(** And a type has a tree exactly when no type shown in it contains itself. *)
Theorem C51_recursive : forall sys id,
  ordered (ss_types sys) -> complete (ss_types sys) -> consistent (ss_types sys) -> In id (map fst (ss_types sys)) ->
  (exists tr, laid sys id None [] tr) <-> forall r, clos_refl_trans _ (shows sys) id r -> ~ clos_trans _ (shows sys) r r.
Proof.
  intros sys id O C W K. split.
  - intros [tr L]. apply finite_acyclic. exact (laid_finite sys O _ _ _ _ L).
  - intros A. apply (finite_laid false sys O C W); [|exact K].
    apply (acyclic_finite sys C (List.length (ss_types sys)) [] id); [constructor|intros x []|intros s []|exact K|exact A|lia].
Qed.
Print Assumptions C51_recursive.

(** The recursive type of the example has no tree. The record of the other example has one. *)
Example C51_recursive_case : (forall tr, ~ laid ex_recursive 1 None [] tr)
  /\ (forall fuel dbg l, to_layout fuel dbg ex_recursive 1 <> Ok l)
  /\ exists l, returns (fun fuel => to_layout fuel true ex_layout 5) (Ok l).
Proof.
  assert (O : ordered (ss_types ex_recursive)) by repeat constructor.
  assert (C : complete (ss_types ex_recursive)) by (intros id t r [E|[E|[]]] J; injection E as <- <-; cbn in *; intuition).
  assert (W : consistent (ss_types ex_recursive)).
  { intros id t [E|[E|[]]]; injection E as <- <-; cbn; repeat split; try discriminate; try exact I; repeat constructor; intuition. }
  assert (N : forall tr, ~ laid ex_recursive 1 None [] tr).
  { intros tr L. assert (X : exists tr, laid ex_recursive 1 None [] tr) by eauto.
    pose proof (proj1 (C51_recursive ex_recursive 1 O C W (or_introl eq_refl)) X) as Y. clear X. rename Y into X. apply (X 1); [apply rt_refl|].
    eapply t_trans; apply t_step.
    - eapply Sh_node with (t := TStruct [("children", 2)]); [now left|exact I|now left].
    - eapply Sh_node with (t := TSet 1 (mkSizing 0 255)); [right; now left|exact I|now left]. }
  split; [exact N|]. split.
  - intros fuel dbg l E. destruct (C51_exact dbg ex_recursive 1 O C W) as [_ X]; [destruct dbg; repeat constructor; discriminate|].
    destruct (X fuel l E) as (tr & L & _). exact (N tr L).
  - apply (C51_exact true ex_layout 5 ex_ordered ex_complete ex_consistent (ex_iterable true)). exists ex_tree. split; [exact ex_laid|].
    vm_compute. repeat split; discriminate.
Qed.

(** ** C52: nesting of the layout *)

(** For items which are not optional. *)
Theorem C52_partial : forall dbg sys id tr,
  laid sys id None [] tr -> no_options tr -> to_vesper dbg (items_of 0 tr) = Ok (drawn tr).
Proof. intros dbg sys id tr _ N. apply to_vesper_tree; [now apply no_options_first|]. destruct tr. apply N. Qed.
Example C52_case : to_vesper true (items_of 0 ex_tree) = Ok (drawn ex_tree).
Proof. apply (C52_partial true ex_layout 5 _ ex_laid). vm_compute. repeat split. Qed.
Print Assumptions C52_partial.

(** More exactly: optional items may be the first components of what they are in, with at most one component
    inside of each other. *)
Theorem C52_first_partial : forall dbg tr,
  options_first true true tr -> options (tree_wrappers tr) = 0 -> to_vesper dbg (items_of 0 tr) = Ok (drawn tr).
Proof. intros dbg tr O Z. apply to_vesper_tree; [exact O|]. now destruct tr. Qed.
Definition ex_first : tree :=
  Tree (TStruct [("only", 7)]) None None [] [Tree (TPrim P_U32) None (Some (CUnionVariant 1 "some")) [NOption] []].
Example C52_first_case : to_vesper true (items_of 0 ex_first) = Ok (drawn ex_first).
Proof. apply C52_first_partial; [|reflexivity]. cbn. auto. Qed.
Print Assumptions C52_first_partial.

(** An optional field which follows another field is shown as a part of that field. *)
Definition ex_second : tree :=
  Tree (TStruct [("first", 1); ("second", 7)]) None None []
    [Tree (TPrim P_U8) None (Some (CNamedField 0 "first")) [] []; Tree (TPrim P_U32) None (Some (CUnionVariant 1 "some")) [NOption] []].
Theorem C52_refuted : exists sys id fs tr e,
  In (id, TStruct fs) (ss_types sys) /\ laid sys id None [] tr
  /\ (forall dbg, returns (fun fuel => to_layout fuel dbg sys id) (Ok (items_of 0 tr)))
  /\ (forall dbg, to_vesper dbg (items_of 0 tr) = Ok e)
  /\ lenN fs = 2 /\ lenN (x_content e) = 1 /\ e <> drawn tr.
Proof.
  assert (G : forall id t, sys_find ex_types id = Some t -> In (id, t) (ss_types ex_layout)) by (intros; now apply (find_In ex_layout ex_ordered)).
  assert (L : laid ex_layout 9 None [] ex_second).
  { apply La_node; [now apply G|exact I|]. constructor; [|constructor; [|constructor]]; cbn [fst snd known_role].
    - apply La_node; [now apply G|exact I|constructor].
    - eapply La_option; [now apply G|eexists; reflexivity|]. apply La_node; [now apply G|exact I|constructor]. }
  assert (E : exists e, forall dbg, to_vesper dbg (items_of 0 ex_second) = Ok e /\ lenN (x_content e) = 1).
  { eexists. intros [|]; split; reflexivity. }
  destruct E as [e E]. exists ex_layout, 9, [("first", 1); ("second", 7)], ex_second, e.
  split; [now apply G|]. split; [exact L|]. split; [|split; [|split; [reflexivity|split]]].
  - intros dbg. apply (C51_partial dbg ex_layout 9 ex_ordered ex_complete ex_consistent ex_acyclic (ex_iterable dbg)); [cbn; auto 20|exact L|].
    vm_compute. repeat split; discriminate.
  - intros dbg. apply E.
  - apply (E true).
  - intros ->. destruct (E true) as [_ E']. discriminate E'.
Qed.
Print Assumptions C52_refuted.

(** The layout of an optional type can not be shown at all. *)
Theorem C52_root_refuted : exists sys id tr,
  laid sys id None [] tr /\ (forall dbg, returns (fun fuel => to_layout fuel dbg sys id) (Ok (items_of 0 tr)))
  /\ forall dbg, to_vesper dbg (items_of 0 tr) = Panic.
Proof.
  assert (G : forall id t, sys_find ex_types id = Some t -> In (id, t) (ss_types ex_layout)) by (intros; now apply (find_In ex_layout ex_ordered)).
  exists ex_layout, 7, (Tree (TPrim P_U32) None (Some (CUnionVariant 1 "some")) [NOption] []).
  assert (L : laid ex_layout 7 None [] (Tree (TPrim P_U32) None (Some (CUnionVariant 1 "some")) [NOption] [])).
  { eapply La_option; [now apply G|eexists; reflexivity|]. apply La_node; [now apply G|exact I|constructor]. }
  split; [exact L|]. split; [|intros [|]; reflexivity].
  intros dbg. apply (C51_partial dbg ex_layout 7 ex_ordered ex_complete ex_consistent ex_acyclic (ex_iterable dbg)); [cbn; auto 20|exact L|].
  vm_compute. repeat split; discriminate.
Qed.
Print Assumptions C52_root_refuted.

(** The layouts which can not be shown are exactly those of optional types. In all others all items are shown, each
    of them once and in the right order; so only the nesting of the optional ones may be wrong. *)
Theorem C52_exact : forall dbg tr,
  (to_vesper dbg (items_of 0 tr) = Panic <-> options (tree_wrappers tr) <> 0)
  /\ (options (tree_wrappers tr) = 0 -> exists e, to_vesper dbg (items_of 0 tr) = Ok e /\ heads e = heads (drawn tr)).
Proof.
  intros dbg tr. split; [split|].
  - intros P O. destruct (root_shown dbg tr O) as (e & E & _). rewrite E in P. discriminate.
  - apply root_optional.
  - apply root_shown.
Qed.
Example C52_exact_case : exists e, to_vesper true (items_of 0 ex_second) = Ok e /\ heads e = heads (drawn ex_second) /\ e <> drawn ex_second.
Proof.
  destruct (proj2 (C52_exact true ex_second) eq_refl) as (e & E & H). exists e. split; [exact E|]. split; [exact H|].
  intros ->. assert (X : match to_vesper true (items_of 0 ex_second) with Ok e => List.length (x_content e) | _ => 0%nat end = 1%nat) by reflexivity.
  rewrite E in X. discriminate X.
Qed.
Print Assumptions C52_exact.

(** The nesting is right exactly when optional items, and the items inside of them, are the first components of what
    they are in. *)
Theorem C52_nesting_exact : forall dbg tr,
  to_vesper dbg (items_of 0 tr) = Ok (drawn tr) <-> options (tree_wrappers tr) = 0 /\ options_first true true tr.
Proof.
  intros dbg tr. split.
  - intros T. split; [|exact (drawn_options_first dbg tr T)].
    destruct (N.eq_dec (options (tree_wrappers tr)) 0) as [O|O]; [exact O|]. rewrite (root_optional dbg tr O) in T. discriminate.
  - intros [O F]. now apply C52_first_partial.
Qed.
Example C52_nesting_case : to_vesper false (items_of 0 ex_first) = Ok (drawn ex_first) /\ to_vesper false (items_of 0 ex_second) <> Ok (drawn ex_second).
Proof.
  split; [apply C52_nesting_exact; split; [reflexivity|cbn; auto]|]. intros T. apply C52_nesting_exact in T. destruct T as [_ T].
  cbn in T. destruct T as (_ & _ & ([T|T] & _) & _); discriminate.
Qed.
Print Assumptions C52_nesting_exact.

(** ** C53: names and tags in the layout *)

(** The fields of a structure which are not optional are shown with their names. *)
Theorem C53_fields_partial : forall sys id role outer fs n role' ws trs,
  laid sys id role outer (Tree (TStruct fs) n role' ws trs) ->
  Forall not_optional trs ->
  map x_subject (x_content (drawn (Tree (TStruct fs) n role' ws trs))) = map (fun f => SjName (fst f)) fs.
Proof.
  intros sys id role outer fs n role' ws trs L O. apply laid_node in L. cbn [components drawn x_content] in *.
  revert L O. generalize 0. revert trs. induction fs as [|f fs IH]; intros trs pos L O; inversion L as [|? tr ? trs' L1 L2]; subst; [reflexivity|].
  inversion O as [|? ? O1 O2]; subst. cbn [map]. rewrite (IH _ _ L2 O2). f_equal.
  destruct (laid_wrappers _ _ _ _ _ L1) as (w & E & R). cbn [app] in E. unfold not_optional in O1. rewrite E in O1. rewrite drawn_subject, (R O1). reflexivity.
Qed.
Example C53_fields_case : map x_subject (x_content (drawn ex_tree)) = [SjName "counter"; SjName "list"].
Proof. apply (C53_fields_partial ex_layout 5 None []); [exact ex_laid|repeat constructor]. Qed.
Print Assumptions C53_fields_partial.

(** Optional fields are all shown as [some]; so the names are right exactly when these are called like this. *)
Theorem C53_fields_exact : forall sys id role outer fs n role' ws trs,
  laid sys id role outer (Tree (TStruct fs) n role' ws trs) ->
  (map x_subject (x_content (drawn (Tree (TStruct fs) n role' ws trs))) = map (fun f => SjName (fst f)) fs
   <-> Forall2 (fun f tr => not_optional tr \/ fst f = "some") fs trs).
Proof.
  intros sys id role outer fs n role' ws trs L. apply laid_node in L. cbn [components drawn x_content] in *.
  revert L. generalize 0. revert trs. induction fs as [|f fs IH]; intros trs pos L; inversion L as [|? tr ? trs' L1 L2]; subst.
  { split; [constructor|reflexivity]. }
  specialize (IH _ _ L2). apply laid_role_here in L1. cbn [map].
  assert (S : x_subject (drawn tr) = SjName (fst f) <-> not_optional tr \/ fst f = "some").
  { rewrite drawn_subject, L1. unfold not_optional. destruct (N.eqb_spec (options (tree_wrappers tr)) 0) as [O|O]; cbn.
    - split; [now left|reflexivity].
    - split; [intros E; right; injection E as E; congruence|]. intros [H|H]; [contradiction|]. now rewrite H. }
  split.
  - intros E. injection E as E1 E2. constructor; [now apply S|now apply IH].
  - intros F. inversion F as [|? ? ? ? F1 F2]; subst. f_equal; [now apply S|now apply IH].
Qed.
Example C53_fields_exact_case : map x_subject (x_content (drawn ex_second)) <> map (fun f => SjName (fst f)) [("first", 1); ("second", 7)].
Proof.
  assert (G : forall id t, sys_find ex_types id = Some t -> In (id, t) (ss_types ex_layout)) by (intros; now apply (find_In ex_layout ex_ordered)).
  assert (L : laid ex_layout 9 None [] ex_second).
  { apply La_node; [now apply G|exact I|]. constructor; [|constructor; [|constructor]]; cbn [fst snd known_role].
    - apply La_node; [now apply G|exact I|constructor].
    - eapply La_option; [now apply G|eexists; reflexivity|]. apply La_node; [now apply G|exact I|constructor]. }
  intros E. apply (C53_fields_exact ex_layout 9 None [] _ _ _ _ _ L) in E. inversion E as [|? ? ? ? _ F]; subst. inversion F as [|? ? ? ? F1 _]; subst.
  destruct F1 as [F1|F1]; [vm_compute in F1; discriminate F1|discriminate F1].
Qed.
Print Assumptions C53_fields_exact.

(** The variants of a union with tags 0, 1, 2... are shown with their names and tags, besides options. *)
Theorem C53_variants_partial : forall sys id role outer vs n role' ws trs,
  laid sys id role outer (Tree (TUnion vs) n role' ws trs) ->
  Forall not_optional trs ->
  (forall pos e, nth_error vs pos = Some e -> v_tag (fst e) = N.of_nat pos) ->
  Forall2 (fun e x => x_subject x = SjName (v_name (fst e)) /\ forall tag, In (ATag tag) (x_attrs x) <-> tag = v_tag (fst e))
    vs (x_content (drawn (Tree (TUnion vs) n role' ws trs))).
Proof.
  intros sys id role outer vs n role' ws trs L O T. apply laid_node in L. cbn [components drawn x_content] in *.
  assert (T' : forall pos e, nth_error vs pos = Some e -> v_tag (fst e) = 0 + N.of_nat pos) by (intros; now apply T).
  clear T. revert L O T'. generalize 0. revert trs.
  induction vs as [|v vs IH]; intros trs pos L O T; inversion L as [|? tr ? trs' L1 L2]; subst; [constructor|].
  inversion O as [|? ? O1 O2]; subst. cbn [map]. constructor.
  - destruct (laid_wrappers _ _ _ _ _ L1) as (w & E & R). cbn [app] in E. unfold not_optional in O1. rewrite E in O1. specialize (R O1). cbn [snd known_role] in R. split.
    + rewrite drawn_subject, R. reflexivity.
    + intros tag. rewrite drawn_tag, R. pose proof (T 0%nat v eq_refl) as Q. rewrite Q. split; [intros [? [= ->]]; lia|].
      intros ->. eexists. f_equal. f_equal. lia.
  - apply (IH _ _ L2 O2). intros p e E. rewrite (T (S p) e E). lia.
Qed.
(** More exactly: names and tags are right when the tags are the positions of the variants, besides optional variants,
    which are all shown as [some] with the tag 1. *)
Theorem C53_variants_exact : forall sys id role outer vs n role' ws trs,
  laid sys id role outer (Tree (TUnion vs) n role' ws trs) ->
  (Forall2 (fun e x => x_subject x = SjName (v_name (fst e)) /\ forall tag, In (ATag tag) (x_attrs x) <-> tag = v_tag (fst e))
     vs (x_content (drawn (Tree (TUnion vs) n role' ws trs)))
   <-> forall pos e tr, nth_error vs pos = Some e -> nth_error trs pos = Some tr ->
       (not_optional tr -> v_tag (fst e) = N.of_nat pos) /\ (~ not_optional tr -> v_name (fst e) = "some" /\ v_tag (fst e) = 1)).
Proof.
  intros sys id role outer vs n role' ws trs L. apply laid_node in L. cbn [components drawn x_content] in *.
  assert (H : Forall2 (fun e x => x_subject x = SjName (v_name (fst e)) /\ forall tag, In (ATag tag) (x_attrs x) <-> tag = v_tag (fst e))
     vs (map drawn trs)
   <-> forall pos e tr, nth_error vs pos = Some e -> nth_error trs pos = Some tr ->
       (not_optional tr -> v_tag (fst e) = 0 + N.of_nat pos) /\ (~ not_optional tr -> v_name (fst e) = "some" /\ v_tag (fst e) = 1));
    [|exact H].
  revert L. generalize 0. revert trs. induction vs as [|v vs IH]; intros trs start L; inversion L as [|? tr ? trs' L1 L2]; subst.
  { split; [intros _ [|pos] e tr E; discriminate E|constructor]. }
  specialize (IH _ _ L2). apply laid_role_here in L1. cbn [map snd known_role] in *.
  assert (S : (x_subject (drawn tr) = SjName (v_name (fst v)) /\ forall tag, In (ATag tag) (x_attrs (drawn tr)) <-> tag = v_tag (fst v))
    <-> (not_optional tr -> v_tag (fst v) = start) /\ (~ not_optional tr -> v_name (fst v) = "some" /\ v_tag (fst v) = 1)).
  { rewrite drawn_subject.
    assert (T : forall tag, In (ATag tag) (x_attrs (drawn tr)) <-> exists name, tree_role tr = Some (CUnionVariant tag name)) by (intros; apply drawn_tag).
    rewrite L1 in *. unfold not_optional. destruct (N.eqb_spec (options (tree_wrappers tr)) 0) as [O|O]; cbn [vesper_subject fst]; split.
    - intros [_ X]. split; [intros _|contradiction]. symmetry. apply X, T. eexists. reflexivity.
    - intros [X _]. split; [reflexivity|]. intros tag. rewrite T, (X O). split; [intros [? [= ->]]; reflexivity|intros ->; eexists; reflexivity].
    - intros [X1 X2]. split; [contradiction|intros _]. split; [injection X1 as X1; congruence|]. symmetry. apply X2, T. eexists. reflexivity.
    - intros [_ X]. destruct (X O) as [X1 X2]. split; [now rewrite X1|]. intros tag. rewrite T, X2. split; [intros [? [= ->]]; reflexivity|intros ->; eexists; reflexivity]. }
  split.
  - intros F. inversion F as [|? ? ? ? F1 F2]; subst. intros [|pos] e tr' E E'; cbn in E, E'.
    + injection E as <-. injection E' as <-. replace (start + N.of_nat 0) with start by lia. now apply S.
    + replace (start + N.of_nat (Datatypes.S pos)) with (start + 1 + N.of_nat pos) by lia. exact (proj1 IH F2 pos e tr' E E').
  - intros F. constructor.
    + apply S. specialize (F 0%nat v tr eq_refl eq_refl). now replace (start + N.of_nat 0) with start in F by lia.
    + apply IH. intros pos e tr' E E'. specialize (F (Datatypes.S pos) e tr' E E').
      now replace (start + N.of_nat (Datatypes.S pos)) with (start + 1 + N.of_nat pos) in F by lia.
Qed.

Definition ex_left_right (t1 t2 : N) : tree :=
  Tree (TUnion [(mkVariant "left" t1, 1); (mkVariant "right" t2, 6)]) None None []
    [Tree (TPrim P_U8) None (Some (CUnionVariant 0 "left")) [] []; Tree (TPrim P_U32) None (Some (CUnionVariant 1 "right")) [] []].
Lemma ex_left_right_laid : laid ex_layout 11 None [] (ex_left_right 0 1) /\ laid ex_layout 10 None [] (ex_left_right 3 7).
Proof.
  assert (G : forall id t, sys_find ex_types id = Some t -> In (id, t) (ss_types ex_layout)) by (intros; now apply (find_In ex_layout ex_ordered)).
  split; (apply La_node; [now apply G| |]); try (intros r [r0 E]; discriminate E);
    (constructor; [|constructor; [|constructor]]); cbn [fst snd known_role]; (apply La_node; [now apply G|exact I|constructor]).
Qed.
Example C53_variants_case : Forall2 (fun tag x => In (ATag tag) (x_attrs x)) [0; 1] (x_content (drawn (ex_left_right 0 1))).
Proof.
  pose proof (C53_variants_partial ex_layout 11 None [] _ _ _ _ _ (proj1 ex_left_right_laid) ltac:(repeat constructor)) as H.
  cut (forall vs l, Forall2 (fun (e : variant * semid) x => x_subject x = SjName (v_name (fst e)) /\ forall tag, In (ATag tag) (x_attrs x) <-> tag = v_tag (fst e)) vs l ->
       Forall2 (fun tag x => In (ATag tag) (x_attrs x)) (map (fun e => v_tag (fst e)) vs) l).
  - intros C. apply (C [(mkVariant "left" 0, 1); (mkVariant "right" 1, 6)]), H. intros [|[|[|]]] e E; try discriminate E; now injection E as <-.
  - clear. intros vs l F. induction F as [|e x vs l [_ A]]; constructor; auto. now apply A.
Qed.
Print Assumptions C53_variants_partial.
Example C53_variants_exact_case : ~ Forall2 (fun e x => x_subject x = SjName (v_name (fst e)) /\ forall tag, In (ATag tag) (x_attrs x) <-> tag = v_tag (fst e))
  [(mkVariant "left" 3, 1); (mkVariant "right" 7, 6)] (x_content (drawn (ex_left_right 3 7))).
Proof.
  intros F0. pose proof (proj1 (C53_variants_exact ex_layout 10 None [] [(mkVariant "left" 3, 1); (mkVariant "right" 7, 6)] _ _ _ _ (proj2 ex_left_right_laid)) F0) as F.
  specialize (F 0%nat _ _ eq_refl eq_refl). destruct F as [F _]. discriminate (F eq_refl).
Qed.
Print Assumptions C53_variants_exact.

(** The tags of enumerations are shown with their names. *)
Theorem C53_enum_partial : forall vs n role ws trs v,
  In v vs -> In (AEnumVariant (v_tag v) (v_name v)) (x_attrs (drawn (Tree (TEnum vs) n role ws trs))).
Proof.
  intros vs n role ws trs v I. destruct (drawn_enum vs n role ws trs) as (a & b & ->). rewrite !in_app_iff. right. left.
  exact (in_map (fun v => AEnumVariant (v_tag v) (v_name v)) _ _ I).
Qed.
Example C53_enum_case : In (AEnumVariant 5 "five") (x_attrs (drawn (Tree (TEnum [mkVariant "five" 5]) None None [] []))).
Proof. apply (C53_enum_partial [mkVariant "five" 5] None None [] [] (mkVariant "five" 5)). now left. Qed.
Print Assumptions C53_enum_partial.

(** Lengths of arrays, bounds of collections and primitive types are shown. *)
Lemma type_attr t n role ws trs a : In a (vesper_type_attrs t) -> In a (x_attrs (drawn (Tree t n role ws trs))).
Proof.
  intros I. cbn [drawn x_attrs]. unfold shown, info_vesper. cbn [i_fqn i_item i_ty i_nested].
  destruct (vesper_subject n role) as [[s b] c]. destruct (fold_left _ _ _) as [p l]. cbn [x_attrs]. rewrite !in_app_iff. auto.
Qed.
Definition by_type (a : attr) : bool := match a with ALen _ | APrimName _ => true | _ => false end.
Lemma nested_by_type ws : forall p l p' l' a, by_type a = true ->
  fold_left (fun '(p, l) n => let (p, l') := vesper_nested p n in (p, l ++ l')%list) ws (p, l) = (p', l') -> ~ In a l -> ~ In a l'.
Proof.
  induction ws as [|w ws IH]; intros p l p' l' a B E N; [now injection E as <- <-|].
  cbn [fold_left] in E. destruct (vesper_nested p w) as [p1 l1] eqn:V. apply (IH _ _ _ _ a B) in E; [exact E|].
  rewrite in_app_iff. intros [H|H]; [now apply N|]. revert V H. unfold vesper_nested.
  destruct w as [q| | |q| |q q' s]; try destruct q; try destruct q'; intros [= _ <-]; cbn; destruct a; try discriminate B; intuition discriminate.
Qed.
Lemma only_type_attr t n role ws trs a : by_type a = true -> In a (x_attrs (drawn (Tree t n role ws trs))) -> In a (vesper_type_attrs t).
Proof.
  intros B. cbn [drawn x_attrs]. unfold shown, info_vesper. cbn [i_fqn i_item i_ty i_nested].
  destruct (vesper_subject n role) as [[s b] c] eqn:S.
  match goal with |- context [fold_left ?f ws ?x] => destruct (fold_left f ws x) as [p l] eqn:F end. cbn [x_attrs]. rewrite !in_app_iff.
  intros [H|[H|[H|[H|H]]]]; [|exact H| | |]; exfalso.
  - revert S H. unfold vesper_subject. intros E H.
    repeat match type of E with context [match ?x with _ => _ end] => destruct x end; injection E as <- <- <-; destruct a; try discriminate B; cbn in H; intuition discriminate.
  - exact (nested_by_type _ _ _ _ _ a B F (fun x => x) H).
  - destruct t; cbn in H; try tauto. apply in_map_iff in H as (v & <- & _). discriminate B.
  - destruct role as [[]|]; cbn in H; try tauto. destruct H as [<-|[]]. discriminate B.
Qed.
Theorem C53_length : forall r len n role ws trs k, In (ALen k) (x_attrs (drawn (Tree (TArray r len) n role ws trs))) <-> k = len.
Proof.
  intros r len n role ws trs k. split; [intros H|intros ->; apply type_attr; now left].
  apply only_type_attr in H; [|reflexivity]. destruct H as [[= ->]|[]]. reflexivity.
Qed.
Theorem C53_bounds : forall t n role ws trs s, (exists r, t = TList r s \/ t = TSet r s \/ exists k, t = TMap k r s) ->
  In (ALenRange (s_min s) (s_max s)) (x_attrs (drawn (Tree t n role ws trs))).
Proof. intros t n role ws trs s (r & [->|[->|(k & ->)]]); apply type_attr; now left. Qed.
Theorem C53_primitive : forall c n role ws trs k, c <> P_UNIT ->
  In (APrimName k) (x_attrs (drawn (Tree (TPrim c) n role ws trs))) <-> k = c.
Proof.
  intros c n role ws trs k U. apply N.eqb_neq in U. split; [intros H|intros ->; apply type_attr; cbn; rewrite U; now left].
  apply only_type_attr in H; [|reflexivity]. cbn in H. rewrite U in H. destruct H as [[= ->]|[]]. reflexivity.
Qed.
(** So are the options and the names of the types which wrap a type, and what is known of restricted strings. *)
Lemma nested_in ws : forall p l p' l' a,
  fold_left (fun '(p, l) n => let (p, l') := vesper_nested p n in (p, l ++ l')%list) ws (p, l) = (p', l') ->
  (In a l \/ exists w, In w ws /\ In a (snd (vesper_nested p w))) -> In a l'.
Proof.
  induction ws as [|w ws IH]; intros p l p' l' a E H.
  - injection E as <- <-. destruct H as [H|(w & [] & _)]. exact H.
  - cbn [fold_left] in E. destruct (vesper_nested p w) as [p1 l1] eqn:V. apply (IH _ _ _ _ a E). rewrite in_app_iff.
    destruct H as [H|(w' & [<-|I] & H)]; [auto|left; right; now rewrite V in H|right; exists w'; split; [exact I|]].
    destruct w'; exact H.
Qed.
Theorem C53_wrappers : forall t n role ws trs w, In w ws ->
  let attrs := x_attrs (drawn (Tree t n role ws trs)) in
  match w with
  | NOption => In AOption attrs
  | NNewType q => In (AWrapped (option_map q_name q)) attrs
  | NAsciiStr (Some q) => In (AAsciiEnum (q_name q)) attrs
  | NRStr first rest s => In (ALenRange (s_min s) (s_max s)) attrs
      /\ (forall q, first = Some q -> In (AAsciiFirst (q_name q)) attrs) /\ (forall q, rest = Some q -> In (AAsciiRest (q_name q)) attrs)
  | _ => True
  end.
Proof.
  intros t n role ws trs w I attrs.
  assert (H : forall a, (forall p, In a (snd (vesper_nested p w))) -> In a attrs).
  { intros a H. unfold attrs. cbn [drawn x_attrs]. unfold shown, info_vesper. cbn [i_fqn i_item i_ty i_nested].
    destruct (vesper_subject n role) as [[s b] c].
    match goal with |- context [fold_left ?f ws ?x] => destruct (fold_left f ws x) as [p l] eqn:F end. cbn [x_attrs]. rewrite !in_app_iff.
    right. right. left. apply (nested_in _ _ _ _ _ a F). right. eauto. }
  destruct w as [q| | |q| |first rest s]; try exact Logic.I.
  - apply H. intros p. now left.
  - apply H. intros p. now left.
  - destruct q as [q|]; [|exact Logic.I]. apply H. intros p. now left.
  - split; [|split; intros q ->]; apply H; intros p; cbn; rewrite !in_app_iff; cbn; auto.
Qed.
Example C53_attrs_case : x_attrs (drawn (Tree (TArray 1 4) None (Some (CUnnamedField 0)) [NNewType (Some (mkFqn "Lib" "Quad")); NOption] []))
  = [ALen 4; AWrapped (Some "Quad"); AOption].
Proof. reflexivity. Qed.
Print Assumptions C53_length.
Print Assumptions C53_bounds.
Print Assumptions C53_primitive.
Print Assumptions C53_wrappers.

(** Variants are shown with their positions and not with their tags: two unions have the same layout although
    the same value is encoded differently. *)
Theorem C53_refuted : exists sys id1 id2 tr1 tr2 vs e v b1 b2,
  laid sys id1 None [] tr1 /\ laid sys id2 None [] tr2 /\ In (id1, TUnion vs) (ss_types sys)
  /\ (forall dbg, returns (fun fuel => to_layout fuel dbg sys id1) (Ok (items_of 0 tr1)) /\ to_vesper dbg (items_of 0 tr1) = Ok e)
  /\ (forall dbg, returns (fun fuel => to_layout fuel dbg sys id2) (Ok (items_of 0 tr2)) /\ to_vesper dbg (items_of 0 tr2) = Ok e)
  /\ Forall2 (fun w x => ~ In (ATag (v_tag (fst w))) (x_attrs x)) vs (x_content e)
  /\ wire 1000 (ss_types sys) id1 v b1 /\ wire 1000 (ss_types sys) id2 v b2 /\ b1 <> b2.
Proof.
  destruct ex_left_right_laid as [L1 L2].
  exists ex_layout, 10, 11, (ex_left_right 3 7), (ex_left_right 0 1), [(mkVariant "left" 3, 1); (mkVariant "right" 7, 6)], (drawn (ex_left_right 0 1)).
  exists (VUnion (Name "left") (VNum (Uint 5))), [Byte.x03; Byte.x05], [Byte.x00; Byte.x05].
  split; [exact L2|]. split; [exact L1|]. split; [apply (find_In ex_layout ex_ordered); reflexivity|].
  split; [|split; [|split; [|split; [|split]]]].
  - intros dbg. split; [|now destruct dbg].
    apply (C51_partial dbg ex_layout 10 ex_ordered ex_complete ex_consistent ex_acyclic (ex_iterable dbg)); [cbn; auto 20|exact L2|].
    vm_compute. repeat split; discriminate.
  - intros dbg. split; [|now destruct dbg].
    apply (C51_partial dbg ex_layout 11 ex_ordered ex_complete ex_consistent ex_acyclic (ex_iterable dbg)); [cbn; auto 20|exact L1|].
    vm_compute. repeat split; discriminate.
  - repeat constructor; vm_compute; intuition discriminate.
  - apply (W_union _ _ 10 [(mkVariant "left" 3, 1); (mkVariant "right" 7, 6)] (mkVariant "left" 3) 1); [reflexivity|now left|reflexivity|].
    apply (W_uint _ _ 1 P_U8 1 [Byte.x05]); reflexivity.
  - apply (W_union _ _ 11 [(mkVariant "left" 0, 1); (mkVariant "right" 1, 6)] (mkVariant "left" 0) 1); [reflexivity|now left|reflexivity|].
    apply (W_uint _ _ 1 P_U8 1 [Byte.x05]); reflexivity.
  - discriminate.
Qed.
Print Assumptions C53_refuted.

(** The name of an optional field is not shown: the item is called after the variant of the option. *)
Theorem C53_option_refuted : exists sys id tr name r,
  laid sys id None [] tr /\ In (id, TStruct [(name, r)]) (ss_types sys)
  /\ (forall dbg, returns (fun fuel => to_layout fuel dbg sys id) (Ok (items_of 0 tr)) /\ to_vesper dbg (items_of 0 tr) = Ok (drawn tr))
  /\ map x_subject (x_content (drawn tr)) = [SjName "some"] /\ name <> "some".
Proof.
  assert (G : forall id t, sys_find ex_types id = Some t -> In (id, t) (ss_types ex_layout)) by (intros; now apply (find_In ex_layout ex_ordered)).
  exists ex_layout, 12, ex_first, "only", 7.
  assert (L : laid ex_layout 12 None [] ex_first).
  { apply La_node; [now apply G|exact I|]. constructor; [|constructor]. cbn [fst snd known_role].
    eapply La_option; [now apply G|eexists; reflexivity|]. apply La_node; [now apply G|exact I|constructor]. }
  split; [exact L|]. split; [now apply G|]. split; [|split; [reflexivity|discriminate]].
  intros dbg. split; [|now destruct dbg].
  apply (C51_partial dbg ex_layout 12 ex_ordered ex_complete ex_consistent ex_acyclic (ex_iterable dbg)); [cbn; auto 20|exact L|].
  vm_compute. repeat split; discriminate.
Qed.
Print Assumptions C53_option_refuted.

(** The name of the type of an item is always shown: fields with names, variants of unions, keys and values of maps
    have it among their attributes, all other items are called by it. *)
Theorem C53_type_names : forall t q role ws trs, q_name q <> "_"%string ->
  match role with
  | Some (CNamedField _ _) | Some (CUnionVariant _ _) | Some CMapKey | Some CMapValue =>
      In (ATypeName (q_name q)) (x_attrs (drawn (Tree t (Some q) role ws trs)))
  | _ => x_subject (drawn (Tree t (Some q) role ws trs)) = SjName (q_name q)
  end.
Proof.
  intros t q role ws trs N. apply String.eqb_neq in N.
  destruct role as [[]|]; cbn [drawn x_attrs x_subject]; unfold shown, info_vesper; cbn [i_fqn i_item i_ty i_nested];
    unfold vesper_subject; rewrite ?N; destruct (fold_left _ _ _) as [p l]; cbn [x_attrs x_subject]; try reflexivity; now left.
Qed.
Print Assumptions C53_type_names.

Example C53_type_names_ex : exists q, q_name q <> "_"%string
  /\ In (ATypeName (q_name q)) (x_attrs (drawn (Tree (TPrim P_U8) (Some q) (Some (CNamedField 0 "amount")) [] [])))
  /\ x_subject (drawn (Tree (TPrim P_U8) (Some q) (Some (CNamedField 0 "amount")) [] [])) = SjName "amount"
  /\ x_subject (drawn (Tree (TPrim P_U8) (Some q) (Some CListItem) [] [])) = SjName (q_name q).
Proof. exists (mkFqn "Lib" "Amount"). split; [discriminate|]. split; [now left|]. split; reflexivity. Qed.
