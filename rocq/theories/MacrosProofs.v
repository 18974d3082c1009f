(** The search tree of variants keeps what was put into it in the order of tags. *)
From Coq Require Import NArith List Bool String Strings.Byte Sorted Lia.
From Verif Require Import Base Ty Ids TypeSys Typify LibCodec SpecLib Macros.
Import ListNotations.
Local Open Scope N_scope.
Local Open Scope list_scope.

Section Tree.
Context {E : Type} (key : E -> N) (same : E -> E -> Prop) (cmp : E -> E -> comparison).
Context (cmp_eq : forall k e, cmp k e = Eq -> same k e) (cmp_lt : forall k e, cmp k e = Lt -> key k < key e)
  (cmp_gt : forall k e, cmp k e = Gt -> key e < key k).
Notation below := (fun a b => key a < key b).
Notation sorted := (StronglySorted below).

Lemma sorted_app a : forall b, sorted (a ++ b) <-> sorted a /\ sorted b /\ forall x y, In x a -> In y b -> key x < key y.
Proof.
  induction a as [|e a IH]; intros b; cbn [app].
  - split; [intros S; repeat split; [constructor|exact S|intros x y []]|tauto].
  - split.
    + intros S. inversion S as [|? ? S' F]; subst. apply IH in S' as (A & B & C). rewrite Forall_app in F. destruct F as [F F'].
      rewrite Forall_forall in F'. repeat split; [now constructor|exact B|]. intros x y [<-|I] J; auto.
    + intros (A & B & C). inversion A as [|? ? A' F]; subst. constructor.
      * apply IH. repeat split; auto. intros x y I J. apply C; [now right|exact J].
      * apply Forall_app. split; [exact F|]. apply Forall_forall. intros y J. apply C; [now left|exact J].
Qed.

Definition result_items (r : inserted E) : list E :=
  match r with Found => [] | Done t => tree_items t | Split a x b => tree_items a ++ x :: tree_items b end.
Definition placed (k : E) (old : list E) (r : inserted E) : Prop :=
  match r with
  | Found => exists e, In e old /\ same k e
  | _ => exists a b, old = a ++ b /\ result_items r = a ++ k :: b
         /\ (forall x, In x a -> key x < key k) /\ (forall x, In x b -> key k < key x)
  end.

Lemma firstn_skipn_cons {A} n (l : list A) x r : skipn n l = x :: r -> firstn n l ++ x :: r = l.
Proof. intros H. rewrite <- H. apply firstn_skipn. Qed.
Lemma fit_leaf_items i l : fit_leaf i l <> Found /\ result_items (fit_leaf (E := E) i l) = l.
Proof.
  unfold fit_leaf. destruct (Nat.leb _ 11); [split; [discriminate|reflexivity]|].
  destruct (skipn (goes_up i) l) as [|e r] eqn:S; (split; [discriminate|]); [reflexivity|]. cbn [result_items tree_items]. now apply firstn_skipn_cons.
Qed.
Notation flat := (flat_map (fun c : tree E * E => tree_items (fst c) ++ [snd c])).
Lemma fit_node_items i l last : fit_node i l last <> Found /\ result_items (fit_node (E := E) i l last) = flat l ++ tree_items last.
Proof.
  unfold fit_node. destruct (Nat.leb _ 11); [split; [discriminate|reflexivity]|].
  destruct (skipn (goes_up i) l) as [|[c e] r] eqn:S; (split; [discriminate|]); [reflexivity|]. cbn [result_items tree_items].
  apply firstn_skipn_cons in S. rewrite <- S at 2. rewrite flat_map_app. cbn [flat_map fst snd]. rewrite <- !app_assoc. reflexivity.
Qed.
Lemma placed_items k old r a b : r <> Found -> old = a ++ b -> result_items r = a ++ k :: b ->
  (forall x, In x a -> key x < key k) -> (forall x, In x b -> key k < key x) -> placed k old r.
Proof. intros N O R A B. destruct r; [congruence| |]; exists a, b; auto. Qed.

Lemma leaf_placed k l : forall seen, sorted (seen ++ l) -> (forall x, In x seen -> key x < key k) ->
  placed k (seen ++ l) (leaf_insert cmp k seen l).
Proof.
  induction l as [|e l IH]; intros seen S B; cbn [leaf_insert].
  - destruct (fit_leaf_items (List.length seen) (seen ++ [k])) as [N R]. eapply placed_items; eauto. intros x [].
  - destruct (cmp k e) eqn:C.
    + exists e. split; [apply in_or_app; right; now left|now apply cmp_eq].
    + destruct (fit_leaf_items (List.length seen) (seen ++ k :: e :: l)) as [N R]. eapply placed_items; eauto.
      apply cmp_lt in C. apply sorted_app in S as (_ & S & _). inversion S as [|? ? _ F]; subst. rewrite Forall_forall in F.
      intros x [<-|I]; [exact C|]. specialize (F _ I). cbn in F. lia.
    + apply cmp_gt in C. replace (seen ++ e :: l) with ((seen ++ [e]) ++ l) by now rewrite <- app_assoc. apply IH.
      * now rewrite <- app_assoc.
      * intros x I. apply in_app_or in I as [I|[<-|[]]]; auto.
Qed.

Fixpoint tree_rect' (P : tree E -> Prop) (L : forall l, P (Leaf l))
  (N : forall before last, Forall (fun c => P (fst c)) before -> P last -> P (Node before last)) (t : tree E) : P t :=
  match t with
  | Leaf l => L l
  | Node before last =>
      N before last
        ((fix go l : Forall (fun c => P (fst c)) l :=
            match l with [] => Forall_nil _ | c :: l => Forall_cons c (tree_rect' P L N (fst c)) (go l) end) before)
        (tree_rect' P L N last)
  end.

Lemma placed_wrap k old r pre post new : placed k old r -> r <> Found -> new <> Found -> result_items new = pre ++ result_items r ++ post ->
  (forall x, In x pre -> key x < key k) -> (forall x, In x post -> key k < key x) -> placed k (pre ++ old ++ post) new.
Proof.
  intros P NF NF' R A B.
  assert (X : exists a b, old = a ++ b /\ result_items r = a ++ k :: b
         /\ (forall x, In x a -> key x < key k) /\ (forall x, In x b -> key k < key x)) by (destruct r; [congruence|exact P|exact P]).
  destruct X as (a & b & -> & E2 & A' & B'). apply (placed_items k _ new (pre ++ a) (b ++ post)); auto.
  - now rewrite <- !app_assoc.
  - rewrite R, E2, <- !app_assoc. reflexivity.
  - intros x I. apply in_app_or in I as [I|I]; auto.
  - intros x I. apply in_app_or in I as [I|I]; auto.
Qed.

Lemma tree_placed k t : sorted (tree_items t) -> placed k (tree_items t) (tree_insert cmp k t).
Proof.
  induction t as [l|before last F IL] using tree_rect'; intros S.
  - cbn. apply (leaf_placed k l []); [exact S|intros x []].
  - cbn [tree_insert]. cbn [tree_items] in S |- *.
    match goal with |- placed _ _ (?f [] before) => set (go := f) end.
    assert (G : forall l seen, Forall (fun c => sorted (tree_items (fst c)) -> placed k (tree_items (fst c)) (tree_insert cmp k (fst c))) l ->
      sorted (flat (seen ++ l) ++ tree_items last) -> (forall x, In x (flat seen) -> key x < key k) ->
      placed k (flat (seen ++ l) ++ tree_items last) (go seen l)).
    { clear S F. induction l as [|[c e] l IH]; intros seen F S B.
      - cbn [go]. subst go. cbn beta iota. rewrite app_nil_r in *. apply sorted_app in S as (_ & SL & _). specialize (IL SL).
        destruct (tree_insert cmp k last) as [|t|a x b] eqn:T.
        + destruct IL as (e & I & X). exists e. split; [apply in_or_app; now right|exact X].
        + pose proof (placed_wrap k (tree_items last) (Done t) (flat seen) [] (Done (Node seen t)) IL) as W. rewrite !app_nil_r in W. apply W; auto; discriminate || (intros x []).
        + pose proof (placed_wrap k (tree_items last) (Split a x b) (flat seen) [] (fit_node (List.length seen) (seen ++ [(a, x)]) b) IL) as W.
          rewrite !app_nil_r in W. destruct (fit_node_items (List.length seen) (seen ++ [(a, x)]) b) as [N R].
          apply W; auto; [discriminate| |intros y []].
          rewrite R, flat_map_app. cbn [flat_map fst snd result_items]. rewrite app_nil_r, <- !app_assoc. reflexivity.
      - inversion F as [|? ? FC F']; subst. cbn [fst] in FC. subst go. cbn beta iota. cbn [fst snd].
        assert (L : flat (seen ++ (c, e) :: l) ++ tree_items last = flat seen ++ tree_items c ++ e :: flat l ++ tree_items last).
        { rewrite flat_map_app. cbn [flat_map fst snd]. now rewrite <- !app_assoc. }
        rewrite L in S. pose proof S as S0. apply sorted_app in S as (_ & S & _). apply sorted_app in S as (SC & SE & CE).
        inversion SE as [|? ? _ FE]; subst. rewrite Forall_forall in FE.
        destruct (cmp k e) eqn:C.
        + exists e. split; [|now apply cmp_eq]. rewrite L. apply in_or_app; right. apply in_or_app; right. now left.
        + apply cmp_lt in C. specialize (FC SC). rewrite L.
          assert (P : forall x, In x (e :: flat l ++ tree_items last) -> key k < key x).
          { intros x [<-|I]; [exact C|]. specialize (FE _ I). cbn in FE. lia. }
          destruct (tree_insert cmp k c) as [|t|a x b] eqn:T.
          * destruct FC as (y & I & X). exists y. split; [|exact X]. apply in_or_app; right. apply in_or_app; now left.
          * eapply placed_wrap; [exact FC|discriminate|discriminate| |exact B|exact P].
            cbn [result_items tree_items]. rewrite flat_map_app. cbn [flat_map fst snd]. now rewrite <- !app_assoc.
          * destruct (fit_node_items (List.length seen) (seen ++ (a, x) :: (b, e) :: l) last) as [N R].
            eapply placed_wrap; [exact FC|discriminate|exact N| |exact B|exact P].
            rewrite R, flat_map_app. cbn [flat_map fst snd result_items]. now rewrite <- !app_assoc.
        + apply cmp_gt in C. replace (seen ++ (c, e) :: l) with ((seen ++ [(c, e)]) ++ l) by now rewrite <- app_assoc.
          apply IH; [exact F'| |].
          * rewrite <- app_assoc. cbn [app]. now rewrite L.
          * intros x I. rewrite flat_map_app in I. apply in_app_or in I as [I|I]; [auto|]. cbn [flat_map fst snd] in I. rewrite app_nil_r in I.
            apply in_app_or in I as [I|[<-|[]]]; [|exact C]. specialize (CE x e I (or_introl eq_refl)). lia. }
    apply (G before []); [exact F|exact S|intros x []].
Qed.

Lemma root_placed k t : sorted (tree_items t) ->
  match root_insert cmp k t with
  | None => exists e, In e (tree_items t) /\ same k e
  | Some t' => exists a b, tree_items t = a ++ b /\ tree_items t' = a ++ k :: b
       /\ (forall x, In x a -> key x < key k) /\ (forall x, In x b -> key k < key x)
  end.
Proof.
  intros S. pose proof (tree_placed k t S) as P. unfold root_insert. destruct (tree_insert cmp k t) as [|t'|a x b]; [exact P|exact P|].
  destruct P as (a' & b' & E1 & E2 & A & B). exists a', b'. split; [exact E1|]. split; [|auto].
  cbn [tree_items flat_map fst snd]. rewrite <- E2. cbn [result_items]. now rewrite app_nil_r, <- app_assoc.
Qed.
Lemma root_sorted k t t' : sorted (tree_items t) -> root_insert cmp k t = Some t' -> sorted (tree_items t').
Proof.
  intros S R. pose proof (root_placed k t S) as P. rewrite R in P. destruct P as (a & b & E1 & E2 & A & B). rewrite E2.
  rewrite E1 in S. apply sorted_app in S as (SA & SB & AB). apply sorted_app. split; [exact SA|]. split.
  - constructor; [exact SB|]. apply Forall_forall. exact B.
  - intros x y I [<-|J]; auto.
Qed.
End Tree.
