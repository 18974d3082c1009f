(** Properties of the macros which make types: C77, C78. *)
From Coq Require Import NArith List Bool String Strings.Byte Sorted Permutation PeanoNat Lia.
From Verif Require Import Base Ty Ids TypeSys Typify LibCodec SpecIds SpecLib LibCodecProofs Ston StonProofs Macros SpecMacros MacrosProofs.
Import ListNotations.
Local Open Scope N_scope.
Local Open Scope list_scope.

Definition entry_key {A} (e : variant * A) : N := v_tag (fst e).
Definition same_entry {A} (k e : variant * A) : Prop := v_tag (fst k) = v_tag (fst e) \/ v_name (fst k) = v_name (fst e).
Lemma entry_eq {A} (k e : variant * A) : entry_cmp k e = Eq -> same_entry k e.
Proof.
  unfold entry_cmp, variant_cmp, same_entry. destruct (N.eqb_spec (v_tag (fst k)) (v_tag (fst e))); [auto|].
  destruct (String.eqb_spec (v_name (fst k)) (v_name (fst e))); [auto|]. cbn [orb]. intros H. now apply N.compare_eq in H.
Qed.
Lemma entry_lt {A} (k e : variant * A) : entry_cmp k e = Lt -> entry_key k < entry_key e.
Proof. unfold entry_cmp, variant_cmp, entry_key. destruct (_ || _); [discriminate|]. apply N.compare_lt_iff. Qed.
Lemma entry_gt {A} (k e : variant * A) : entry_cmp k e = Gt -> entry_key e < entry_key k.
Proof. unfold entry_cmp, variant_cmp, entry_key. destruct (_ || _); [discriminate|]. intros H. now apply N.compare_gt_iff. Qed.

Notation by_tag := (StronglySorted (fun a b => entry_key a < entry_key b)).

Lemma insert_new_cases {A} (e : variant * A) m : by_tag (tree_items m) ->
  (insert_new e m = Panic /\ exists x, In x (tree_items m) /\ same_entry e x)
  \/ exists m' a b, insert_new e m = Ok m' /\ by_tag (tree_items m') /\ tree_items m = a ++ b /\ tree_items m' = a ++ e :: b
     /\ (forall x, In x a -> entry_key x < entry_key e) /\ (forall x, In x b -> entry_key e < entry_key x).
Proof.
  intros S. pose proof (root_placed entry_key same_entry entry_cmp entry_eq entry_lt entry_gt e m S) as P.
  unfold insert_new. destruct (root_insert entry_cmp e m) as [m'|] eqn:R; [right|left; auto].
  destruct P as (a & b & E1 & E2 & L & H). exists m', a, b. split; [reflexivity|]. split; [|auto].
  exact (root_sorted entry_key same_entry entry_cmp entry_eq entry_lt entry_gt e m m' S R).
Qed.

Lemma checked_ok n : checked n = Ok n <-> field_name n.
Proof.
  unfold checked. destruct (Typify.name_ok n) eqn:E; split; intros H; try discriminate H; try reflexivity.
  - now apply field_name_iff.
  - apply field_name_iff in H. congruence.
Qed.
Lemma checked_cases n : (checked n = Ok n /\ field_name n) \/ (checked n = Panic /\ ~ field_name n).
Proof.
  unfold checked. destruct (Typify.name_ok n) eqn:E; [left|right]; split; auto.
  - now apply field_name_iff.
  - intros H. apply field_name_iff in H. congruence.
Qed.
Lemma confined_cases {A} (l : list A) : (confined l = Ok l /\ sized 1 255 l) \/ (confined l = Panic /\ ~ sized 1 255 l).
Proof.
  unfold confined, within, sized. change u8_max with 255. destruct (N.leb_spec 1 (lenN l)), (N.leb_spec (lenN l) 255); cbn; [left|right|right|right]; split; auto; lia.
Qed.

(** ** Variants with tags *)

Lemma insert_tagged_ok {A} (es : list (string * N * A)) : forall m m', by_tag (tree_items m) -> insert_tagged es m = Ok m' ->
  by_tag (tree_items m') /\ Permutation (tree_items m') (map tagged_variant es ++ tree_items m) /\ Forall (fun e => field_name (entry_name e)) es.
Proof.
  induction es as [|[[n t] v] es IH]; intros m m' S H; cbn [insert_tagged] in H.
  - injection H as <-. split; [exact S|]. split; [apply Permutation_refl|constructor].
  - destruct (checked_cases n) as [[C F]|[C _]]; rewrite C in H; cbn [bind] in H; [|discriminate H].
    destruct (insert_new_cases (mkVariant n t, v) m S) as [[Q _]|(m1 & a & b & Q & S1 & E1 & E2 & _)]; rewrite Q in H; cbn [bind] in H; [discriminate H|].
    destruct (IH m1 m' S1 H) as (S' & P & F'). split; [exact S'|]. split; [|now constructor].
    eapply Permutation_trans; [exact P|]. cbn [map app]. change (tagged_variant (n, t, v)) with (mkVariant n t, v).
    rewrite E2, E1. apply Permutation_trans with (map tagged_variant es ++ (mkVariant n t, v) :: a ++ b).
    + apply Permutation_app_head. apply Permutation_sym, Permutation_middle.
    + apply Permutation_sym, Permutation_middle.
Qed.
Lemma insert_tagged_total {A} (es : list (string * N * A)) : forall m, by_tag (tree_items m) -> Forall (fun e => field_name (entry_name e)) es ->
  NoDup (map entry_name es ++ map (fun x => v_name (fst x)) (tree_items m)) -> NoDup (map entry_tag es ++ map entry_key (tree_items m)) ->
  exists m', insert_tagged es m = Ok m'.
Proof.
  induction es as [|[[n t] v] es IH]; intros m S F N T; cbn [insert_tagged]; [eauto|].
  inversion F as [|? ? FN F']; subst. apply checked_ok in FN. change (entry_name (n, t, v)) with n in FN. rewrite FN. cbn [bind].
  cbn [map app] in N, T. change (entry_name (n, t, v)) with n in N. change (entry_tag (n, t, v)) with t in T.
  destruct (insert_new_cases (mkVariant n t, v) m S) as [[_ (x & I & X)]|(m1 & a & b & Q & S1 & E1 & E2 & _)].
  - exfalso. inversion N as [|? ? NN _]; inversion T as [|? ? TT _]; subst. destruct X as [X|X]; cbn [fst v_tag v_name] in X.
    + apply TT. apply in_or_app; right. rewrite X. now apply (in_map entry_key).
    + apply NN. apply in_or_app; right. rewrite X. now apply (in_map (fun x => v_name (fst x))).
  - rewrite Q. cbn [bind]. apply IH; [exact S1|exact F'| |].
    + eapply Permutation_NoDup; [|exact N]. rewrite E2, E1, !map_app. cbn [map fst v_name].
      eapply Permutation_trans; [apply Permutation_middle|]. apply Permutation_app_head. apply Permutation_middle.
    + eapply Permutation_NoDup; [|exact T]. rewrite E2, E1, !map_app. cbn [map fst]. change (entry_key (mkVariant n t, v)) with t.
      eapply Permutation_trans; [apply Permutation_middle|]. apply Permutation_app_head. apply Permutation_middle.
Qed.
Lemma insert_tagged_panic {A} (es : list (string * N * A)) m : (exists m', insert_tagged es m = Ok m') \/ insert_tagged es m = Panic.
Proof.
  revert m. induction es as [|[[n t] v] es IH]; intros m; cbn [insert_tagged]; [eauto|].
  unfold checked. destruct (Typify.name_ok n); cbn [bind]; [|auto]. unfold insert_new. destruct (root_insert _ _ _); cbn [bind]; auto.
Qed.
Lemma empty_sorted {A} : by_tag (tree_items (Leaf (@nil (variant * A)))).
Proof. constructor. Qed.

(** Whatever is accepted has the variants as given, and they are in the order of their tags, which differ. *)
Theorem C77_tagged : forall A (es : list (string * N * A)) vs, variants_tagged es = Ok vs ->
  Permutation vs (map tagged_variant es) /\ increasing (fun a b => v_tag (fst a) < v_tag (fst b)) vs
  /\ Forall (fun e => field_name (entry_name e)) es /\ sized 1 255 es.
Proof.
  intros A es vs H. unfold variants_tagged in H. destruct (insert_tagged_panic es (Leaf [])) as [[m E]|E]; rewrite E in H; cbn [bind] in H; [|discriminate H].
  destruct (insert_tagged_ok es _ _ empty_sorted E) as (S & P & F). cbn [tree_items] in P. rewrite app_nil_r in P.
  destruct (confined_cases (tree_items m)) as [[C Z]|[C _]]; rewrite C in H; [|discriminate H]. injection H as <-.
  split; [exact P|]. split; [exact S|]. split; [exact F|]. unfold sized, lenN in *. apply Permutation_length in P. rewrite map_length in P. now rewrite <- P.
Qed.
Print Assumptions C77_tagged.

(** With different names and tags, 1 to 255 entries with valid names are accepted. *)
Theorem C77_accepted : forall A (es : list (string * N * A)), sized 1 255 es -> Forall (fun e => field_name (entry_name e)) es ->
  NoDup (map entry_name es) -> NoDup (map entry_tag es) -> exists vs, variants_tagged es = Ok vs.
Proof.
  intros A es Z F N T. unfold variants_tagged.
  destruct (insert_tagged_total es (Leaf []) empty_sorted F) as [m E]; [cbn [tree_items map]; now rewrite app_nil_r|cbn [tree_items map]; now rewrite app_nil_r|].
  rewrite E. cbn [bind]. destruct (insert_tagged_ok es _ _ empty_sorted E) as (_ & P & _). cbn [tree_items] in P. rewrite app_nil_r in P.
  destruct (confined_cases (tree_items m)) as [[C _]|[_ C]]; [eauto|]. destruct C. unfold sized, lenN in *.
  apply Permutation_length in P. rewrite map_length in P. now rewrite P.
Qed.
Print Assumptions C77_accepted.

Lemma sorted_permutation {B} (key : B -> N) a : forall b, StronglySorted (fun x y => key x < key y) a -> StronglySorted (fun x y => key x < key y) b ->
  Permutation a b -> a = b.
Proof.
  induction a as [|x a IH]; intros b SA SB P; [now apply Permutation_nil in P|]. destruct b as [|y b]; [apply Permutation_sym, Permutation_nil in P; discriminate P|].
  inversion SA as [|? ? SA' FA]; inversion SB as [|? ? SB' FB]; subst. rewrite Forall_forall in FA, FB.
  assert (E : x = y).
  { assert (I : In x (y :: b)) by (eapply Permutation_in; [exact P|now left]). assert (J : In y (x :: a)) by (eapply Permutation_in; [apply Permutation_sym, P|now left]).
    destruct I as [I|I]; [now symmetry|]. destruct J as [J|J]; [exact J|]. specialize (FA _ J). specialize (FB _ I). cbn in FA, FB. lia. }
  subst y. f_equal. apply IH; auto. now apply Permutation_cons_inv in P.
Qed.

(** The order of the entries does not matter. *)
Theorem C77_order : forall A (es es' : list (string * N * A)) vs vs', Permutation es es' ->
  variants_tagged es = Ok vs -> variants_tagged es' = Ok vs' -> vs = vs'.
Proof.
  intros A es es' vs vs' P H H'. apply C77_tagged in H as (P1 & S1 & _). apply C77_tagged in H' as (P2 & S2 & _).
  apply (sorted_permutation entry_key); [exact S1|exact S2|]. eapply Permutation_trans; [exact P1|]. eapply Permutation_trans; [apply Permutation_map; exact P|].
  now apply Permutation_sym.
Qed.
Print Assumptions C77_order.

(** ** Variants without tags *)

Lemma lenN_cons {B} (x : B) l : lenN (x :: l) = 1 + lenN l.
Proof. unfold lenN. cbn [List.length]. lia. Qed.
Lemma lenN_app {B} (a b : list B) : lenN (a ++ b) = lenN a + lenN b.
Proof. unfold lenN. rewrite app_length. lia. Qed.

Lemma at_end {A} (e : variant * A) m : by_tag (tree_items m) -> (forall x, In x (tree_items m) -> entry_key x < entry_key e) ->
  (insert_new e m = Panic /\ In (v_name (fst e)) (map (fun x => v_name (fst x)) (tree_items m)))
  \/ exists m', insert_new e m = Ok m' /\ by_tag (tree_items m') /\ tree_items m' = tree_items m ++ [e].
Proof.
  intros S B. destruct (insert_new_cases e m S) as [[Q (x & I & X)]|(m' & a & b & Q & S' & E1 & E2 & _ & H)]; [left|right].
  - split; [exact Q|]. specialize (B x I). unfold entry_key in B. destruct X as [X|X]; [lia|]. rewrite X. now apply (in_map (fun x => v_name (fst x))).
  - exists m'. split; [exact Q|]. split; [exact S'|]. destruct b as [|y b]; [now rewrite E2, E1, app_nil_r|].
    specialize (H y (or_introl eq_refl)). assert (I : In y (tree_items m)) by (rewrite E1; apply in_or_app; right; now left). specialize (B y I). lia.
Qed.

Fixpoint number {A} (tag : N) (es : list (string * A)) : list (variant * A) :=
  match es with [] => [] | (n, v) :: es => (mkVariant n tag, v) :: number (tag + 1) es end.
Lemma number_length {A} (es : list (string * A)) : forall t, lenN (number t es) = lenN es.
Proof. unfold lenN. induction es as [|[n v] es IH]; intros t; cbn [number List.length]; [reflexivity|]. specialize (IH (t + 1)). lia. Qed.
Lemma number_nth {A} (es : list (string * A)) : forall t i n v, nth_error es i = Some (n, v) -> nth_error (number t es) i = Some (mkVariant n (t + N.of_nat i), v).
Proof.
  induction es as [|[n' v'] es IH]; intros t [|i] n v H; cbn [nth_error number] in *; try discriminate H.
  - injection H as -> ->. now rewrite N.add_0_r.
  - rewrite (IH (t + 1) i n v H). do 3 f_equal. lia.
Qed.
Lemma number_numbered {A} (es : list (string * A)) : numbered es (number 0 es).
Proof. split; [apply number_length|]. intros i n v H. now apply (number_nth es 0 i n v). Qed.
Lemma number_names {A} (es : list (string * A)) : forall t, map (fun x => v_name (fst x)) (number t es) = map fst es.
Proof. induction es as [|[n v] es IH]; intros t; cbn [number map fst v_name]; [reflexivity|]. now rewrite IH. Qed.

Definition before_tag {A} (t : N) (m : tree (variant * A)) : Prop :=
  by_tag (tree_items m) /\ forall x, In x (tree_items m) -> entry_key x < t.
Lemma before_end {A} t (e : variant * A) m m' : entry_key e = t -> before_tag t m -> by_tag (tree_items m') -> tree_items m' = tree_items m ++ [e] -> before_tag (t + 1) m'.
Proof.
  intros K [_ B] S E. split; [exact S|]. intros x I. rewrite E in I. apply in_app_or in I as [I|[<-|[]]]; [specialize (B x I); lia|lia].
Qed.

Lemma counted_ok {A} dbg (es : list (string * A)) : forall t m m', before_tag t m -> t + lenN es <= 255 -> insert_counted dbg t es m = Ok m' ->
  tree_items m' = tree_items m ++ number t es /\ Forall (fun e => field_name (fst e)) es.
Proof.
  induction es as [|[n v] es IH]; intros t m m' B L H; cbn [insert_counted number] in *.
  - injection H as <-. rewrite app_nil_r. split; [reflexivity|constructor].
  - rewrite lenN_cons in L. destruct (checked_cases n) as [[C F]|[C _]]; rewrite C in H; cbn [bind] in H; [|discriminate H].
    destruct (at_end (mkVariant n t, v) m (proj1 B) (proj2 B)) as [[Q _]|(m1 & Q & S & E)]; rewrite Q in H; cbn [bind] in H; [discriminate H|].
    change u8_max with 255 in H. destruct (N.eqb_spec t 255); [lia|]. rewrite andb_false_r in H. rewrite N.mod_small in H by lia.
    destruct (IH (t + 1) m1 m') as [E' F']; [now apply (before_end t (mkVariant n t, v) m)|lia|exact H|]. split; [|now constructor].
    now rewrite E', E, <- app_assoc.
Qed.
(** At most 255 entries are accepted: the length of the map never decreases. *)
Lemma counted_length {A} dbg (es : list (string * A)) : forall t m m', by_tag (tree_items m) -> insert_counted dbg t es m = Ok m' ->
  lenN (tree_items m') = lenN (tree_items m) + lenN es.
Proof.
  induction es as [|[n v] es IH]; intros t m m' B H; cbn [insert_counted] in H.
  - injection H as <-. unfold lenN. cbn. lia.
  - destruct (checked_cases n) as [[C F]|[C _]]; rewrite C in H; cbn [bind] in H; [|discriminate H].
    destruct (insert_new_cases (mkVariant n t, v) m B) as [[Q _]|(m1 & a & b & Q & S & E1 & E2 & _)]; rewrite Q in H; cbn [bind] in H; [discriminate H|].
    destruct (dbg && _); [discriminate H|]. rewrite (IH _ _ _ S H), E1, E2. unfold lenN. rewrite !app_length. cbn [List.length]. lia.
Qed.
Lemma counted_panic {A} dbg (es : list (string * A)) : forall t m, (exists m', insert_counted dbg t es m = Ok m') \/ insert_counted dbg t es m = Panic.
Proof.
  induction es as [|[n v] es IH]; intros t m; cbn [insert_counted]; [eauto|].
  unfold checked. destruct (Typify.name_ok n); cbn [bind]; [|auto]. unfold insert_new. destruct (root_insert _ _ _); cbn [bind]; [|auto].
  destruct (dbg && _); auto.
Qed.
Lemma counted_total {A} dbg (es : list (string * A)) : forall t m, before_tag t m -> t + lenN es <= 255 -> Forall (fun e => field_name (fst e)) es ->
  NoDup (map (fun x => v_name (fst x)) (tree_items m) ++ map fst es) -> exists m', insert_counted dbg t es m = Ok m'.
Proof.
  induction es as [|[n v] es IH]; intros t m B L F N; cbn [insert_counted]; [eauto|]. rewrite lenN_cons in L.
  inversion F as [|? ? FN F']; subst. cbn [fst] in FN. apply checked_ok in FN. rewrite FN. cbn [bind]. cbn [map fst] in N.
  destruct (at_end (mkVariant n t, v) m (proj1 B) (proj2 B)) as [[_ I]|(m1 & Q & S & E)].
  - exfalso. apply NoDup_remove_2 in N. apply N. apply in_or_app. now left.
  - rewrite Q. cbn [bind]. change u8_max with 255. destruct (N.eqb_spec t 255); [lia|]. rewrite andb_false_r, N.mod_small by lia.
    apply IH; [now apply (before_end t (mkVariant n t, v) m)|lia|exact F'|]. rewrite E, map_app, <- app_assoc. exact N.
Qed.
Lemma empty_before {A} : before_tag 0 (Leaf (@nil (variant * A))).
Proof. split; [constructor|intros x []]. Qed.

(** Whatever is accepted has the variants of the entries, numbered from zero. *)
Theorem C77 : forall A dbg (es : list (string * A)) vs, variants_counted dbg es = Ok vs ->
  numbered es vs /\ sized 1 255 es /\ Forall (fun e => field_name (fst e)) es.
Proof.
  intros A dbg es vs H. unfold variants_counted in H. destruct (counted_panic dbg es 0 (Leaf [])) as [[m E]|E]; rewrite E in H; cbn [bind] in H; [|discriminate H].
  destruct (confined_cases (tree_items m)) as [[C Z]|[C _]]; rewrite C in H; [|discriminate H]. injection H as <-.
  pose proof (counted_length dbg es 0 (Leaf []) m empty_sorted E) as L. change (lenN (tree_items (Leaf (@nil (variant * A))))) with 0 in L.
  unfold sized in *. rewrite L in Z. destruct (counted_ok dbg es 0 (Leaf []) m empty_before) as [E' F]; [lia|exact E|].
  cbn [tree_items app] in E'. rewrite E'. split; [apply number_numbered|]. split; [lia|exact F].
Qed.
Print Assumptions C77.

(** Different valid names are accepted, if they are 1 to 255. *)
Theorem C77_distinct : forall A dbg (es : list (string * A)), sized 1 255 es -> Forall (fun e => field_name (fst e)) es -> NoDup (map fst es) ->
  exists vs, variants_counted dbg es = Ok vs.
Proof.
  intros A dbg es Z F N. unfold variants_counted. destruct (counted_total dbg es 0 (Leaf [])) as [m E]; [apply empty_before|unfold sized in Z; lia|exact F|exact N|].
  rewrite E. cbn [bind]. pose proof (counted_length dbg es 0 (Leaf []) m empty_sorted E) as L. change (lenN (tree_items (Leaf (@nil (variant * A))))) with 0 in L.
  destruct (confined_cases (tree_items m)) as [[C _]|[_ C]]; [eauto|]. destruct C. unfold sized in *. now rewrite L.
Qed.
Print Assumptions C77_distinct.

(** Up to eleven variants, repeated names are refused. *)
Lemma leaf_all {A} (e : variant * A) l : forall seen m', leaf_insert entry_cmp e seen l = m' -> (forall x, In x l -> entry_key x < entry_key e) ->
  (In (v_name (fst e)) (map (fun x => v_name (fst x)) l) -> m' = Found)
  /\ (~ In (v_name (fst e)) (map (fun x => v_name (fst x)) l) -> (List.length (seen ++ l) <= 10)%nat -> m' = Done (Leaf ((seen ++ l) ++ [e]))).
Proof.
  induction l as [|y l IH]; intros seen m' H B; cbn [leaf_insert] in H; subst m'.
  - split; [intros []|]. intros _ L. rewrite app_nil_r in *. unfold fit_leaf. rewrite app_length. cbn [List.length].
    destruct (PeanoNat.Nat.leb_spec (List.length seen + 1) 11); [reflexivity|lia].
  - pose proof (B y (or_introl eq_refl)) as BY. unfold entry_key in BY.
    destruct (String.eqb_spec (v_name (fst e)) (v_name (fst y))) as [Q|Q].
    + assert (C : entry_cmp e y = Eq) by (unfold entry_cmp, variant_cmp; rewrite Q, String.eqb_refl, orb_true_r; reflexivity).
      rewrite C. split; [reflexivity|]. intros NI. destruct NI. left. now symmetry.
    + assert (C : entry_cmp e y = Gt).
      { unfold entry_cmp, variant_cmp. apply String.eqb_neq in Q. rewrite Q, orb_false_r. destruct (N.eqb_spec (v_tag (fst e)) (v_tag (fst y))); [lia|]. now apply N.compare_gt_iff. }
      rewrite C. destruct (IH (seen ++ [y]) _ eq_refl (fun x I => B x (or_intror I))) as [I1 I2]. split.
      * intros [I|I]; [congruence|auto].
      * rewrite <- app_assoc in I2. cbn [app] in I2. intros NI L. apply I2; [intros I; apply NI; now right|exact L].
Qed.
Lemma counted_few {A} dbg (es : list (string * A)) : forall t l m', before_tag t (Leaf l) -> t + lenN es <= 255 -> lenN l + lenN es <= 11 ->
  insert_counted dbg t es (Leaf l) = Ok m' -> NoDup (map (fun x => v_name (fst x)) l) -> NoDup (map (fun x => v_name (fst x)) l ++ map fst es).
Proof.
  induction es as [|[n v] es IH]; intros t l m' B L Z H N; [cbn; now rewrite app_nil_r|]. cbn [insert_counted] in H. rewrite lenN_cons in L, Z.
  destruct (checked_cases n) as [[C F]|[C _]]; rewrite C in H; cbn [bind] in H; [|discriminate H].
  destruct (leaf_all (mkVariant n t, v) l [] _ eq_refl (proj2 B)) as [I1 I2]. cbn [fst v_name app] in I1, I2.
  destruct (in_dec string_dec n (map (fun x => v_name (fst x)) l)) as [I|NI].
  { unfold insert_new, root_insert in H. cbn [tree_insert] in H. rewrite (I1 I) in H. discriminate H. }
  unfold insert_new, root_insert in H. cbn [tree_insert] in H. rewrite (I2 NI) in H by (unfold lenN in Z; lia). cbn [bind] in H.
  change u8_max with 255 in H. destruct (N.eqb_spec t 255); [lia|]. rewrite andb_false_r, N.mod_small in H by lia.
  assert (B' : before_tag (t + 1) (Leaf (l ++ [(mkVariant n t, v)]))).
  { destruct B as [S B]. split; [|intros x I; cbn [tree_items] in I; apply in_app_or in I as [I|[<-|[]]]; [specialize (B x I); lia|unfold entry_key; cbn; lia]].
    cbn [tree_items] in *. apply sorted_app. split; [exact S|]. split; [repeat constructor|]. intros x y I [<-|[]]. apply B. exact I. }
  specialize (IH (t + 1) (l ++ [(mkVariant n t, v)]) m' B'). rewrite map_app, <- app_assoc in IH. cbn [map app fst v_name] in IH |- *.
  apply IH; [lia|rewrite lenN_app; unfold lenN in *; cbn [List.length] in *; lia|exact H|].
  apply NoDup_rev in N. rewrite <- (rev_involutive (_ ++ [n])). apply NoDup_rev. rewrite rev_app_distr. cbn [rev app]. constructor; [|exact N].
  intros I. apply NI. now apply in_rev in I.
Qed.
Theorem C77_few : forall A dbg (es : list (string * A)) vs, lenN es <= 11 -> variants_counted dbg es = Ok vs -> NoDup (map fst es).
Proof.
  intros A dbg es vs L H. unfold variants_counted in H. destruct (counted_panic dbg es 0 (Leaf [])) as [[m E]|E]; rewrite E in H; cbn [bind] in H; [|discriminate H].
  apply (counted_few dbg es 0 [] m empty_before); [lia|exact L|exact E|constructor].
Qed.
Print Assumptions C77_few.

(** Further on, repeated names may be accepted: the last of thirteen variants is not compared with the first. *)
Definition thirteen : list string := ["a"; "b"; "c"; "d"; "e"; "f"; "g"; "h"; "i"; "j"; "k"; "l"; "a"]%string.
Theorem C77_refuted : exists names, ~ NoDup names /\ forall dbg, exists vs, variants_enum dbg names = Ok vs.
Proof.
  exists thirteen. split.
  - intros N. inversion N as [|? ? NI _]; subst. apply NI. cbn. do 11 right. now left.
  - intros []; eexists; vm_compute; reflexivity.
Qed.
Print Assumptions C77_refuted.
(** With tags, three entries suffice; in another order the same entries are refused. *)
Theorem C77_order_refuted : exists (es es' : list (string * N * unit)) vs, Permutation es es' /\ ~ NoDup (map entry_name es)
  /\ variants_tagged es = Ok vs /\ variants_tagged es' = Panic.
Proof.
  exists [("b", 5, tt); ("a", 9, tt); ("a", 1, tt)]%string, [("a", 9, tt); ("a", 1, tt); ("b", 5, tt)]%string. eexists.
  split; [apply Permutation_sym, Permutation_cons_app with (l1 := [_]) (l2 := [_]); cbn; apply perm_swap|].
  split; [|split; vm_compute; reflexivity].
  cbn. intros N. inversion N as [|? ? _ N']; subst. inversion N' as [|? ? NI _]; subst. apply NI. now left.
Qed.
Print Assumptions C77_order_refuted.

Example C77_case : variants_enum true ["none"; "some"]%string = Ok [mkVariant "none" 0; mkVariant "some" 1]
  /\ variants_enum true ["none"; "none"]%string = Panic
  /\ variants_tagged [("b", 5, 1); ("a", 9, 2); ("c", 1, 3)]%string = Ok [(mkVariant "c" 1, 3); (mkVariant "b" 5, 1); (mkVariant "a" 9, 2)].
Proof. repeat split. Qed.
Example C77_distinct_case : sized 1 255 [("none", 1); ("some", 2)]%string /\ Forall (fun e => field_name (fst e)) [("none", 1); ("some", 2)]%string
  /\ NoDup (map fst [("none", 1); ("some", 2)]%string).
Proof.
  split; [split; vm_compute; discriminate|]. split; [repeat constructor; apply field_name_iff; reflexivity|].
  constructor; [intros [H|[]]; discriminate H|]. constructor; [intros []|constructor].
Qed.
Example C77_accepted_case : let es := [("b", 5, 1); ("a", 9, 2)]%string in
  sized 1 255 es /\ Forall (fun e => field_name (entry_name e)) es /\ NoDup (map entry_name es) /\ NoDup (map entry_tag es).
Proof.
  split; [split; vm_compute; discriminate|]. split; [repeat constructor; apply field_name_iff; reflexivity|].
  split; (constructor; [intros [H|[]]; discriminate H|]; constructor; [intros []|constructor]).
Qed.

(** The search tree for entries in the order of their tags (LibCodec.v) is this one. *)
Goal let go (names : list string) := (fold_left (fun t e => bt_insert variant_cmp (fst e) tt t) (number 0 (map (fun n => (n, tt)) names)) bt_empty) in
  let names n := map (fun i => range_name (N.of_nat i)) (seq 0 n) in
  forallb (fun n => match variants_counted true (map (fun n => (n, tt)) (names n)) with
                    | Ok vs => forallb (fun p => (v_tag (fst (fst p)) =? v_tag (fst (snd p)))) (combine vs (bt_items (go (names n)))) && (lenN vs =? lenN (bt_items (go (names n))))
                    | _ => false end
    && forallb (fun i => Bool.eqb (match variants_counted true (map (fun n => (n, tt)) (names n ++ [range_name i])) with Ok _ => true | _ => false end)
                 (lenN (bt_items (go (names n ++ [range_name i]))) =? N.of_nat n + 1)) (map N.of_nat (seq 0 n)))
   [1; 5; 11; 12; 13; 17; 18; 30; 60; 95; 100; 180]%nat = true.
Proof. vm_compute. reflexivity. Abort.

(** Fields are taken as they are given; repeated names are accepted. *)
Lemma checked_fields_ok {A} (es : list (string * A)) : (checked_fields es = Ok es /\ Forall (fun e => field_name (fst e)) es)
  \/ (checked_fields es = Panic /\ ~ Forall (fun e => field_name (fst e)) es).
Proof.
  induction es as [|[n v] es IH]; cbn [checked_fields]; [left; split; [reflexivity|constructor]|].
  destruct (checked_cases n) as [[C F]|[C F]]; rewrite C; cbn [bind].
  - destruct IH as [[E G]|[E G]]; rewrite E; cbn [bind]; [left|right]; (split; [reflexivity|]); [now constructor|]. intros H. inversion H. contradiction.
  - right. split; [reflexivity|]. intros H. inversion H. contradiction.
Qed.
Theorem C77_fields : forall A (es fs : list (string * A)) (vs ws : list A),
  (fields_named es = Ok fs <-> fs = es /\ sized 1 255 es /\ Forall (fun e => field_name (fst e)) es)
  /\ (fields_unnamed vs = Ok ws <-> ws = vs /\ sized 1 255 vs).
Proof.
  intros A es fs vs ws. split.
  - unfold fields_named. destruct (checked_fields_ok es) as [[E F]|[E F]]; rewrite E; cbn [bind].
    + destruct (confined_cases es) as [[C Z]|[C Z]]; rewrite C; split; try tauto; try discriminate; [intros H; injection H as <-; auto|intros (-> & _); reflexivity].
    + split; [discriminate|tauto].
  - unfold fields_unnamed. destruct (confined_cases vs) as [[C Z]|[C Z]]; rewrite C; split; try tauto; try discriminate; [intros H; injection H as <-; auto|intros (-> & _); reflexivity].
Qed.
Example C77_fields_case : fields_named [("x", 1); ("y", 2)]%string = Ok [("x", 1); ("y", 2)]%string.
Proof. reflexivity. Qed.
Print Assumptions C77_fields.
Theorem C77_fields_refuted : exists es : list (string * N), ~ NoDup (map fst es) /\ fields_named es = Ok es.
Proof. exists [("x", 1); ("x", 2)]%string. split; [|reflexivity]. cbn. intros N. inversion N as [|? ? NI _]; subst. apply NI. now left. Qed.
Print Assumptions C77_fields_refuted.

Lemma nth_error_ext {B} (a : list B) : forall b, (forall i, nth_error a i = nth_error b i) -> a = b.
Proof.
  induction a as [|x a IH]; intros [|y b] H; [reflexivity|specialize (H 0%nat); discriminate H|specialize (H 0%nat); discriminate H|].
  pose proof (H 0%nat) as H0. injection H0 as <-. f_equal. apply IH. intros i. exact (H (S i)).
Qed.
(** Enumerations made of different names are well-formed types. *)
Theorem C77_wf : forall dbg names vs, NoDup names -> variants_enum dbg names = Ok vs -> variants_with distinct vs /\ map v_name vs = names.
Proof.
  intros dbg names vs N H. unfold variants_enum in H.
  destruct (variants_counted dbg (map (fun n => (n, tt)) names)) as [us| | |] eqn:E; try discriminate H. injection H as <-.
  assert (Q : us = number 0 (map (fun n => (n, tt)) names)).
  { destruct (C77 _ _ _ _ E) as ((L & P) & _). clear E N. destruct (number_numbered (map (fun n => (n, tt)) names)) as [L' P'].
    apply nth_error_ext. intros i. destruct (nth_error (map (fun n => (n, tt)) names) i) as [[n u]|] eqn:X.
    - now rewrite (P i n u X), (P' i n u X).
    - apply nth_error_None in X. unfold lenN in L, L'. rewrite (proj2 (nth_error_None us i)) by lia. symmetry. apply nth_error_None. lia. }
  destruct (C77 _ _ _ _ E) as (_ & Z & F). subst us.
  assert (NM : map v_name (map fst (number 0 (map (fun n => (n, tt)) names))) = names).
  { rewrite map_map, number_names, map_map. apply map_id. }
  split; [|exact NM]. unfold variants_with, distinct. rewrite NM. unfold sized, lenN in *. rewrite map_length in *.
  pose proof (number_length (map (fun n => (n, tt)) names) 0) as L. unfold lenN in L. rewrite map_length in L.
  split; [lia|]. split; [|split; [exact N|]].
  - assert (S : forall (es : list (string * unit)) t, increasing (fun a b => v_tag a < v_tag b) (map fst (number t es)) /\ Forall (fun v => t <= v_tag v) (map fst (number t es))).
    { induction es as [|[n u] es IH]; intros t; cbn [number map fst]; [split; constructor|]. destruct (IH (t + 1)) as [S B]. split.
      - constructor; [exact S|]. eapply Forall_impl; [|exact B]. cbn. intros; lia.
      - constructor; [cbn; lia|]. eapply Forall_impl; [|exact B]. cbn. intros; lia. }
    apply S.
  - assert (S : forall (es : list (string * unit)) t, Forall (fun e => field_name (fst e)) es -> t + lenN es <= 256 -> Forall (fun v => field_name (v_name v) /\ v_tag v < 256) (map fst (number t es))).
    { induction es as [|[n u] es IH]; intros t FE LE; cbn [number map fst]; constructor; inversion FE; subst; rewrite lenN_cons in LE; cbn [v_name v_tag fst] in *; [split; [assumption|lia]|]. apply IH; [assumption|lia]. }
    apply S; [exact F|]. unfold lenN. rewrite map_length. lia.
Qed.
Print Assumptions C77_wf.

(** ** C78: ranges of variants *)

Lemma range_names : forall t, t < 256 -> field_name (range_name t).
Proof.
  intros t L. apply field_name_iff.
  assert (H : forallb (fun i => Typify.name_ok (range_name (N.of_nat i))) (seq 0 256) = true) by (vm_compute; reflexivity).
  rewrite forallb_forall in H. specialize (H (N.to_nat t)). rewrite N2Nat.id in H. apply H. apply in_seq. lia.
Qed.
Lemma range_inj a b : range_name a = range_name b -> a = b.
Proof.
  unfold range_name. intros H. apply (f_equal sbytes) in H. rewrite !sbytes_bstring in H. apply app_inv_head in H. now apply show_N_inj.
Qed.
Lemma tags_length from to : lenN (tags from to) = to + 1 - from.
Proof. unfold tags, lenN. rewrite map_length, seq_length. lia. Qed.
Lemma tags_in from to t : In t (tags from to) -> from <= t <= to.
Proof. unfold tags. intros I. apply in_map_iff in I as (i & <- & I). apply in_seq in I. lia. Qed.
Lemma tags_nodup from to : NoDup (tags from to).
Proof. unfold tags. apply FinFun.Injective_map_NoDup; [intros i j H; lia|apply seq_NoDup]. Qed.
Lemma tags_sorted from to : StronglySorted N.lt (tags from to).
Proof.
  unfold tags. generalize 0%nat. intros s. revert s. induction (N.to_nat (to + 1 - from)) as [|n IH]; intros s; cbn [seq map]; constructor; [apply IH|].
  apply Forall_forall. intros x I. apply in_map_iff in I as (j & <- & I). apply in_seq in I. lia.
Qed.

(** A variant for each tag of the range, in order, named [_] with its number; at most 255. *)
Theorem C78 : forall from to vs, to < 256 -> variants_range from to = Ok vs ->
  from <= to /\ to - from < 255 /\ lenN vs = to - from + 1
  /\ forall i, from + N.of_nat i <= to -> nth_error vs i = Some (mkVariant (bstring (sbytes "_" ++ show_N (from + N.of_nat i))) (from + N.of_nat i)).
Proof.
  intros from to vs L H. unfold variants_range in H.
  destruct (variants_tagged (map (fun tag => (range_name tag, tag, tt)) (tags from to))) as [us| | |] eqn:E; try discriminate H. injection H as <-.
  destruct (C77_tagged _ _ _ E) as (P & S & _ & Z). rewrite map_map in P. unfold sized, lenN in Z. rewrite map_length in Z. fold (lenN (tags from to)) in Z. rewrite tags_length in Z.
  assert (Q : us = map (fun t => (mkVariant (range_name t) t, tt)) (tags from to)).
  { apply (sorted_permutation entry_key); [exact S| |exact P]. pose proof (tags_sorted from to) as T. clear -T.
    induction T as [|t l T IH F]; cbn [map]; constructor; [exact IH|]. apply Forall_forall. intros x I. apply in_map_iff in I as (y & <- & I).
    rewrite Forall_forall in F. exact (F _ I). }
  subst us. rewrite map_map. cbn [fst]. split; [lia|]. split; [lia|]. split; [unfold lenN; rewrite map_length; fold (lenN (tags from to)); rewrite tags_length; lia|].
  intros i I. unfold tags. rewrite map_map, nth_error_map.
  rewrite (nth_error_nth' _ 0%nat) by (rewrite seq_length; lia). rewrite seq_nth by lia. reflexivity.
Qed.
Theorem C78_accepted : forall from to, to < 256 -> from <= to -> to - from < 255 -> exists vs, variants_range from to = Ok vs.
Proof.
  intros from to L H M. unfold variants_range.
  destruct (C77_accepted unit (map (fun tag => (range_name tag, tag, tt)) (tags from to))) as [vs E].
  - unfold sized, lenN. rewrite map_length. fold (lenN (tags from to)). rewrite tags_length. lia.
  - apply Forall_forall. intros e I. apply in_map_iff in I as (t & <- & I). apply tags_in in I. apply range_names. lia.
  - rewrite map_map. apply FinFun.Injective_map_NoDup; [intros a b; apply range_inj|apply tags_nodup].
  - rewrite map_map. unfold entry_tag. cbn [fst snd]. rewrite map_id. apply tags_nodup.
  - rewrite E. cbn [bind]. eauto.
Qed.
Example C78_case : variants_range 3 5 = Ok [mkVariant "_3" 3; mkVariant "_4" 4; mkVariant "_5" 5] /\ variants_range 0 255 = Panic /\ variants_range 5 3 = Panic.
Proof. repeat split; vm_compute; reflexivity. Qed.
Print Assumptions C78.
Print Assumptions C78_accepted.
