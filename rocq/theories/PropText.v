(** Properties of the text forms of paths and of fully qualified names: C65, C66. *)
From Coq Require Import NArith Arith List Bool String Ascii Strings.Byte Lia.
From Verif Require Import Base Ty Val Typify LibCodec SpecIds SpecLib LibCodecProofs Ston SpecSty StyProofs Text SpecText SpecSys.
From Verif Require StonProofs.
Import ListNotations.
Local Open Scope N_scope.
Local Open Scope list_scope.

(** ** Splitting text *)
Definition ends (x : bytes) : Prop := match x with [] => True | b :: _ => word_byte b = false end.
Lemma word_end w : forall w' x x', forallb word_byte w = true -> forallb word_byte w' = true -> ends x -> ends x' -> w ++ x = w' ++ x' -> w = w' /\ x = x'.
Proof.
  induction w as [|a w IH]; intros [|a' w'] x x' W W' X X' E; cbn in *.
  - auto.
  - subst x. cbn in X. rewrite X in W'. discriminate W'.
  - subst x'. cbn in X'. rewrite X' in W. discriminate W.
  - injection E as <- E. apply andb_true_iff in W as [_ W]. apply andb_true_iff in W' as [_ W']. destruct (IH w' x x' W W' X X' E) as [-> ->]. auto.
Qed.
Lemma sep_split (c : byte) w : forall w' x x', ~ In c w -> ~ In c w' -> w ++ c :: x = w' ++ c :: x' -> w = w' /\ x = x'.
Proof.
  induction w as [|b w IH]; intros [|b' w'] x x' L L' E; cbn in E.
  - injection E as E. auto.
  - exfalso. injection E as <- _. apply L'. now left.
  - exfalso. injection E as -> _. apply L. now left.
  - injection E as <- E. apply IH in E as [-> ->]; [auto| |]; intros I; [apply L|apply L']; now right.
Qed.

(** ** Names and numbers *)
Lemma name_char_word b : name_char b -> word_byte b = true.
Proof.
  unfold name_char, word_byte. intros H. rewrite !orb_true_iff, !andb_true_iff, !N.leb_le, N.eqb_eq. tauto.
Qed.
Lemma lower_word b : lower b -> word_byte b = true.
Proof. unfold lower. intros H. apply name_char_word. unfold name_char. tauto. Qed.
Lemma field_name_word n : field_name n -> exists b s, sbytes n = b :: s /\ lower b /\ forallb word_byte (sbytes n) = true.
Proof.
  intros (x & r & E & L & F & _). exists x, r. split; [exact E|]. split; [exact L|]. rewrite E. cbn. rewrite (lower_word x L). cbn.
  rewrite forallb_forall. rewrite Forall_forall in F. intros b I. apply name_char_word, F, I.
Qed.
Definition digit (b : byte) : bool := (48 <=? Byte.to_N b) && (Byte.to_N b <=? 57).
Lemma show_N_digits n : forallb digit (show_N n) = true.
Proof. unfold show_N. induction (N.to_uint n); cbn; auto. Qed.
Lemma lower_digit b : lower b -> digit b = true -> False.
Proof. unfold lower, digit. rewrite andb_true_iff, !N.leb_le. lia. Qed.
Lemma name_number n k : field_name n -> sbytes n <> show_N k.
Proof.
  intros F E. destruct (field_name_word n F) as (b & s & B & L & _). rewrite B in E. pose proof (show_N_digits k) as D. rewrite <- E in D.
  cbn in D. apply andb_true_iff in D as [D _]. exact (lower_digit b L D).
Qed.

(** ** Keys *)
Lemma digit_split x : Byte.to_N x = 16 * (Byte.to_N x / 16) + Byte.to_N x mod 16 /\ Byte.to_N x / 16 < 16 /\ Byte.to_N x mod 16 < 16.
Proof.
  pose proof (Byte.to_N_bounded x). split; [apply N.div_mod; lia|]. split; [apply N.div_lt_upper_bound; lia|apply N.mod_lt; lia].
Qed.
Lemma upper_digit_inj a b : a < 16 -> b < 16 -> upper_digit a = upper_digit b -> a = b.
Proof.
  assert (T : forallb (fun n => N.of_nat n =? (let y := Byte.to_N (upper_digit (N.of_nat n)) in if y <? 60 then y - 48 else y - 55)) (seq 0 16) = true) by reflexivity.
  rewrite forallb_forall in T.
  assert (L : forall a, a < 16 -> a = (let y := Byte.to_N (upper_digit a) in if y <? 60 then y - 48 else y - 55)).
  { intros k H. specialize (T (N.to_nat k)). rewrite N2Nat.id in T. apply N.eqb_eq, T, in_seq. lia. }
  intros A B E. rewrite (L a A), (L b B), E. reflexivity.
Qed.
Lemma upper_digit_word a : a < 16 -> word_byte (upper_digit a) = true.
Proof.
  assert (T : forallb (fun n => word_byte (upper_digit (N.of_nat n))) (seq 0 16) = true) by reflexivity.
  rewrite forallb_forall in T. intros A. specialize (T (N.to_nat a)). rewrite N2Nat.id in T. apply T, in_seq. lia.
Qed.
Lemma upper_hex_inj a : forall b, upper_hex a = upper_hex b -> a = b.
Proof.
  induction a as [|x a IH]; intros [|y b] E; try discriminate E; [reflexivity|]. unfold upper_hex in E. cbn [flat_map app] in E.
  destruct (digit_split x) as (X & X1 & X2), (digit_split y) as (Y & Y1 & Y2).
  pose proof (f_equal (fun l => hd x00 l) E) as E1. pose proof (f_equal (fun l => hd x00 (tl l)) E) as E2. pose proof (f_equal (fun l => tl (tl l)) E) as E3.
  cbn [hd tl] in E1, E2, E3. apply upper_digit_inj in E1; auto. apply upper_digit_inj in E2; auto.
  f_equal; [|now apply IH]. assert (Z : Byte.to_N x = Byte.to_N y) by (rewrite X, Y, E1, E2; reflexivity).
  apply (f_equal Byte.of_N) in Z. rewrite !Byte.of_to_N in Z. now injection Z.
Qed.
Lemma upper_hex_word b : forallb word_byte (upper_hex b) = true.
Proof.
  induction b as [|x b IH]; [reflexivity|]. unfold upper_hex. cbn [flat_map app forallb]. destruct (digit_split x) as (_ & A & B).
  now rewrite !upper_digit_word by assumption.
Qed.
Lemma escape_plain s : ~ In x22 (escape_quotes s) -> escape_quotes s = s.
Proof.
  induction s as [|b s IH]; [reflexivity|]. unfold escape_quotes. cbn [flat_map]. fold (escape_quotes s). destruct (Byte.eqb b x22) eqn:E; cbn [app].
  - intros H. destruct H. right. now left.
  - intros H. f_equal. apply IH. intros I. apply H. now right.
Qed.
Lemma escape_inj a : forall b, escape_quotes a = escape_quotes b -> a = b.
Proof.
  assert (H : forall x s, escape_quotes (x :: s) = if Byte.eqb x x22 then x5c :: x22 :: escape_quotes s else x :: escape_quotes s).
  { intros x s. unfold escape_quotes. cbn [flat_map]. now destruct (Byte.eqb x x22). }
  assert (Q : forall x, Byte.eqb x x22 = true -> x = x22) by (intros []; (discriminate || reflexivity)).
  (* after a backslash only *)
  assert (B : forall s t, x22 :: escape_quotes s = escape_quotes t -> False).
  { intros s [|y t] E; [discriminate E|]. rewrite H in E. destruct (Byte.eqb y x22) eqn:Y; [discriminate E|]. injection E as <- _. discriminate Y. }
  induction a as [|x a IH]; intros [|y b] E.
  - reflexivity.
  - rewrite H in E. destruct (Byte.eqb y x22); discriminate E.
  - rewrite H in E. destruct (Byte.eqb x x22); discriminate E.
  - rewrite !H in E. destruct (Byte.eqb x x22) eqn:X, (Byte.eqb y x22) eqn:Y.
    + apply Q in X, Y. subst. injection E as E. f_equal. now apply IH.
    + injection E as _ E. exfalso. exact (B a b E).
    + injection E as _ E. symmetry in E. exfalso. exact (B b a E).
    + injection E as -> E. f_equal. now apply IH.
Qed.
Lemma word_no (c : byte) w : word_byte c = false -> forallb word_byte w = true -> ~ In c w.
Proof. intros C W I. rewrite forallb_forall in W. rewrite (W _ I) in C. discriminate C. Qed.
Lemma show_N_words n : forallb word_byte (show_N n) = true.
Proof. apply show_N_word. Qed.
Lemma show_key_inj k k' : clear_key k -> clear_key k' -> show_key k = show_key k' -> k = k'.
Proof.
  assert (NB : forall n b, show_N n = sbytes "0h" ++ b -> False).
  { intros n b E. pose proof (show_N_digits n) as D. rewrite E in D. discriminate D. }
  assert (W0 : forall b, forallb word_byte (sbytes "0h" ++ upper_hex b) = true) by (intros b; rewrite forallb_app, upper_hex_word; reflexivity).
  assert (ES : forall s w, forallb word_byte w = true -> escape_quotes s = w -> s = w).
  { intros s w W E. rewrite <- E. symmetry. apply escape_plain. rewrite E. now apply word_no. }
  intros C C' E. destruct k as [n|b|s], k' as [n'|b'|s']; cbn [show_key] in E.
  - apply StonProofs.show_N_inj in E. congruence.
  - destruct (NB _ _ E).
  - symmetry in E. apply ES in E; [|apply show_N_words]. destruct C' as (_ & N & _). destruct (N _ E).
  - symmetry in E. destruct (NB _ _ E).
  - apply app_inv_head, upper_hex_inj in E. congruence.
  - symmetry in E. apply ES in E; [|apply W0]. destruct C' as (_ & _ & N). destruct (N _ E).
  - apply ES in E; [|apply show_N_words]. destruct C as (_ & N & _). destruct (N _ E).
  - apply ES in E; [|apply W0]. destruct C as (_ & _ & N). destruct (N _ E).
  - apply escape_inj, sbytes_inj in E. congruence.
Qed.
Lemma show_key_brace k : clear_key k -> ~ In x7d (show_key k).
Proof.
  destruct k as [n|b|s]; cbn [show_key]; intros C.
  - apply word_no; [reflexivity|apply show_N_words].
  - apply word_no; [reflexivity|]. rewrite forallb_app, upper_hex_word. reflexivity.
  - destruct C as (C & _). intros I. apply C. unfold escape_quotes in I. apply in_flat_map in I as (b & J & I).
    destruct (Byte.eqb b x22); [destruct I as [I|[I|[]]]; discriminate I|]. destruct I as [->|[]]. exact J.
Qed.

(** ** C65 *)

(** Paths within values with the same text are the same, if the text of their keys is clear. Missing: other keys
    (see below). *)
Lemma vpath_ends p : ends (show_vpath p).
Proof. destruct p as [|s p]; [exact I|]. destruct s; reflexivity. Qed.
Theorem C65_partial : forall p p', Forall clear_step p -> Forall clear_step p' -> show_vpath p = show_vpath p' -> p = p'.
Proof.
  induction p as [|s p IH]; intros [|s' p'] F F' E.
  - reflexivity.
  - exfalso. destruct s'; discriminate E.
  - exfalso. destruct s; discriminate E.
  - inversion F as [|? ? C Fp]; subst. inversion F' as [|? ? C' Fp']; subst. unfold show_vpath in E. cbn [flat_map] in E. fold (show_vpath p) (show_vpath p') in E.
    assert (G : s = s' /\ show_vpath p = show_vpath p'); [|destruct G as [-> G]; f_equal; now apply IH].
    destruct s as [n|n|n|k], s' as [n'|n'|n'|k']; try discriminate E; cbn [show_vstep clear_step] in *; rewrite <- ?app_assoc in E; apply app_inv_head in E.
    + destruct (field_name_word n C) as (_ & _ & _ & _ & W), (field_name_word n' C') as (_ & _ & _ & _ & W').
      apply word_end in E as [E ->]; auto using vpath_ends. apply sbytes_inj in E. split; congruence.
    + destruct (field_name_word n C) as (_ & _ & _ & _ & W).
      apply word_end in E as [E _]; auto using vpath_ends, show_N_words. destruct (name_number _ _ C E).
    + destruct (field_name_word n' C') as (_ & _ & _ & _ & W).
      apply word_end in E as [E _]; auto using vpath_ends, show_N_words. symmetry in E. destruct (name_number _ _ C' E).
    + apply word_end in E as [E ->]; auto using vpath_ends, show_N_words. apply StonProofs.show_N_inj in E. split; congruence.
    + apply word_end in E as [E X]; auto using show_N_words; try reflexivity. apply StonProofs.show_N_inj in E. apply app_inv_head in X. split; congruence.
    + cbn [sbytes list_byte_of_string app] in E. apply sep_split in E as [E X]; auto using show_key_brace. apply show_key_inj in E; auto. split; congruence.
Qed.
Definition ex_path : list vstep := [VSNamed "owner"; VSIndex 5; VSKey (KString "the ""name"""); VSUnnamed 0; VSKey (KNumber 7); VSKey (KBlob [x0a; xff])].
Example C65_case : Forall clear_step ex_path /\ bstring (show_vpath ex_path) = ".owner[5]{the \""name\""}.0{7}{0h0AFF}"%string.
Proof.
  split; [|reflexivity]. repeat constructor; cbn [clear_step clear_key].
  - apply field_name_iff. reflexivity.
  - cbn. intuition discriminate.
  - intros n E. pose proof (show_N_digits n) as D. rewrite <- E in D. discriminate D.
  - intros r E. discriminate E.
Qed.
Print Assumptions C65_partial.

(** A numeric key and a text key, and a key with braces and several steps are shown alike. *)
Theorem C65_refuted : exists p1 p2 v v1 v2, show_vpath p1 = show_vpath p2 /\ val_at_path v p1 = Ok v1 /\ val_at_path v p2 = Ok v2 /\ v1 <> v2.
Proof.
  exists [VSKey (KNumber 1)], [VSKey (KString "1")], (VMap [(VNum (Uint 1), VStr "a"); (VStr "1", VStr "b")]), (VStr "a"), (VStr "b").
  split; [reflexivity|]. split; [reflexivity|]. split; [reflexivity|]. discriminate.
Qed.
Theorem C65_braces_refuted : exists p1 p2, List.length p1 <> List.length p2 /\ show_vpath p1 = show_vpath p2.
Proof. exists [VSKey (KString "a}{b")], [VSKey (KString "a"); VSKey (KString "b")]. split; [discriminate|reflexivity]. Qed.
Print Assumptions C65_refuted.
Print Assumptions C65_braces_refuted.

(** Paths within types with the same text are the same up to the distinction of fields from variants. *)
Lemma path_ends p : ends (show_path p).
Proof. destruct p as [|s p]; [exact I|]. destruct s; reflexivity. Qed.
Theorem C65_types_partial : forall p p', Forall step_named p -> Forall step_named p' -> show_path p = show_path p' -> map plain_step p = map plain_step p'.
Proof.
  induction p as [|s p IH]; intros [|s' p'] F F' E.
  - reflexivity.
  - exfalso. destruct s'; discriminate E.
  - exfalso. destruct s; discriminate E.
  - inversion F as [|? ? C Fp]; subst. inversion F' as [|? ? C' Fp']; subst. unfold show_path in E. cbn [flat_map] in E. fold (show_path p) (show_path p') in E.
    assert (G : plain_step s = plain_step s' /\ show_path p = show_path p'); [|destruct G as [G1 G]; cbn [map]; rewrite G1; f_equal; now apply IH].
    assert (NN : forall n n', field_name n -> field_name n' -> sbytes "." ++ sbytes n ++ show_path p = sbytes "." ++ sbytes n' ++ show_path p' -> n = n' /\ show_path p = show_path p').
    { intros n n' A A' Z. apply app_inv_head in Z. destruct (field_name_word n A) as (_ & _ & _ & _ & W), (field_name_word n' A') as (_ & _ & _ & _ & W').
      apply word_end in Z as [Z ->]; auto using path_ends. apply sbytes_inj in Z. auto. }
    assert (ND : forall n k a b, field_name n -> sbytes "." ++ sbytes n ++ show_path a = sbytes "." ++ show_N k ++ show_path b -> False).
    { intros n k a b A Z. apply app_inv_head in Z. destruct (field_name_word n A) as (_ & _ & _ & _ & W).
      apply word_end in Z as [Z _]; auto using path_ends, show_N_words. exact (name_number _ _ A Z). }
    destruct s as [n|n|n| | | | |], s' as [n'|n'|n'| | | | |]; try discriminate E; cbn [show_step step_named plain_step] in *; rewrite <- ?app_assoc in E;
      try (apply NN in E as [-> ->]; auto; fail); try (exfalso; eapply ND; [|exact E]; assumption); try (exfalso; eapply ND; [|symmetry; exact E]; assumption);
      apply app_inv_head in E; auto.
    apply word_end in E as [E ->]; auto using path_ends, show_N_words. apply StonProofs.show_N_inj in E. split; congruence.
Qed.
Example C65_types_case : Forall step_named [SNamedField "owner"; SMapValue; SVariant "some"; SUnnamedField 3; SList; SIndex]
  /\ bstring (show_path [SNamedField "owner"; SMapValue; SVariant "some"; SUnnamedField 3; SList; SIndex]) = ".owner[value].some.3[]#"%string.
Proof. split; [|reflexivity]. repeat constructor; apply field_name_iff; reflexivity. Qed.
Print Assumptions C65_types_partial.

(** ... and exactly these have the same text. *)
Theorem C65_types_exact : forall p p', Forall step_named p -> Forall step_named p' ->
  (show_path p = show_path p' <-> map plain_step p = map plain_step p').
Proof.
  intros p p' F F'. split; [now apply C65_types_partial|].
  assert (S : forall p, show_path p = show_path (map plain_step p)).
  { clear. induction p as [|s p IH]; [reflexivity|]. unfold show_path in *. cbn [map flat_map]. rewrite <- IH. f_equal. now destruct s. }
  intros E. now rewrite (S p), (S p'), E.
Qed.
Example C65_types_exact_case : show_path [SNamedField "some"; SList] = show_path [SVariant "some"; SList] /\ show_path [SUnnamedField 1] <> show_path [SNamedField "a"].
Proof.
  split.
  - apply C65_types_exact; [| |reflexivity]; repeat constructor; apply field_name_iff; reflexivity.
  - intros E. apply C65_types_exact in E; [discriminate E| |]; repeat constructor; apply field_name_iff; reflexivity.
Qed.
Print Assumptions C65_types_exact.

(** Within one type the text of a path tells where it leads: a type has fields or variants, not both. *)
Lemma assoc_once {A B} (g : A -> B) (l : list A) x y : NoDup (map g l) -> In x l -> In y l -> g x = g y -> x = y.
Proof.
  induction l as [|a l IH]; intros D I J E; [destruct I|]. inversion D as [|? ? N D']; subst. destruct I as [<-|I], J as [<-|J]; auto.
  - destruct N. rewrite E. now apply in_map.
  - destruct N. rewrite <- E. now apply in_map.
Qed.
Lemma step_once {R} (t : ty R) s s' r r' : unambiguous t -> step_to t s r -> step_to t s' r' -> plain_step s = plain_step s' -> s = s' /\ r = r'.
Proof.
  intros U S S' E. inversion S as [fs nm r0 I|vs v r0 I|fs pos f I|vs v r0 I|fs pos r0 I| | | | |]; subst;
    inversion S' as [fs' nm' r1 J|vs' v' r1 J|fs' pos' f' J|vs' v' r1 J|fs' pos' r1 J| | | | |]; subst; cbn [plain_step] in E; try discriminate E; try (split; reflexivity); cbn [unambiguous] in U.
  - injection E as <-. split; [reflexivity|]. assert (X := assoc_once fst fs (nm, r) (nm, r') U I J eq_refl). congruence.
  - injection E as E. destruct U as [U _]. assert (X := assoc_once (fun v => v_name (fst v)) vs (v, r) (v', r') U I J E). split; congruence.
  - injection E as E. subst. split; [reflexivity|]. congruence.
  - injection E as E. destruct U as [_ U]. assert (X := assoc_once (fun v => v_tag (fst v)) vs (v, r) (v', r') U I J E). split; congruence.
  - injection E as E. subst. split; [reflexivity|]. congruence.
Qed.
Theorem C65_within : forall R as_ty (t : ty R) p p' u u',
  unambiguous t -> (forall r t', as_ty r = Some t' -> unambiguous t') ->
  Forall step_named p -> Forall step_named p' -> follows as_ty t p u -> follows as_ty t p' u' ->
  show_path p = show_path p' -> p = p' /\ u = u'.
Proof.
  intros R as_ty t p p' u u' U UA F F' W W' E. apply C65_types_partial in E; auto. clear F F'. revert p' u' W' E.
  induction W as [t|t s r t1 p t2 S A W IH]; intros p' u' W' E; inversion W' as [|? s' r' t1' q ? S' A' W'']; subst; try discriminate E.
  - auto.
  - cbn [map] in E. injection E as E1 E2. destruct (step_once t s s' r r' U S S' E1) as [-> ->].
    rewrite A in A'. injection A' as <-. destruct (IH (UA _ _ A) _ _ W'' E2) as [-> ->]. auto.
Qed.
Example C65_within_case : let parts r := match r with 0 => Some (TUnion [(mkVariant "some" 1, 1)]) | _ => Some (TPrim P_U8) end in
  forall p u, Forall step_named p -> follows parts (TStruct [("a"%string, 0)]) p u -> bstring (show_path p) = ".a.some"%string ->
  p = [SNamedField "a"; SVariant "some"] /\ u = TPrim P_U8.
Proof.
  intros parts p u F W E. apply (C65_within N parts (TStruct [("a"%string, 0)]) p [SNamedField "a"; SVariant "some"] u (TPrim P_U8)); auto.
  - cbn. repeat constructor. intros [].
  - intros [|r] t' [= <-]; cbn; [|exact I]. split; repeat constructor; intros [].
  - repeat constructor; apply field_name_iff; reflexivity.
  - eapply F_step; [now apply ST_field; left|reflexivity|]. eapply F_step; [apply (ST_variant _ (mkVariant "some" 1)); now left|reflexivity|constructor].
  - apply (f_equal sbytes) in E. rewrite sbytes_bstring in E. exact E.
Qed.
Print Assumptions C65_within.

(** ** C66 *)

(** A fully qualified name is read from its text, nothing else is read, and everything else panics. *)
Lemma split_dot_app w s : ~ In x2e w -> split_dot (w ++ x2e :: s) = Some (w, s).
Proof.
  induction w as [|b w IH]; intros N; [reflexivity|]. cbn. destruct (Byte.eqb b x2e) eqn:E.
  - destruct N. left. destruct b; (discriminate E || reflexivity).
  - rewrite IH; [reflexivity|]. intros I. apply N. now right.
Qed.
Lemma split_dot_some s : forall l r, split_dot s = Some (l, r) -> s = l ++ x2e :: r.
Proof.
  induction s as [|b s IH]; intros l r E; cbn in E; [discriminate E|]. destruct (Byte.eqb b x2e) eqn:B.
  - injection E as <- <-. destruct b; (discriminate B || reflexivity).
  - destruct (split_dot s) as [[l' r']|]; [|discriminate E]. injection E as <- <-. cbn. f_equal. now apply IH.
Qed.
Lemma type_name_dot n : type_name n -> ~ In x2e (sbytes n).
Proof.
  intros (x & r & E & U & F & _). rewrite E. intros [->|I].
  - unfold upper in U. cbn in U. lia.
  - rewrite Forall_forall in F. specialize (F _ I). unfold name_char in F. cbn in F. lia.
Qed.
Theorem C66_read : forall q, type_name (q_lib q) -> type_name (q_name q) -> fqn_of_text (show_fqn q) = Ok q.
Proof.
  intros [l n] L N. cbn [q_lib q_name] in *. unfold fqn_of_text, show_fqn. cbn [q_lib q_name]. change (sbytes "." ++ sbytes n) with (x2e :: sbytes n).
  rewrite (split_dot_app _ _ (type_name_dot l L)), !bstring_sbytes. apply type_name_iff in L, N. now rewrite L, N.
Qed.
Theorem C66_written : forall s q, fqn_of_text s = Ok q -> s = show_fqn q /\ type_name (q_lib q) /\ type_name (q_name q).
Proof.
  intros s q E. unfold fqn_of_text in E. destruct (split_dot s) as [[l n]|] eqn:D; [|discriminate E].
  destruct (tname_ok (bstring l) && tname_ok (bstring n)) eqn:O; [|discriminate E]. injection E as <-. apply split_dot_some in D.
  apply andb_true_iff in O as [O1 O2]. unfold show_fqn. cbn [q_lib q_name]. rewrite !sbytes_bstring. split; [exact D|]. split; now apply type_name_iff.
Qed.
Theorem C66_panics : forall s, fqn_of_text s = Panic <-> ~ exists q, s = show_fqn q /\ type_name (q_lib q) /\ type_name (q_name q).
Proof.
  intros s. split.
  - intros P (q & -> & L & N). rewrite C66_read in P by assumption. discriminate P.
  - intros H. destruct (fqn_of_text s) as [q|[]| |] eqn:E; [|reflexivity|].
    + destruct H. exists q. now apply C66_written.
    + unfold fqn_of_text in E. destruct (split_dot s) as [[l n]|]; [|discriminate E]. destruct (_ && _); discriminate E.
Qed.
Example C66_case : fqn_of_text (sbytes "Std.AlphaNum") = Ok (mkFqn "Std" "AlphaNum")
  /\ fqn_of_text (sbytes "Std") = Panic /\ fqn_of_text (sbytes "Std.Alpha.Num") = Panic /\ fqn_of_text (sbytes "Std.alpha") = Panic.
Proof. repeat split. Qed.
Print Assumptions C66_read.
Print Assumptions C66_written.
Print Assumptions C66_panics.
