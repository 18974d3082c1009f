(** Properties of the text form of values: C61. *)
From Coq Require Import NArith ZArith List Bool String Ascii Strings.Byte Lia.
From Verif Require Import Base Ty Ids Val ValLemmas TypeSys SpecUtf8 Utf8Proofs Spec SpecTypify ExampleSys PropTypify SpecSerde PropSerde Ston SpecSton StonProofs.
From Verif Require SerdeProofs.
Import ListNotations.
Local Open Scope N_scope.

(** ** C61: different values of a type are shown differently *)

(** Full statement: of two values of a type with the same text both are the same. Proved for values without quotation
    marks in text. *)
Theorem C61_unambiguous_partial : forall c sys id v v',
  wf_sys sys -> names_valid sys ->
  has_type (mkMode true false) c sys id v -> has_type (mkMode true false) c sys id v' ->
  quote_free v -> quote_free v' -> show v = show v' -> v = v'.
Proof.
  intros c sys id v v' W V T T' Q Q' E.
  refine (proj1 (typed_unambiguous c sys W V id v T Q v' [] [] T' Q' Logic.I Logic.I _)). now rewrite E.
Qed.
Print Assumptions C61_unambiguous_partial.
Example C61_case : quote_free s_value /\ wf_sys s_sys /\ names_valid s_sys
  /\ has_type (mkMode true false) ex_config s_sys si_new s_value.
Proof.
  split; [|split; [exact s_sys_wf|split; [exact s_sys_names|exact s_value_typed]]].
  cbn. intuition discriminate.
Qed.

(** Quotation marks in text are not escaped: a map with one entry is shown as a map with two. *)
Definition st_quoted : sval := VMap [(VEnum (Name "red"), VStr (bstring (sbytes "a" ++ [x22] ++ sbytes ", green -> " ++ [x22] ++ sbytes "b")))].
Definition st_two : sval := VMap [(VEnum (Name "red"), VStr "a"); (VEnum (Name "green"), VStr "b")].
Theorem C61_refuted : exists c sys id v v',
  wf_sys sys /\ has_type (mkMode true false) c sys id v /\ has_type (mkMode true false) c sys id v' /\ v <> v' /\ show v = show v'.
Proof.
  assert (TX : forall s, (N.of_nat (String.length s) <=? 65535) = true -> utf8_valid (sbytes s) = true ->
    has_type (mkMode true false) ex_config s_sys i_text (VStr s)).
  { intros s L U. eapply HT_text; [found|found|reflexivity|apply not_byte_item; discriminate|unfold unicode_item; symmetry; apply unicode_id_val|reflexivity|apply utf8_spec; exact U|].
    apply N.leb_le in L. unfold slen, len_ok. cbn. repeat split; try lia. }
  exists ex_config, s_sys, i_map, st_quoted, st_two. split; [exact s_sys_wf|].
  split; [|split; [|split; [discriminate|vm_compute; reflexivity]]].
  - eapply HT_map; [found|repeat split; vm_compute; try reflexivity; discriminate| | |].
    + apply Forall_cons; [|constructor]. eapply (HT_enum _ _ _ _ _ (mkVariant "red" 0)); [found|left; reflexivity].
    + apply Forall_cons; [|constructor]. apply TX; vm_compute; reflexivity.
    + intros _. repeat constructor. intros [].
  - eapply HT_map; [found|repeat split; vm_compute; try reflexivity; discriminate| | |].
    + apply Forall_cons; [|apply Forall_cons; [|constructor]].
      * eapply (HT_enum _ _ _ _ _ (mkVariant "red" 0)); [found|left; reflexivity].
      * eapply (HT_enum _ _ _ _ _ (mkVariant "green" 5)); [found|right; left; reflexivity].
    + apply Forall_cons; [|apply Forall_cons; [|constructor]]; apply TX; vm_compute; reflexivity.
    + intros _. repeat constructor; intros X; cbn in X; intuition discriminate.
Qed.
Print Assumptions C61_refuted.

(** The text of a value is balanced: each bracket is closed by one of its kind. *)
Lemma balanced_app a b : balanced a -> balanced b -> balanced (a ++ b).
Proof.
  intros A B. induction A as [|x s Q N A IH|t s Q A IH|o c s s' O A1 _ A2 IH].
  - exact B.
  - cbn. now constructor.
  - rewrite <- !app_assoc. now apply balanced_quoted.
  - rewrite <- !app_assoc. now apply balanced_bracket.
Qed.
Lemma harmless_balanced s : forallb harmless s = true -> balanced s.
Proof.
  induction s as [|b s IH]; intros H; [constructor|]. cbn [forallb] in H. apply andb_true_iff in H as [H1 H2].
  constructor; [|intros o c [E|[E|[E|[]]]]; injection E as <- <-; split|now apply IH]; intros ->; discriminate H1.
Qed.
Lemma bracket_balanced o c s : In (o, c) brackets -> balanced s -> balanced ([o] ++ s ++ [c]).
Proof. intros O B. rewrite <- (app_nil_r ([o] ++ s ++ [c])), <- !app_assoc. apply balanced_bracket; [exact O|exact B|constructor]. Qed.
Lemma sep_balanced : balanced (sbytes ", ") /\ balanced (sbytes " -> ") /\ balanced (sbytes " ") /\ balanced (sbytes ".").
Proof.
  assert (X : forall s, forallb (fun b => negb (Byte.eqb b x22) && forallb (fun oc => negb (Byte.eqb b (fst oc)) && negb (Byte.eqb b (snd oc))) brackets) s = true -> balanced s).
  { assert (R : forall x, Byte.eqb x x = true) by (intros []; reflexivity).
    induction s as [|b s IH]; intros H; [constructor|]. cbn [forallb] in H. apply andb_true_iff in H as [H H2]. apply andb_true_iff in H as [H0 H1].
    constructor; [intros ->; discriminate H0| |now apply IH]. intros o c I.
    rewrite forallb_forall in H1. specialize (H1 _ I). cbn [fst snd] in H1. apply andb_true_iff in H1 as [A B].
    split; intros ->; rewrite R in *; discriminate. }
  repeat split; apply X; reflexivity.
Qed.
Lemma join_balanced l : Forall balanced l -> balanced (join (sbytes ", ") l).
Proof.
  induction 1 as [|x l B F IH]; [constructor|]. destruct l as [|y l]; [exact B|]. cbn [join]. fold (join (sbytes ", ")).
  apply balanced_app; [exact B|]. apply balanced_app; [apply sep_balanced|exact IH].
Qed.
Lemma paren_balanced b s : balanced s -> balanced (paren b s).
Proof. destruct b; intros B; [|exact B]. apply (bracket_balanced x28 x29); [now left|exact B]. Qed.
Lemma tag_balanced t : match t with Name s => identifier s | Ord _ => True end -> balanced (show_tag t).
Proof. destruct t as [s|n]; intros H; apply harmless_balanced; [apply identifier_harmless, H|apply uint_digits]. Qed.
Theorem C61_balanced : forall v, quote_free v -> names_plain v -> balanced (show v).
Proof.
  induction v as [|n|s|b|fs IH|t|t v IH|l IH|l IH|l IH|l IH] using sval_ind'; intros Q N; cbn [show].
  - apply (balanced_bracket x28 x29 [x2c] []); [now left| |constructor]. apply (balanced_app [x2c] []); [|constructor].
    constructor; [discriminate| |constructor]. intros o c [E|[E|[E|[]]]]; injection E as <- <-; split; discriminate.
  - apply harmless_balanced. destruct n; cbn [show_num]; try apply uint_digits; unfold show_Z; destruct (Z.to_int _); cbn; apply uint_digits.
  - apply (balanced_quoted (sbytes s) []); [exact Q|constructor].
  - apply balanced_app; [apply harmless_balanced; reflexivity|apply harmless_balanced, hex_harmless].
  - apply join_balanced. cbn [quote_free names_plain] in Q, N. induction fs as [|[n f] fs IHf]; [constructor|].
    cbn [map]. inversion IH as [|? ? I IH']; subst. destruct Q as [Q1 Q2], N as [[N1 N2] N3]. constructor; [|now apply IHf].
    cbn [fst snd] in *. apply balanced_app; [apply harmless_balanced, identifier_harmless, N1|]. apply balanced_app; [apply sep_balanced|]. now apply paren_balanced, I.
  - now apply tag_balanced.
  - cbn [quote_free names_plain] in Q, N. destruct N as [N1 N2]. destruct (show_union t v) as [(E & _)|E]; cbn [show] in E; rewrite E; [now apply harmless_balanced|].
    apply balanced_app; [apply paren_balanced; now apply IH|]. apply balanced_app; [apply sep_balanced|now apply tag_balanced].
  - apply (bracket_balanced x5b x5d); [cbn; auto|]. apply join_balanced. cbn [quote_free names_plain] in Q, N. induction l as [|x l IHl]; [constructor|].
    inversion IH as [|? ? I IH']; subst. destruct Q, N. constructor; [now apply paren_balanced, I|now apply IHl].
  - apply (bracket_balanced x7b x7d); [cbn; auto|]. apply join_balanced. cbn [quote_free names_plain] in Q, N. induction l as [|x l IHl]; [constructor|].
    inversion IH as [|? ? I IH']; subst. destruct Q, N. constructor; [now apply paren_balanced, I|now apply IHl].
  - apply join_balanced. cbn [quote_free names_plain] in Q, N. induction l as [|x l IHl]; [constructor|].
    inversion IH as [|? ? I IH']; subst. destruct Q, N. constructor; [now apply paren_balanced, I|now apply IHl].
  - apply (bracket_balanced x7b x7d); [cbn; auto|]. apply join_balanced. cbn [quote_free names_plain] in Q, N. induction l as [|[k x] l IHl]; [constructor|].
    inversion IH as [|? ? [I1 I2] IH']; subst. destruct Q as [[Q1 Q2] Q3], N as [[N1 N2] N3]. cbn [fst snd] in *. constructor; [|now apply IHl]. cbn [fst snd].
    apply balanced_app; [now apply I1|]. apply balanced_app; [apply sep_balanced|]. now apply paren_balanced, I2.
Qed.
Example C61_balanced_case : quote_free s_value /\ names_plain s_value.
Proof.
  split; [cbn; intuition discriminate|]. repeat split; apply SerdeProofs.ok_identifier; reflexivity.
Qed.
Print Assumptions C61_balanced.
