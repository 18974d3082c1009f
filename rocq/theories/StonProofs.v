(** Proofs about the text form of values: it is read unambiguously when the type is known. *)
From Coq Require Import NArith ZArith Arith List Bool String Ascii Strings.Byte Lia.
From Coq Require DecimalString DecimalN DecimalZ.
From Verif Require Import Base Ty Ids Val TypeSys Spec CodecLemmas SpecTypify Serde SpecSerde SerdeProofs Ston SpecSton.
Import ListNotations.
Local Open Scope N_scope.
Local Open Scope list_scope.

(** ** Scanning text to the end of an item *)
Definition opening (b : byte) : bool := existsb (Byte.eqb b) [x28; x5b; x7b].
Definition closing (b : byte) : bool := existsb (Byte.eqb b) [x29; x5d; x7d].
Definition separating (b : byte) : bool := existsb (Byte.eqb b) [x2c; x20].
Definition step (st : nat * bool) (b : byte) : option (nat * bool) :=
  let '(d, q) := st in
  if q then Some (d, negb (Byte.eqb b x22))
  else if Byte.eqb b x22 then Some (d, true)
  else if opening b then Some (S d, false)
  else if closing b then match d with O => None | S d => Some (d, false) end
  else if separating b then match d with O => None | S _ => Some (d, false) end
  else Some (d, false).
Fixpoint run (st : nat * bool) (s : bytes) : option (nat * bool) :=
  match s with
  | [] => Some st
  | b :: s => match step st b with Some st => run st s | None => None end
  end.
Lemma run_app st a b : run st (a ++ b) = match run st a with Some st => run st b | None => None end.
Proof. revert st. induction a as [|x a IH]; intros st; [reflexivity|]. cbn. destruct (step st x); auto. Qed.

Definition closed (s : bytes) := forall k, run (k, false) s = Some (k, false).
Definition inner (s : bytes) := forall k, run (S k, false) s = Some (S k, false).
Lemma closed_inner s : closed s -> inner s.
Proof. intros C k. apply C. Qed.
Lemma closed_app a b : closed a -> closed b -> closed (a ++ b).
Proof. intros A B k. now rewrite run_app, A, B. Qed.
Lemma inner_app a b : inner a -> inner b -> inner (a ++ b).
Proof. intros A B k. now rewrite run_app, A, B. Qed.
Lemma bracket_closed o c s : opening o = true -> closing c = true -> Byte.eqb o x22 = false -> Byte.eqb c x22 = false -> opening c = false ->
  inner s -> closed ([o] ++ s ++ [c]).
Proof.
  intros O C Q1 Q2 OC I k. cbn [app run step]. rewrite Q1, O, run_app, (I k). cbn [run step]. now rewrite Q2, OC, C.
Qed.
Lemma paren_closed s : inner s -> closed (paren true s).
Proof. intros I. apply (bracket_closed x28 x29); auto. Qed.
Lemma join_inner l : Forall inner l -> inner (join (sbytes ", ") l).
Proof.
  induction 1 as [|x l I F IH]; [intros k; reflexivity|]. destruct l as [|y l]; [exact I|].
  cbn [join]. fold (join (sbytes ", ")). apply inner_app; [exact I|]. apply inner_app; [intros k; reflexivity|exact IH].
Qed.

Definition harmless (b : byte) : bool := negb (Byte.eqb b x22 || opening b || closing b || separating b).
Lemma harmless_closed s : forallb harmless s = true -> closed s.
Proof.
  induction s as [|b s IH]; [intros _ k; reflexivity|]. cbn [forallb]. intros H k. apply andb_true_iff in H as [H1 H2].
  unfold harmless in H1. apply negb_true_iff in H1. rewrite !orb_false_iff in H1. destruct H1 as [[[A B] C] D].
  cbn [run step]. rewrite A, B, C, D. now apply IH.
Qed.

Definition stop (r : bytes) : Prop := match r with [] => True | b :: _ => closing b = true \/ separating b = true end.
Lemma stop_step b : closing b = true \/ separating b = true -> step (O, false) b = None.
Proof. destruct b; intros [H|H]; try discriminate H; reflexivity. Qed.
Lemma closed_split s s' r r' : closed s -> closed s' -> stop r -> stop r' -> s ++ r = s' ++ r' -> s = s' /\ r = r'.
Proof.
  assert (X : forall s m r, closed s -> closed (s ++ m) -> stop (m ++ r) -> m = []).
  { intros a m x A AM ST. destruct m as [|b m]; [reflexivity|]. exfalso. specialize (AM O). rewrite run_app, (A O) in AM. cbn [run] in AM.
    rewrite stop_step in AM by exact ST. discriminate AM. }
  intros A B SA SB E. apply app_eq_app in E as (m & [[-> ->]|[-> ->]]).
  - pose proof (X s' m r B A SB) as ->. now rewrite app_nil_r.
  - pose proof (X s m r' A B SA) as ->. now rewrite app_nil_r.
Qed.

Lemma stop_end s : stop (sbytes ")" ++ s).
Proof. left. reflexivity. Qed.
Lemma stop_next s : stop (sbytes ", " ++ s).
Proof. right. reflexivity. Qed.

(** ** Atoms *)
Lemma uint_digits d : forallb harmless (sbytes (DecimalString.NilEmpty.string_of_uint d)) = true.
Proof. induction d; cbn; auto. Qed.
Lemma show_N_closed n : closed (show_N n).
Proof. apply harmless_closed, uint_digits. Qed.
Lemma show_Z_closed z : closed (show_Z z).
Proof. apply harmless_closed. unfold show_Z. destruct (Z.to_int z); cbn; apply uint_digits. Qed.
Lemma show_N_inj n m : show_N n = show_N m -> n = m.
Proof.
  intros H. apply sbytes_inj in H. apply (f_equal DecimalString.NilEmpty.uint_of_string) in H. rewrite !DecimalString.NilEmpty.usu in H. injection H as H.
  apply (f_equal N.of_uint) in H. now rewrite !DecimalN.Unsigned.of_to in H.
Qed.
Lemma show_Z_inj n m : show_Z n = show_Z m -> n = m.
Proof.
  intros H. apply sbytes_inj in H. apply (f_equal DecimalString.NilEmpty.int_of_string) in H. rewrite !DecimalString.NilEmpty.isi in H. injection H as H.
  apply (f_equal Z.of_int) in H. now rewrite !DecimalZ.of_to in H.
Qed.
Lemma show_N_nonempty n : show_N n <> [].
Proof.
  intros H. apply (f_equal bstring) in H. unfold show_N in H. rewrite bstring_sbytes in H.
  apply (f_equal DecimalString.NilEmpty.uint_of_string) in H. rewrite DecimalString.NilEmpty.usu in H. cbn in H. injection H as H.
  destruct n as [|p]; [discriminate H|]. pose proof (DecimalN.Unsigned.of_to (N.pos p)) as T. rewrite H in T. discriminate T.
Qed.
Lemma show_Z_nonempty z : show_Z z <> [].
Proof.
  unfold show_Z. intros H. apply (f_equal bstring) in H. rewrite bstring_sbytes in H.
  apply (f_equal DecimalString.NilEmpty.int_of_string) in H. rewrite DecimalString.NilEmpty.isi in H. cbn in H. injection H as H.
  pose proof (DecimalZ.of_to z) as T. rewrite H in T. cbn in T. subst z. discriminate H.
Qed.
Lemma identifier_harmless s : identifier s -> forallb harmless (sbytes s) = true /\ sbytes s <> [].
Proof.
  intros (x & r & E & X & R & _). destruct (sbytes s) as [|b t]; [discriminate E|]. cbn in E. injection E as <- <-. split; [|discriminate].
  cbn [forallb]. apply andb_true_iff. split.
  - clear R. destruct b; try reflexivity; exfalso; cbn in X; lia.
  - clear X. induction t as [|b' t IH]; [reflexivity|]. cbn in R. inversion R as [|? ? X R']; subst. cbn [forallb]. rewrite (IH R'), andb_true_r.
    clear -X. destruct b'; try reflexivity; exfalso; cbn in X; lia.
Qed.
Lemma identifier_no_dot s : identifier s -> ~ In x2e (sbytes s).
Proof.
  intros (x & r & E & X & R & _) I. destruct (sbytes s) as [|b t]; [discriminate E|]. cbn in E. injection E as <- <-.
  destruct I as [->|I]; [cbn in X; lia|]. rewrite Forall_forall in R. specialize (R _ (in_map Byte.to_N _ _ I)). cbn in R. lia.
Qed.
Lemma hex_harmless b : forallb harmless (sbytes (to_hex b)) = true.
Proof.
  unfold to_hex. rewrite Base.sbytes_bstring. induction b as [|x b IH]; [reflexivity|]. cbn [flat_map app forallb].
  rewrite IH. clear. destruct x; reflexivity.
Qed.
Definition hex_value (x : byte) : N := if Byte.to_N x <? 58 then Byte.to_N x - 48 else Byte.to_N x - 87.
Lemma hex_inj b b' : to_hex b = to_hex b' -> b = b'.
Proof.
  unfold to_hex. intros H. apply (f_equal sbytes) in H. rewrite !Base.sbytes_bstring in H. revert b' H.
  induction b as [|x b IH]; intros [|y b'] H; try discriminate H; [reflexivity|]. cbn [flat_map app] in H.
  injection H as H1 H2 H3. f_equal; [|now apply IH]. clear -H1 H2.
  assert (D : forall z, 16 * hex_value (hex_digit (Byte.to_N z / 16)) + hex_value (hex_digit (Byte.to_N z mod 16)) = Byte.to_N z) by (intros []; reflexivity).
  pose proof (D x) as Dx. pose proof (D y) as Dy. rewrite H1, H2, Dy in Dx.
  apply (f_equal Byte.of_N) in Dx. rewrite !Byte.of_to_N in Dx. now injection Dx.
Qed.
Lemma text_closed s : ~ In x22 s -> closed ([x22] ++ s ++ [x22]).
Proof.
  intros N k. cbn [app run step]. change (Byte.eqb x22 x22) with true. cbn iota. rewrite run_app.
  assert (R : run (k, true) s = Some (k, true)).
  { induction s as [|b s IH]; [reflexivity|]. cbn [run step]. replace (Byte.eqb b x22) with false; [apply IH; intros I; apply N; now right|].
    symmetry. apply not_true_is_false. intros E. apply Byte.byte_dec_bl in E. apply N. now left. }
  rewrite R. reflexivity.
Qed.
Lemma last_dot a b t u : ~ In x2e t -> ~ In x2e u -> a ++ [x2e] ++ t = b ++ [x2e] ++ u -> a = b /\ t = u.
Proof.
  intros T U E. apply app_eq_app in E as (m & [[-> E]|[-> E]]).
  - destruct m as [|c m]; [rewrite app_nil_r; split; [reflexivity|]; cbn in E; injection E as E; congruence|]. exfalso. cbn in E.
    injection E as _ E. apply U. rewrite E. apply in_or_app. right. now left.
  - destruct m as [|c m]; [rewrite app_nil_r; split; [reflexivity|]; cbn in E; injection E as E; congruence|]. exfalso. cbn in E.
    injection E as _ E. apply T. rewrite E. apply in_or_app. right. now left.
Qed.

(** ** Values *)
Lemma quote_free_list l :
  (fix all l := match l with [] => True | x :: l => quote_free x /\ all l end) l <-> Forall quote_free l.
Proof. induction l as [|x l IH]; [split; auto|]. rewrite IH. split; [intros [A B]; auto|intros H; inversion H; auto]. Qed.
Lemma quote_free_fields (l : list (string * sval)) :
  (fix all l := match l with [] => True | f :: l => quote_free (snd f) /\ all l end) l <-> Forall quote_free (map snd l).
Proof. induction l as [|x l IH]; [split; auto; constructor|]. rewrite IH. cbn. split; [intros [A B]; auto|intros H; inversion H; auto]. Qed.
Lemma quote_free_map (l : list (sval * sval)) :
  (fix all l := match l with [] => True | e :: l => (quote_free (fst e) /\ quote_free (snd e)) /\ all l end) l
  <-> Forall quote_free (map fst l) /\ Forall quote_free (map snd l).
Proof.
  induction l as [|x l IH]; [split; auto; repeat split; constructor|]. rewrite IH. cbn. split; [intros [[A B] [C D]]; auto|].
  intros [H1 H2]; inversion H1; inversion H2; auto.
Qed.

Lemma widths_differ p w w' : uint_width p = Some w -> int_width p = Some w' -> False.
Proof.
  unfold uint_width, int_width. intros U X. destruct ((1 <=? p) && (p <=? 8)) eqn:Z1.
  - apply andb_true_iff in Z1 as [_ Z1]. apply N.leb_le in Z1.
    repeat (match type of X with (if ?e then _ else _) = _ => let Y := fresh in destruct e eqn:Y; [apply N.eqb_eq in Y; subst p; vm_compute in Z1; congruence|] end). discriminate X.
  - destruct (p =? 0x40) eqn:Z2; [apply N.eqb_eq in Z2; subst p; discriminate X|discriminate U].
Qed.

Definition item (v : sval) : bytes := paren (needs_parenthesis v) (show v).

Section Typed.
Variables (c : config) (sys : type_system).
Local Notation HT := (has_type (mkMode true false) c sys).
Hypothesis W : wf_sys sys.
Hypothesis V : names_valid sys.

Definition fine v := inner (show v) /\ closed (item v) /\ item v <> [].
Lemma fine_atom v : needs_parenthesis v = false -> closed (show v) -> show v <> [] -> fine v.
Proof. intros N C E. unfold fine, item. rewrite N. cbn [paren]. split; [now apply closed_inner|auto]. Qed.
Lemma fine_paren v : needs_parenthesis v = true -> inner (show v) -> fine v.
Proof. intros N C. unfold fine, item. rewrite N. split; [exact C|]. split; [now apply paren_closed|discriminate]. Qed.
Lemma fine_text s : ~ In x22 (sbytes s) -> fine (VStr s).
Proof. intros N. apply fine_atom; [reflexivity| |discriminate]. cbn [show]. now apply text_closed. Qed.
Lemma fine_bytes b : fine (VBytes b).
Proof. apply fine_atom; [reflexivity| |discriminate]. cbn [show]. apply closed_app; [intros k; reflexivity|apply harmless_closed, hex_harmless]. Qed.
Lemma fine_items l : Forall fine l -> inner (join (sbytes ", ") (map item l)).
Proof.
  intros F. apply join_inner. rewrite Forall_map. apply Forall_forall. intros x I. rewrite Forall_forall in F. apply closed_inner. now apply F.
Qed.
Lemma show_union t w : show (VUnion t w) = sbytes "~" /\ w = VUnit /\ (t = Name "none" \/ t = Ord 0)
  \/ show (VUnion t w) = item w ++ sbytes "." ++ show_tag t.
Proof.
  cbn [show]. destruct t as [s|n], w; try (right; destruct n; reflexivity);
    try (right; repeat (let b := fresh in destruct s as [|b s]; [reflexivity|]; destruct b as [[] [] [] [] [] [] [] []]; try reflexivity); destruct s; reflexivity).
  - destruct (string_dec s "none") as [->|N]; [left; auto|right].
    repeat (let b := fresh in destruct s as [|b s]; [reflexivity|]; destruct b as [[] [] [] [] [] [] [] []]; try reflexivity); destruct s; [now destruct N|reflexivity].
  - destruct n; [left; auto|right; reflexivity].
Qed.

Lemma typed_fine id v : HT id v -> quote_free v -> fine v.
Proof.
  revert id v. apply (has_type_ind' (mkMode true false) c sys (fun _ v => quote_free v -> fine v)).
  - intros id F _. apply fine_atom; [reflexivity|intros k; reflexivity|discriminate].
  - intros id p w n F U L _. apply fine_atom; [reflexivity|apply show_N_closed|apply show_N_nonempty].
  - intros id p w z F U L _. apply fine_atom; [reflexivity|apply show_Z_closed|apply show_Z_nonempty].
  - intros id vs v F I _.
    assert (ID : identifier (v_name v)). { pose proof (V _ _ F) as N. cbn in N. rewrite Forall_forall in N. now apply N. }
    apply identifier_harmless in ID as [H NE]. apply fine_atom; [reflexivity|now apply harmless_closed|exact NE].
  - intros id vs v r w F I T IH Q.
    assert (ID : identifier (v_name v)). { pose proof (V _ _ F) as N. cbn in N. rewrite Forall_forall in N. now apply (N _ I). }
    apply identifier_harmless in ID as [H NE].
    destruct (show_union (Name (v_name v)) w) as [(E & _)|E]; (apply fine_atom; [reflexivity| |]); rewrite E.
    + intros k. reflexivity.
    + discriminate.
    + destruct (IH Q) as (_ & C & _). apply closed_app; [exact C|]. apply closed_app; [intros k; reflexivity|now apply harmless_closed].
    + intros X. apply app_eq_nil in X as [_ X]. discriminate X.
  - intros id fs l F NR T IH Q. apply quote_free_list in Q.
    assert (FL : Forall fine l). { clear -IH Q. induction IH; constructor; inversion Q; subst; auto. }
    destruct l as [|x [|y l]]; [apply fine_paren; [reflexivity|intros k; reflexivity]| |apply fine_paren; [reflexivity|now apply fine_items]].
    inversion FL as [|? ? (A & B & C) _]; subst. apply fine_atom; [reflexivity|exact B|exact C].
  - intros id fs a1 a2 mn mx s F RS A L IA Q. now apply fine_text.
  - intros id fs l F N T IH Q. cbn in Q. apply quote_free_fields in Q. apply fine_paren; [reflexivity|]. cbn [show]. apply join_inner.
    rewrite Forall_map.
    assert (ID : Forall (fun n => identifier n) (map fst l)) by (rewrite N, Forall_map; exact (V _ _ F)).
    assert (FL : Forall fine (map snd l)).
    { clear -IH Q. remember (map snd l) as xs. clear Heqxs. induction IH; constructor; inversion Q; subst; auto. }
    clear -ID FL. induction l as [|[n x] l IH]; constructor; inversion ID; inversion FL; subst; [|now apply IH].
    cbn [fst snd]. apply inner_app; [now apply closed_inner, harmless_closed, identifier_harmless|].
    apply inner_app; [intros k; reflexivity|]. apply closed_inner. apply H5.
  - intros id r len b F BI L C _. apply fine_bytes.
  - intros id r len l A. discriminate A.
  - intros id r rt a mn mx s F FR CT A L IA Q. now apply fine_text.
  - intros id r rt mn mx b F FR CT BI M L Q. apply fine_bytes.
  - intros id r rt mn mx s F FR CT NBI UI M U L Q. now apply fine_text.
  - intros id r rt mn mx l F FR CT ML L T IH Q. apply quote_free_list in Q.
    assert (FL : Forall fine l) by (rewrite Forall_forall in *; auto).
    apply fine_atom; [reflexivity| |discriminate]. apply (bracket_closed x5b x5d); auto. now apply fine_items.
  - intros id r mn mx l F L T IH ND Q. apply quote_free_list in Q.
    assert (FL : Forall fine l) by (rewrite Forall_forall in *; auto).
    apply fine_atom; [reflexivity| |discriminate]. apply (bracket_closed x7b x7d); auto. now apply fine_items.
  - intros id k r mn mx l F L T1 IH1 T2 IH2 ND Q. cbn in Q. apply quote_free_map in Q as [Q1 Q2].
    apply fine_atom; [reflexivity| |discriminate]. apply (bracket_closed x7b x7d); auto. apply join_inner. rewrite Forall_map.
    clear -IH1 IH2 Q1 Q2. induction l as [|[a b] l IH]; constructor; cbn [map fst snd] in *; inversion IH1; inversion IH2; inversion Q1; inversion Q2; subst; [|now apply IH].
    apply inner_app; [now apply H1|]. apply inner_app; [intros n; reflexivity|]. apply closed_inner. now apply H5.
Qed.

Lemma same_parens id v v' : HT id v -> HT id v' -> needs_parenthesis v = needs_parenthesis v'.
Proof.
  intros T T'. destruct T; inversion T'; subst; try congruence; try reflexivity.
  - match goal with A : Forall2 _ ?f l, B : Forall2 _ ?g l0 |- _ => assert (E : f = g) by congruence; subst g; apply Forall2_len in A; apply Forall2_len in B end.
    destruct l as [|x [|y l]], l0 as [|x' [|y' l']]; cbn in *; try reflexivity; lia.
  - exfalso. match goal with N : forall _ _ _ _, ~ restricted_string _ _ _ _ _ _, R : restricted_string _ ?g ?a ?b ?m ?n |- _ => apply (N a b m n) end. congruence.
  - exfalso. match goal with N : forall _ _ _ _, ~ restricted_string _ _ _ _ _ _, R : restricted_string _ ?g ?a ?b ?m ?n |- _ => apply (N a b m n) end. congruence.
Qed.

Definition unambiguous id v := quote_free v -> forall v' r r', HT id v' -> quote_free v' -> stop r -> stop r' ->
  show v ++ r = show v' ++ r' -> v = v' /\ r = r'.

Lemma item_unambiguous id v : HT id v -> unambiguous id v -> quote_free v -> forall v' r r', HT id v' -> quote_free v' -> stop r -> stop r' ->
  item v ++ r = item v' ++ r' -> v = v' /\ r = r'.
Proof.
  intros T U Q v' r r' T' Q' S S' E. unfold item in E. rewrite <- (same_parens id v v' T T') in E. destruct (needs_parenthesis v).
  - cbn [paren] in E. change (sbytes "(") with [x28] in E. cbn [app] in E. injection E as E. rewrite <- !app_assoc in E.
    destruct (U Q v' _ _ T' Q' (stop_end _) (stop_end _) E) as [-> E']. split; [reflexivity|].
    now injection E'.
  - now apply U.
Qed.

Lemma join_cons x y l : join (sbytes ", ") (x :: y :: l) = x ++ sbytes ", " ++ join (sbytes ", ") (y :: l).
Proof. reflexivity. Qed.

Lemma tuple_unambiguous fs l : Forall2 HT fs l -> Forall2 unambiguous fs l -> Forall quote_free l ->
  forall l' r r', Forall2 HT fs l' -> Forall quote_free l' -> stop r -> stop r' ->
  join (sbytes ", ") (map item l) ++ r = join (sbytes ", ") (map item l') ++ r' -> l = l' /\ r = r'.
Proof.
  intros T U. revert T. induction U as [|f x fs l Hx Hl IH]; intros T Q l' r r' T' Q' S S' E.
  - inversion T'; subst. auto.
  - inversion T as [|? ? ? ? Tx Tl]; subst. inversion T' as [|? y ? l2 Ty Tl2]; subst. inversion Q as [|? ? Qx Ql]; inversion Q' as [|? ? Qy Ql2]; subst.
    destruct l as [|x2 l], l2 as [|y2 l2].
    + destruct (item_unambiguous f x Tx Hx Qx y r r' Ty Qy S S' E) as [-> ->]. auto.
    + apply Forall2_len in Tl, Tl2. cbn in *. lia.
    + apply Forall2_len in Tl, Tl2. cbn in *. lia.
    + cbn [map] in E. rewrite !join_cons, <- !app_assoc in E.
      destruct (item_unambiguous f x Tx Hx Qx y _ _ Ty Qy (stop_next _) (stop_next _) E) as [-> E'].
      apply app_inv_head in E'. destruct (IH Tl Ql (y2 :: l2) r r' Tl2 Ql2 S S' E') as [-> ->]. auto.
Qed.

Lemma struct_unambiguous fs (l : list (string * sval)) : Forall2 HT fs (map snd l) -> Forall2 unambiguous fs (map snd l) ->
  Forall quote_free (map snd l) ->
  forall l' r r', map fst l' = map fst l -> Forall2 HT fs (map snd l') -> Forall quote_free (map snd l') -> stop r -> stop r' ->
  join (sbytes ", ") (map (fun f => sbytes (fst f) ++ sbytes " " ++ item (snd f)) l) ++ r
  = join (sbytes ", ") (map (fun f => sbytes (fst f) ++ sbytes " " ++ item (snd f)) l') ++ r' -> l = l' /\ r = r'.
Proof.
  revert fs. induction l as [|[n x] l IH]; intros fs T U Q [|[n' y] l'] r r' N' T' Q' S S' E; try discriminate N'; [auto|].
  cbn in N'. injection N' as -> N'. cbn [map snd] in *.
  inversion T as [|f ? fs' ? Tx Tl]; subst. inversion T' as [|? ? ? ? Ty Tl']; subst. inversion U as [|? ? ? ? Hx Hl]; subst.
  inversion Q as [|? ? Qx Ql]; inversion Q' as [|? ? Qy Ql2]; subst.
  destruct l as [|[n2 x2] l], l' as [|[n2' y2] l2]; try discriminate N'.
  - cbn [map join fst snd] in E. rewrite <- !app_assoc in E. apply app_inv_head, app_inv_head in E.
    destruct (item_unambiguous f x Tx Hx Qx y r r' Ty Qy S S' E) as [-> ->]. auto.
  - cbn [map] in E. rewrite !join_cons in E. cbn [fst snd] in E. rewrite <- !app_assoc in E. apply app_inv_head, app_inv_head in E.
    destruct (item_unambiguous f x Tx Hx Qx y _ _ Ty Qy (stop_next _) (stop_next _) E) as [-> E'].
    apply app_inv_head in E'. destruct (IH fs' Tl Hl Ql _ r r' N' Tl' Ql2 S S' E') as [-> ->]. auto.
Qed.

Lemma list_unambiguous f cl l : closing cl = true -> Forall (HT f) l -> Forall (unambiguous f) l -> Forall quote_free l ->
  forall l' r r', Forall (HT f) l' -> Forall quote_free l' ->
  join (sbytes ", ") (map item l) ++ cl :: r = join (sbytes ", ") (map item l') ++ cl :: r' -> l = l' /\ r = r'.
Proof.
  intros C T U. revert T.
  assert (Z : forall y l r r', HT f y -> quote_free y -> cl :: r <> join (sbytes ", ") (map item (y :: l)) ++ cl :: r').
  { intros y l2 r r' Ty Qy E. destruct (typed_fine f y Ty Qy) as (_ & CL & NE).
    assert (E2 : exists s, cl :: r = item y ++ s).
    { destruct l2 as [|z l2]; [exists (cl :: r'); exact E|]. cbn [map] in E. rewrite join_cons, <- !app_assoc in E. eauto. }
    destruct E2 as [s E2]. destruct (item y) as [|b t]; [now apply NE|]. injection E2 as <- _. specialize (CL O). cbn [run] in CL.
    rewrite stop_step in CL by (now left). discriminate CL. }
  induction U as [|x l Hx Hl IH]; intros T Q [|y l'] r r' T' Q' E.
  - cbn in E. injection E as ->. auto.
  - exfalso. inversion T'; inversion Q'; subst. eapply Z; [| |exact E]; assumption.
  - exfalso. inversion T; inversion Q; subst. eapply Z; [| |symmetry; exact E]; assumption.
  - inversion T as [|? ? Tx Tl]; inversion T' as [|? ? Ty Tl2]; inversion Q as [|? ? Qx Ql]; inversion Q' as [|? ? Qy Ql2]; subst.
    assert (SC : forall s, stop (cl :: s)) by (intros; now left). assert (SS : forall s, stop (sbytes ", " ++ s)) by (intros; now right).
    destruct l as [|x2 l], l' as [|y2 l'].
    + cbn [map join] in E. destruct (item_unambiguous f x Tx Hx Qx y _ _ Ty Qy (SC _) (SC _) E) as [-> E']. injection E' as ->. auto.
    + cbn [map] in E. rewrite join_cons in E. cbn [join] in E. rewrite <- !app_assoc in E.
      destruct (item_unambiguous f x Tx Hx Qx y _ _ Ty Qy (SC _) (SS _) E) as [_ E']. cbn in E'. injection E' as X _. subst cl. discriminate C.
    + cbn [map] in E. rewrite join_cons in E. cbn [join] in E. rewrite <- !app_assoc in E.
      destruct (item_unambiguous f x Tx Hx Qx y _ _ Ty Qy (SS _) (SC _) E) as [_ E']. cbn in E'. injection E' as X _. subst cl. discriminate C.
    + cbn [map] in E. rewrite !join_cons, <- !app_assoc in E.
      destruct (item_unambiguous f x Tx Hx Qx y _ _ Ty Qy (SS _) (SS _) E) as [-> E']. apply app_inv_head in E'.
      destruct (IH Tl Ql (y2 :: l') r r' Tl2 Ql2 E') as [-> ->]. auto.
Qed.

(** The text of a key does not begin with the end of the map. *)
Lemma show_head id v s : HT id v -> quote_free v -> show v <> x7d :: s.
Proof.
  intros T Q E. destruct (typed_fine id v T Q) as (_ & C & _). unfold item in C. destruct (needs_parenthesis v) eqn:N.
  - clear C. destruct v as [| | | |fs| | | | |l|]; try discriminate N.
    + destruct fs as [|[n x] fs]; [discriminate E|]. inversion T; subst.
      match goal with H : map fst _ = map fst ?f, F : sys_find _ _ = Some (TStruct ?f) |- _ => pose proof (V _ _ F) as ID; destruct f as [|[n' r] f]; [discriminate H|];
        cbn in H; injection H as -> _ end.
      inversion ID as [|? ? I _]; subst. cbn [fst] in I. apply identifier_harmless in I as [H NE]. destruct (sbytes n') as [|b t] eqn:B; [now apply NE|].
      assert (b = x7d); [|subst b; discriminate H].
      destruct fs as [|f2 fs]; cbn [show map] in E; [cbn [join] in E|rewrite join_cons in E]; cbn [fst] in E; rewrite B in E; cbn [app] in E; now injection E.
    + destruct l as [|x [|y l]]; try discriminate N; [discriminate E|]. inversion T as [| | | | |? fs ? F NR F2| | | | | | | | | |]; subst.
      inversion F2 as [|f ? ? ? Tx _]; subst. destruct Q as [Qx _]. destruct (typed_fine f x Tx Qx) as (_ & CL & NE).
      assert (E2 : exists t, x7d :: s = item x ++ t) by (cbn [show map] in E; rewrite join_cons in E; rewrite <- E; eexists; reflexivity).
      destruct E2 as [t E2]. destruct (item x) as [|b u]; [now apply NE|]. injection E2 as <- _. specialize (CL O). discriminate CL.
  - cbn [paren] in C. rewrite E in C. specialize (C O). discriminate C.
Qed.

Lemma map_unambiguous k f l : Forall (HT k) (map fst l) -> Forall (unambiguous k) (map fst l) -> Forall quote_free (map fst l) ->
  Forall (HT f) (map snd l) -> Forall (unambiguous f) (map snd l) -> Forall quote_free (map snd l) ->
  forall l' r r', Forall (HT k) (map fst l') -> Forall quote_free (map fst l') -> Forall (HT f) (map snd l') -> Forall quote_free (map snd l') ->
  join (sbytes ", ") (map (fun e => show (fst e) ++ sbytes " -> " ++ item (snd e)) l) ++ x7d :: r
  = join (sbytes ", ") (map (fun e => show (fst e) ++ sbytes " -> " ++ item (snd e)) l') ++ x7d :: r' -> l = l' /\ r = r'.
Proof.
  assert (Z : forall (y : sval * sval) (l : list (sval * sval)) r r', HT k (fst y) -> quote_free (fst y) ->
    x7d :: r <> join (sbytes ", ") (map (fun e => show (fst e) ++ sbytes " -> " ++ item (snd e)) (y :: l)) ++ x7d :: r').
  { intros y l2 r r' Ty Qy E.
    assert (E2 : exists s, x7d :: r = show (fst y) ++ sbytes " -> " ++ s).
    { destruct l2 as [|z l2]; cbn [map] in E; [cbn [join] in E|rewrite join_cons in E]; rewrite <- !app_assoc in E; eauto. }
    destruct E2 as [s E2]. destruct (show (fst y)) as [|b t] eqn:B; [discriminate E2|]. injection E2 as <- _. now apply (show_head k (fst y) t) in B. }
  assert (SC : forall s, stop (x7d :: s)) by (intros; now left). assert (SS : forall s, stop (sbytes ", " ++ s)) by (intros; now right).
  assert (SA : forall s, stop (sbytes " -> " ++ s)) by (intros; now right).
  induction l as [|[a x] l IH]; intros TK UK QK T U Q [|[b y] l'] r r' TK' QK' T' Q' E.
  - cbn in E. injection E as ->. auto.
  - exfalso. inversion TK'; inversion QK'; subst. eapply Z; [| |exact E]; assumption.
  - exfalso. inversion TK; inversion QK; subst. eapply Z; [| |symmetry; exact E]; assumption.
  - cbn [map fst snd] in *. inversion TK as [|? ? Tka Tkl]; inversion UK as [|? ? Uka Ukl]; inversion QK as [|? ? Qka Qkl]; subst.
    inversion T as [|? ? Tx Tl]; inversion U as [|? ? Ux Ul]; inversion Q as [|? ? Qx Ql]; subst.
    inversion TK' as [|? ? Tka' Tkl']; inversion QK' as [|? ? Qka' Qkl']; inversion T' as [|? ? Tx' Tl']; inversion Q' as [|? ? Qx' Ql']; subst.
    destruct l as [|e2 l], l' as [|e2' l']; [cbn [map join] in E|cbn [map] in E; rewrite join_cons in E; cbn [join] in E..|cbn [map] in E; rewrite !join_cons in E];
      cbn [fst snd] in E; rewrite <- !app_assoc in E; (destruct (Uka Qka b _ _ Tka' Qka' (SA _) (SA _) E) as [-> E']); apply app_inv_head in E'; clear E.
    + destruct (item_unambiguous f x Tx Ux Qx y _ _ Tx' Qx' (SC _) (SC _) E') as [-> E]. injection E as ->. auto.
    + destruct (item_unambiguous f x Tx Ux Qx y _ _ Tx' Qx' (SC _) (SS _) E') as [_ E]. discriminate E.
    + destruct (item_unambiguous f x Tx Ux Qx y _ _ Tx' Qx' (SS _) (SC _) E') as [_ E]. discriminate E.
    + destruct (item_unambiguous f x Tx Ux Qx y _ _ Tx' Qx' (SS _) (SS _) E') as [-> E]. apply app_inv_head in E.
      destruct (IH Tkl Ukl Qkl Tl Ul Ql (e2' :: l') r r' Tkl' Qkl' Tl' Ql' E) as [-> ->]. auto.
Qed.

(** A value shown without parentheses. *)
Lemma atom_split id v v' r r' : HT id v -> HT id v' -> quote_free v -> quote_free v' -> needs_parenthesis v = false ->
  stop r -> stop r' -> show v ++ r = show v' ++ r' -> show v = show v' /\ r = r'.
Proof.
  intros T T' Q Q' N S S' E. destruct (typed_fine id v T Q) as (_ & C & _). destruct (typed_fine id v' T' Q') as (_ & C' & _).
  unfold item in *. rewrite <- (same_parens id v v' T T') in C'. rewrite N in *. cbn [paren] in *. now apply closed_split.
Qed.
Lemma text_inj s s' : show (VStr s) = show (VStr s') -> VStr s = VStr s'.
Proof. cbn [show app]. intros E. injection E as E. apply app_inj_tail in E as [E _]. f_equal. now apply sbytes_inj. Qed.
Lemma bytes_inj b b' : show (VBytes b) = show (VBytes b') -> VBytes b = VBytes b'.
Proof. cbn [show]. intros E. apply app_inv_head in E. f_equal. now apply hex_inj, sbytes_inj. Qed.

Lemma typed_unambiguous id v : HT id v -> unambiguous id v.
Proof.
  intros T0. assert (B : HT id v /\ unambiguous id v); [|apply B]. revert id v T0.
  apply (has_type_ind' (mkMode true false) c sys (fun id v => HT id v /\ unambiguous id v)).
  - intros id F. assert (T0 : HT id VUnit) by (now apply HT_unit). split; [exact T0|]. intros Q v' r r' T' Q' S S' E.
    destruct (atom_split id _ v' r r' T0 T' Q Q' eq_refl S S' E) as [E1 ->]. split; [|reflexivity].
    inversion T'; subst; try congruence.
    + exfalso. match goal with A : sys_find _ id = Some (TPrim ?p), U : uint_width ?p = _ |- _ => assert (p = P_UNIT) by congruence; subst p; discriminate U end.
    + exfalso. match goal with A : sys_find _ id = Some (TPrim ?p), U : int_width ?p = _ |- _ => assert (p = P_UNIT) by congruence; subst p; discriminate U end.
  - intros id p w n F U L. assert (T0 : HT id (VNum (Uint n))) by (eapply HT_uint; eauto). split; [exact T0|]. intros Q v' r r' T' Q' S S' E.
    destruct (atom_split id _ v' r r' T0 T' Q Q' eq_refl S S' E) as [E1 ->]. split; [|reflexivity].
    inversion T'; subst; try congruence.
    + exfalso. match goal with A : sys_find _ id = Some (TPrim P_UNIT) |- _ => assert (p = P_UNIT) by congruence; subst p; discriminate U end.
    + do 2 f_equal. now apply show_N_inj.
    + exfalso. match goal with A : sys_find _ id = Some (TPrim ?q), X : int_width ?q = _ |- _ => assert (p = q) by congruence; subst q; exact (widths_differ _ _ _ U X) end.
  - intros id p w z F U L. assert (T0 : HT id (VNum (Int z))) by (eapply HT_int; eauto). split; [exact T0|]. intros Q v' r r' T' Q' S S' E.
    destruct (atom_split id _ v' r r' T0 T' Q Q' eq_refl S S' E) as [E1 ->]. split; [|reflexivity].
    inversion T'; subst; try congruence.
    + exfalso. match goal with A : sys_find _ id = Some (TPrim P_UNIT) |- _ => assert (p = P_UNIT) by congruence; subst p; discriminate U end.
    + exfalso. match goal with A : sys_find _ id = Some (TPrim ?q), X : uint_width ?q = _ |- _ => assert (p = q) by congruence; subst q; exact (widths_differ _ _ _ X U) end.
    + do 2 f_equal. now apply show_Z_inj.
  - intros id vs v F I. assert (T0 : HT id (VEnum (Name (v_name v)))) by (eapply HT_enum; eauto). split; [exact T0|]. intros Q v' r r' T' Q' S S' E.
    destruct (atom_split id _ v' r r' T0 T' Q Q' eq_refl S S' E) as [E1 ->]. split; [|reflexivity].
    inversion T'; subst; try congruence. do 2 f_equal. now apply sbytes_inj.
  - intros id vs v r w F I T [_ IH]. assert (T0 : HT id (VUnion (Name (v_name v)) w)) by (eapply HT_union; eauto). split; [exact T0|].
    intros Q v' r1 r1' T' Q' S S' E. destruct (atom_split id _ v' r1 r1' T0 T' Q Q' eq_refl S S' E) as [E1 ->]. split; [|reflexivity].
    inversion T' as [| | | |? vs' v2 r2 w2 F' I' Tw'| | | | | | | | | | |]; subst; try congruence.
    assert (vs' = vs) by congruence. subst vs'.
    assert (ID : forall x, In x vs -> identifier (v_name (fst x))). { pose proof (V _ _ F) as N. cbn in N. now rewrite Forall_forall in N. }
    assert (ND : ~ In x2e (sbytes (v_name v))) by exact (identifier_no_dot _ (ID _ I)).
    assert (ND' : ~ In x2e (sbytes (v_name v2))) by exact (identifier_no_dot _ (ID _ I')).
    destruct (show_union (Name (v_name v)) w) as [(A & -> & [B|B])|A], (show_union (Name (v_name v2)) w2) as [(A' & -> & [B'|B'])|A']; try discriminate B; try discriminate B';
      rewrite A, A' in E1.
    + congruence.
    + exfalso. assert (X : In x2e (sbytes "~")) by (rewrite E1; apply in_or_app; right; now left). destruct X as [X|[]]. discriminate X.
    + exfalso. assert (X : In x2e (sbytes "~")) by (rewrite <- E1; apply in_or_app; right; now left). destruct X as [X|[]]. discriminate X.
    + apply (last_dot _ _ _ _ ND ND') in E1 as [E1 EN]. apply sbytes_inj in EN.
      assert (EV : (v, r) = (v2, r2)).
      { destruct (wf_types _ W _ _ F) as [NDN _]. pose proof (uv_by_name_In vs (v, r) NDN I) as X1. pose proof (uv_by_name_In vs (v2, r2) NDN I') as X2.
        cbn in X1, X2. rewrite EN in X1. congruence. }
      injection EV as <- <-. f_equal. refine (proj1 (item_unambiguous r w T IH Q w2 [] [] Tw' Q' Logic.I Logic.I _)). now rewrite !app_nil_r.
  - intros id fs l F NR T IH.
    assert (T0 : HT id (VTuple l)) by (eapply HT_tuple; eauto). split; [exact T0|]. intros Q v' r r' T' Q' S S' E.
    inversion T' as [| | | | |? fs' l' F' NR' F2'|? ? a1 a2 mn mx s F' R'| | | | | | | | |]; subst; try congruence.
    + assert (fs' = fs) by congruence. subst fs'. apply quote_free_list in Q, Q'.
      destruct (tuple_unambiguous fs l T) with (l' := l') (r := r) (r' := r') as [-> ->]; auto.
      clear -IH. induction IH as [|? ? ? ? []]; constructor; auto.
    + exfalso. apply (NR a1 a2 mn mx). congruence.
  - intros id fs a1 a2 mn mx s F RS A L IA. assert (T0 : HT id (VStr s)) by (eapply HT_rstring; eauto). split; [exact T0|]. intros Q v' r r' T' Q' S S' E.
    destruct (atom_split id _ v' r r' T0 T' Q Q' eq_refl S S' E) as [E1 ->]. split; [|reflexivity].
    inversion T' as [| | | | |? fs' l' F' NR' F2'| | | | | | | | | |]; subst; try congruence; [exfalso; apply (NR' a1 a2 mn mx); congruence|now apply text_inj].
  - intros id fs l F N T IH. assert (T0 : HT id (VStruct l)) by (eapply HT_struct; eauto). split; [exact T0|]. intros Q v' r r' T' Q' S S' E.
    inversion T' as [| | | | | | |? fs' l' F' N' F2'| | | | | | | |]; subst; try congruence.
    assert (fs' = fs) by congruence. subst fs'. cbn in Q, Q'. apply quote_free_fields in Q, Q'.
    destruct (struct_unambiguous (map snd fs) l T) with (l' := l') (r := r) (r' := r') as [-> ->]; auto; [|congruence].
    clear -IH. remember (map snd l) as xs. remember (map snd fs) as ys. clear Heqxs Heqys. induction IH as [|? ? ? ? []]; constructor; auto.
  - intros id r len b F BI L C. assert (T0 : HT id (VBytes b)) by (eapply HT_byte_array; eauto). split; [exact T0|]. intros Q v' r1 r1' T' Q' S S' E.
    destruct (atom_split id _ v' r1 r1' T0 T' Q Q' eq_refl S S' E) as [E1 ->]. split; [|reflexivity].
    inversion T'; subst; try congruence; try discriminate; now apply bytes_inj.
  - intros id r len l A. discriminate A.
  - intros id r rt a mn mx s F FR CT A L IA. assert (T0 : HT id (VStr s)) by (eapply HT_chars; eauto). split; [exact T0|]. intros Q v' r1 r1' T' Q' S S' E.
    destruct (atom_split id _ v' r1 r1' T0 T' Q Q' eq_refl S S' E) as [E1 ->]. split; [|reflexivity].
    inversion T'; subst; try congruence; now apply text_inj.
  - intros id r rt mn mx b F FR CT BI M L. assert (T0 : HT id (VBytes b)) by (eapply HT_bytes; eauto). split; [exact T0|]. intros Q v' r1 r1' T' Q' S S' E.
    destruct (atom_split id _ v' r1 r1' T0 T' Q Q' eq_refl S S' E) as [E1 ->]. split; [|reflexivity].
    inversion T'; subst; try congruence; try discriminate E1; now apply bytes_inj.
  - intros id r rt mn mx s F FR CT NBI UI M U L. assert (T0 : HT id (VStr s)) by (eapply HT_text; eauto). split; [exact T0|]. intros Q v' r1 r1' T' Q' S S' E.
    destruct (atom_split id _ v' r1 r1' T0 T' Q Q' eq_refl S S' E) as [E1 ->]. split; [|reflexivity].
    inversion T'; subst; try congruence; try discriminate E1; now apply text_inj.
  - intros id r rt mn mx l F FR CT ML L T IH. assert (T0 : HT id (VList l)) by (eapply HT_list; eauto). split; [exact T0|]. intros Q v' r1 r1' T' Q' S S' E.
    destruct (atom_split id _ v' r1 r1' T0 T' Q Q' eq_refl S S' E) as [E1 ->]. split; [|reflexivity].
    inversion T' as [| | | | | | | | | | | | |? r' rt' mn' mx' l' F' FR' CT' ML' L' Tl'| |]; subst; try congruence; try discriminate E1; try discriminate.
    assert (r' = r) by congruence. subst r'. apply quote_free_list in Q, Q'. f_equal.
    cbn [show] in E1. apply app_inv_head in E1. refine (proj1 (list_unambiguous r x5d l eq_refl T _ Q l' [] [] Tl' Q' E1)).
    clear -IH. induction IH as [|? ? []]; constructor; auto.
  - intros id r mn mx l F L T IH ND. assert (T0 : HT id (VSet l)) by (eapply HT_set; eauto). split; [exact T0|]. intros Q v' r1 r1' T' Q' S S' E.
    destruct (atom_split id _ v' r1 r1' T0 T' Q Q' eq_refl S S' E) as [E1 ->]. split; [|reflexivity].
    inversion T' as [| | | | | | | | | | | | | |? r' mn' mx' l' F' L' Tl'|]; subst; try congruence.
    assert (r' = r) by congruence. subst r'. apply quote_free_list in Q, Q'. f_equal.
    cbn [show] in E1. apply app_inv_head in E1. refine (proj1 (list_unambiguous r x7d l eq_refl T _ Q l' [] [] Tl' Q' E1)).
    clear -IH. induction IH as [|? ? []]; constructor; auto.
  - intros id k r mn mx l F L T1 IH1 T2 IH2 ND. assert (T0 : HT id (VMap l)) by (eapply HT_map; eauto). split; [exact T0|]. intros Q v' r1 r1' T' Q' S S' E.
    destruct (atom_split id _ v' r1 r1' T0 T' Q Q' eq_refl S S' E) as [E1 ->]. split; [|reflexivity].
    inversion T' as [| | | | | | | | | | | | | | |? k' r' mn' mx' l' F' L' Tk' Tl']; subst; try congruence.
    assert (r' = r) by congruence. assert (k' = k) by congruence. subst r' k'. cbn in Q, Q'. apply quote_free_map in Q as [Q1 Q2], Q' as [Q1' Q2']. f_equal.
    cbn [show] in E1. apply app_inv_head in E1. refine (proj1 (map_unambiguous k r l T1 _ Q1 T2 _ Q2 l' [] [] Tk' Q1' Tl' Q2' E1)).
    + clear -IH1. remember (map fst l) as xs. clear Heqxs. induction IH1 as [|? ? []]; constructor; auto.
    + clear -IH2. remember (map snd l) as xs. clear Heqxs. induction IH2 as [|? ? []]; constructor; auto.
Qed.
End Typed.
