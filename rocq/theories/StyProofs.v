(** Proofs about the source text of types: it is read unambiguously. *)
From Coq Require Import NArith Arith List Bool String Ascii Strings.Byte Lia.
From Verif Require Import Base Ty Ids TypeSys LibCodec Ston Sty SpecSty.
From Verif Require StonProofs.
Import ListNotations.
Local Open Scope N_scope.
Local Open Scope list_scope.

(** ** Scanning text to the end of an item *)
Definition opening (b : byte) : bool := existsb (Byte.eqb b) [x28; x5b; x7b].
Definition closing (b : byte) : bool := existsb (Byte.eqb b) [x29; x5d; x7d].
Definition separating (b : byte) : bool := existsb (Byte.eqb b) [x2c; x20; x0a].
Definition step (d : nat) (b : byte) : option nat :=
  if opening b then Some (S d)
  else if closing b then match d with O => None | S d => Some d end
  else if separating b then match d with O => None | S _ => Some d end
  else Some d.
Fixpoint run (d : nat) (s : bytes) : option nat :=
  match s with
  | [] => Some d
  | b :: s => match step d b with Some d => run d s | None => None end
  end.
Lemma run_app d a b : run d (a ++ b) = match run d a with Some d => run d b | None => None end.
Proof. revert d. induction a as [|x a IH]; intros d; [reflexivity|]. cbn. destruct (step d x); auto. Qed.

Definition closed (s : bytes) := forall k, run k s = Some k.
Definition inner (s : bytes) := forall k, run (S k) s = Some (S k).
Lemma closed_inner s : closed s -> inner s.
Proof. intros C k. apply C. Qed.
Lemma closed_app a b : closed a -> closed b -> closed (a ++ b).
Proof. intros A B k. now rewrite run_app, A, B. Qed.
Lemma inner_app a b : inner a -> inner b -> inner (a ++ b).
Proof. intros A B k. now rewrite run_app, A, B. Qed.
Lemma bracket_closed o c s : opening o = true -> closing c = true -> opening c = false ->
  inner s -> closed ([o] ++ s ++ [c]).
Proof. intros O C OC I k. cbn [app run]. unfold step at 1. rewrite O, run_app, (I k). cbn [run]. unfold step. now rewrite OC, C. Qed.
Lemma join_inner sep l : inner sep -> Forall inner l -> inner (join sep l).
Proof.
  intros S. induction 1 as [|x l I F IH]; [intros k; reflexivity|]. destruct l as [|y l]; [exact I|].
  cbn [join]. fold (join sep). apply inner_app; [exact I|]. apply inner_app; [exact S|exact IH].
Qed.
Definition harmless (b : byte) : bool := negb (opening b || closing b || separating b).
Lemma harmless_closed s : forallb harmless s = true -> closed s.
Proof.
  induction s as [|b s IH]; [intros _ k; reflexivity|]. cbn [forallb]. intros H k. apply andb_true_iff in H as [H1 H2].
  unfold harmless in H1. apply negb_true_iff in H1. rewrite !orb_false_iff in H1. destruct H1 as [[A B] C].
  cbn [run]. unfold step. rewrite A, B, C. now apply IH.
Qed.
Definition stop (r : bytes) : Prop := match r with [] => True | b :: _ => closing b = true \/ separating b = true end.
Lemma stop_step b : closing b = true \/ separating b = true -> step O b = None.
Proof. destruct b; intros [H|H]; try discriminate H; reflexivity. Qed.
Lemma closed_split s s' r r' : closed s -> closed s' -> stop r -> stop r' -> s ++ r = s' ++ r' -> s = s' /\ r = r'.
Proof.
  assert (X : forall s m r, closed s -> closed (s ++ m) -> stop (m ++ r) -> m = []).
  { intros a m x A AM ST. destruct m as [|b m]; [reflexivity|]. exfalso. specialize (AM O). rewrite run_app, (A O) in AM. cbn [run] in AM.
    rewrite stop_step in AM by exact ST. discriminate AM. }
  intros A B SA SB E. apply app_eq_app in E as (m & [[-> ->]|[-> ->]]).
  - pose proof (X s' m r B A SB) as ->. now rewrite app_nil_r.
  - pose proof (X s m r' A B SA) as ->. now rewrite app_nil_r.
Qed.

(** ** Words *)
Lemma word_byte_harmless b : word_byte b = true -> harmless b = true.
Proof. destruct b; (reflexivity || discriminate). Qed.
Lemma words_harmless s : forallb word_byte s = true -> forallb harmless s = true.
Proof. rewrite !forallb_forall. intros H x I. now apply word_byte_harmless, H. Qed.
Lemma word_closed s : word s -> closed s.
Proof. intros [_ H]. now apply harmless_closed, words_harmless. Qed.
Lemma word_byte_label b : word_byte b = true -> label_byte b = true.
Proof. unfold label_byte. now intros ->. Qed.
Lemma word_label s : word s -> label s.
Proof.
  intros [N F]. split; [exact N|split].
  - rewrite forallb_forall in *. intros b I. now apply word_byte_label, F.
  - destruct s as [|b s]; [now destruct N|]. cbn in *. intros ->. discriminate F.
Qed.
Lemma label_byte_harmless b : label_byte b = true -> harmless b = true.
Proof. destruct b; (reflexivity || discriminate). Qed.
Lemma label_closed s : label s -> closed s.
Proof. intros (_ & H & _). apply harmless_closed. rewrite forallb_forall in *. intros b I. now apply label_byte_harmless, H. Qed.
Lemma digits_word d : forallb word_byte (sbytes (DecimalString.NilEmpty.string_of_uint d)) = true.
Proof. induction d; cbn; auto. Qed.
Lemma show_N_word n : word (show_N n).
Proof. split; [apply StonProofs.show_N_nonempty|apply digits_word]. Qed.

(** The first byte of an item: a letter, a bracket, or the unit. *)
Definition lead (s : bytes) : Prop :=
  match s with
  | [] => False
  | b :: s => (label_byte b = true /\ b <> x2d) \/ b = x5b \/ b = x7b \/ (b = x28 /\ exists r, s = x29 :: r)
  end.
Lemma lead_app s r : lead s -> lead (s ++ r).
Proof. destruct s as [|b s]; [intros []|]. cbn. intros [H|[H|[H|[H (q & ->)]]]]; auto. right. right. right. split; [exact H|]. now exists (q ++ r). Qed.
Lemma label_lead s : label s -> lead s.
Proof. intros (N & F & H). destruct s as [|b s]; [now destruct N|]. cbn [forallb hd lead] in *. apply andb_true_iff in F as [F _]. now left. Qed.
Lemma word_lead s : word s -> lead s.
Proof. intros W. now apply label_lead, word_label. Qed.
(** Bytes with which no item begins. *)
Definition odd (b : byte) : bool := existsb (Byte.eqb b) [x5e; x2d; x7c; x20; x0a; x2c; x29; x5d; x7d].
Lemma lead_odd b s : odd b = true -> lead (b :: s) -> False.
Proof. intros O [[H N]|[->|[->|[-> _]]]]; try discriminate O. destruct b; (discriminate O || discriminate H || now destruct N). Qed.
Lemma paren_lead s r : lead s -> lead (x28 :: s ++ r) -> False.
Proof. intros L [[H _]|[H|[H|[_ (q & E)]]]]; try discriminate H. destruct s as [|b s]; [exact L|]. cbn in E. injection E as -> _. exact (lead_odd x29 s eq_refl L). Qed.

Section Text.
Variables (prim_text : N -> bytes) (sizing_text : sizing -> bytes).
Hypothesis PL : prims_legible prim_text.
Hypothesis SL : sizings_legible sizing_text.
Local Notation text := (sty_ref prim_text sizing_text).
Local Notation text_ty := (sty_ty prim_text sizing_text (sty_ref prim_text sizing_text) tref_compound).
Local Notation item := (clear_item prim_text).
Local Notation content := (clear_content prim_text).
Local Notation cleart := (clear_type prim_text).
Local Notation variantc := (clear_variant prim_text).

(** ** Size, for induction *)
Fixpoint tsize (r : tref) : nat :=
  match r with
  | TrEmbedded t => S match t with
      | TPrim _ | TUnicode | TEnum _ => O
      | TUnion vs => list_sum (map (fun v => tsize (snd v)) vs)
      | TTuple fs => list_sum (map tsize fs)
      | TStruct fs => list_sum (map (fun v => tsize (snd v)) fs)
      | TArray r _ | TList r _ | TSet r _ => tsize r
      | TMap k r _ => (tsize k + tsize r)%nat
      end
  | _ => O
  end.
Lemma list_sum_in n l : In n l -> (n <= list_sum l)%nat.
Proof. induction l as [|m l IH]; [intros []|]. intros [->|I]; cbn; [lia|]. specialize (IH I). unfold list_sum in IH. lia. Qed.
Lemma tsize_tuple fs r : In r fs -> (tsize r < tsize (TrEmbedded (TTuple fs)))%nat.
Proof. intros I. cbn. apply (in_map tsize), list_sum_in in I. lia. Qed.
Lemma tsize_struct fs n r : In (n, r) fs -> (tsize r < tsize (TrEmbedded (TStruct fs)))%nat.
Proof. intros I. cbn. apply (in_map (fun v => tsize (snd v))), list_sum_in in I. cbn in I. lia. Qed.
Lemma tsize_union vs v r : In (v, r) vs -> (tsize r < tsize (TrEmbedded (TUnion vs)))%nat.
Proof. intros I. cbn. apply (in_map (fun v => tsize (snd v))), list_sum_in in I. cbn in I. lia. Qed.

(** ** Sizes of collections *)
Lemma sizing_inner s : inner (sizing_text s).
Proof.
  destruct SL as (F & _ & _). destruct (F s) as [->|(w & -> & H)]; [intros k; reflexivity|].
  apply inner_app; [intros k; reflexivity|]. apply closed_inner, harmless_closed. apply forallb_forall. intros b I. specialize (H b I).
  clear -H. destruct b; try reflexivity; exfalso; apply H; cbn; tauto.
Qed.
(** What can follow an item of a collection. *)
Definition stop_prod (x : bytes) : Prop :=
  match x with
  | [] => True
  | b :: x => closing b = true \/ (b = x0a /\ forall y, x <> x20 :: y) \/ (b = x20 /\ exists y, x = x5e :: y)
  end.
Lemma stop_prod_stop x : stop_prod x -> stop x.
Proof. destruct x; [trivial|]. cbn. intros [H|[[-> _]|[-> _]]]; auto. Qed.
Lemma sizing_stop s c x : closing c = true -> stop_prod (sizing_text s ++ c :: x).
Proof.
  intros C. destruct SL as (F & _ & _). destruct (F s) as [->|(w & -> & H)]; [left; exact C|]. right. right. split; [reflexivity|].
  eexists. reflexivity.
Qed.
Lemma sizing_end s s' c x x' : closing c = true -> sizing_text s ++ c :: x = sizing_text s' ++ c :: x' -> s = s' /\ x = x'.
Proof.
  intros C E. destruct SL as (F & J & _).
  assert (X : forall s b, In b (sizing_text s) -> closing b = false).
  { clear -F. intros s b I. destruct (F s) as [E|(w & E & H)]; rewrite E in I; [destruct I|]. apply in_app_or in I as [I|I].
    - cbn in I. destruct I as [<-|[<-|[<-|[]]]]; reflexivity.
    - specialize (H b I). clear -H. destruct b; try reflexivity; exfalso; apply H; cbn; tauto. }
  apply app_eq_app in E as (m & [[E1 E2]|[E1 E2]]); destruct m as [|b m]; cbn in E2.
  - rewrite app_nil_r in E1. injection E2 as ->. split; [now apply J|reflexivity].
  - exfalso. injection E2 as <- _. specialize (X s c). rewrite E1 in X. rewrite X in C; [discriminate C|]. apply in_or_app. right. now left.
  - rewrite app_nil_r in E1. injection E2 as ->. split; [now apply J|reflexivity].
  - exfalso. injection E2 as <- _. specialize (X s' c). rewrite E1 in X. rewrite X in C; [discriminate C|]. apply in_or_app. right. now left.
Qed.
Lemma sizing_space s s' x x' : lead x -> lead x' -> sizing_text s ++ x20 :: x = sizing_text s' ++ x20 :: x' -> s = s' /\ x = x'.
Proof.
  intros L L' E. destruct SL as (F & J & _).
  assert (NS : forall w b, (forall b, In b w -> ~ In b (sbytes " ,()[]{}" ++ [x0a])) -> In b w -> b <> x20).
  { clear. intros w b H I ->. apply (H x20 I). now left. }
  destruct (F s) as [A|(w & A & H)], (F s') as [B|(w' & B & H')].
  - rewrite A, B in E. injection E as ->. split; [apply J; congruence|reflexivity].
  - exfalso. rewrite A, B in E. cbn in E. injection E as ->. exact (lead_odd x5e _ eq_refl L).
  - exfalso. rewrite A, B in E. cbn in E. injection E as <-. exact (lead_odd x5e _ eq_refl L').
  - assert (W : w = w' /\ x = x').
    { rewrite A, B, <- !app_assoc in E. apply app_inv_head in E. apply app_eq_app in E as (m & [[E1 E2]|[E1 E2]]); destruct m as [|b m]; cbn in E2.
      - rewrite app_nil_r in E1. now injection E2 as ->.
      - exfalso. injection E2 as <- _. apply (NS w x20 H); [|reflexivity]. rewrite E1. apply in_or_app. right. now left.
      - rewrite app_nil_r in E1. now injection E2 as ->.
      - exfalso. injection E2 as <- _. apply (NS w' x20 H'); [|reflexivity]. rewrite E1. apply in_or_app. right. now left. }
    destruct W as [-> ->]. split; [apply J; congruence|reflexivity].
Qed.

(** ** Items *)
Lemma option_text r : text (TrEmbedded (optional r)) = text r ++ sbytes "?" /\ (tsize r < tsize (TrEmbedded (optional r)))%nat.
Proof. split; [reflexivity|]. cbn. lia. Qed.
Lemma join_lead sep s l : lead s -> lead (join sep (s :: l)).
Proof. intros L. destruct l; [exact L|]. cbn [join]. now apply lead_app. Qed.
Lemma text_field f : sty_field text f = sbytes (fst f) ++ sbytes " " ++ text (snd f).
Proof. reflexivity. Qed.

Lemma facts n : (forall r, (tsize r < n)%nat -> item r -> closed (text r) /\ lead (text r))
  /\ (forall r, (tsize r < n)%nat -> content r -> inner (text r) /\ lead (text r)).
Proof.
  induction n as [|n [IHi IHc]]; [split; intros; lia|].
  assert (I : forall r, (tsize r < S n)%nat -> item r -> closed (text r) /\ lead (text r)).
  { intros r L H. destruct H as [s W U P|e W1 W2|c C| |r k H|r s H|r s H|k r s K H|r H|r H].
    - split; [now apply label_closed|now apply label_lead].
    - split; [|apply lead_app; now apply label_lead]. apply closed_app; [now apply label_closed|].
      apply closed_app; [intros k; reflexivity|now apply label_closed].
    - cbn [sty_ref sty_ty]. destruct (proj1 PL c C) as [->|[W _]]; [|split; [now apply word_closed|now apply word_lead]].
      split; [intros k; reflexivity|]. right. right. right. split; [reflexivity|]. now exists [].
    - split; [intros k; reflexivity|now apply word_lead].
    - destruct (IHc r) as [A B]; [cbn in L; lia|exact H|]. split; [|right; now left]. cbn [sty_ref sty_ty].
      replace (sbytes "[" ++ text r ++ sbytes " ^ " ++ show_N k ++ sbytes "]") with ([x5b] ++ (text r ++ sbytes " ^ " ++ show_N k) ++ [x5d]) by now rewrite <- !app_assoc.
      apply bracket_closed; try reflexivity. apply inner_app; [exact A|]. apply inner_app; [intros k'; reflexivity|apply closed_inner, word_closed, show_N_word].
    - destruct (IHc r) as [A B]; [cbn in L; lia|exact H|]. split; [|right; now left]. cbn [sty_ref sty_ty].
      replace (sbytes "[" ++ text r ++ sizing_text s ++ sbytes "]") with ([x5b] ++ (text r ++ sizing_text s) ++ [x5d]) by now rewrite <- !app_assoc.
      apply bracket_closed; try reflexivity. apply inner_app; [exact A|apply sizing_inner].
    - destruct (IHc r) as [A B]; [cbn in L; lia|exact H|]. split; [|right; right; now left]. cbn [sty_ref sty_ty].
      replace (sbytes "{" ++ text r ++ sizing_text s ++ sbytes "}") with ([x7b] ++ (text r ++ sizing_text s) ++ [x7d]) by now rewrite <- !app_assoc.
      apply bracket_closed; try reflexivity. apply inner_app; [exact A|apply sizing_inner].
    - destruct (IHi k) as [A0 B0]; [cbn in L; lia|exact K|]. destruct (IHc r) as [A B]; [cbn in L; lia|exact H|]. split; [|right; right; now left]. cbn [sty_ref sty_ty].
      replace (sbytes "{" ++ text k ++ sbytes " ->" ++ sizing_text s ++ sbytes " " ++ text r ++ sbytes "}")
        with ([x7b] ++ (text k ++ sbytes " ->" ++ sizing_text s ++ sbytes " " ++ text r) ++ [x7d]) by now rewrite <- !app_assoc.
      apply bracket_closed; try reflexivity. apply inner_app; [now apply closed_inner|].
      apply inner_app; [intros k'; reflexivity|]. apply inner_app; [apply sizing_inner|]. apply inner_app; [intros k'; reflexivity|exact A].
    - destruct (option_text r) as [-> D]. destruct (IHi r) as [A1 B1]; [lia|exact H|]. split; [|now apply lead_app].
      apply closed_app; [exact A1|intros k; reflexivity].
    - apply (IHi r); [cbn in L; lia|exact H]. }
  split; [exact I|]. intros r L H. destruct H as [r H|a b fs H|fs N H].
  - destruct (I r L H) as [A B]. split; [now apply closed_inner|exact B].
  - assert (F : Forall (fun r => closed (text r) /\ lead (text r)) (a :: b :: fs)).
    { rewrite Forall_forall in *. intros x X. apply IHi; [|now apply H]. pose proof (tsize_tuple _ _ X). lia. }
    cbn [sty_ref sty_ty]. split.
    + apply join_inner; [intros k; reflexivity|]. rewrite Forall_map. apply Forall_impl with (2 := F). intros x [X _]. now apply closed_inner.
    + cbn [map]. apply join_lead. inversion F; tauto.
  - assert (F : Forall (fun f => word (sbytes (fst f)) /\ closed (text (snd f))) fs).
    { rewrite Forall_forall in *. intros [m x] X. destruct (H _ X) as [W Y]. split; [exact W|]. apply IHi; [|exact Y].
      pose proof (tsize_struct _ _ _ X). cbn [snd] in *. lia. }
    cbn [sty_ref sty_ty]. split.
    + apply join_inner; [destruct (3 <=? lenN fs); intros k; reflexivity|]. rewrite Forall_map. apply Forall_impl with (2 := F). intros f [X Y].
      apply inner_app; [now apply closed_inner, word_closed|]. apply inner_app; [intros k; reflexivity|now apply closed_inner].
    + destruct fs as [|f fs]; [now destruct N|]. cbn [map]. apply join_lead. unfold sty_field. apply lead_app, word_lead. inversion F; tauto.
Qed.
Lemma item_closed r : item r -> closed (text r).
Proof. intros H. destruct (facts (S (tsize r))) as [F _]. now apply F; [lia|]. Qed.
Lemma item_lead r : item r -> lead (text r).
Proof. intros H. destruct (facts (S (tsize r))) as [F _]. now apply F; [lia|]. Qed.
Lemma content_lead r : content r -> lead (text r).
Proof. intros H. destruct (facts (S (tsize r))) as [_ F]. now apply F; [lia|]. Qed.

(** Without wrappers. *)
Fixpoint core (r : tref) : tref := match r with TrEmbedded (TTuple [r]) => core r | _ => r end.
Lemma core_facts r : item r -> text (core r) = text r /\ sketch (core r) = sketch r /\ item (core r) /\ (tsize (core r) <= tsize r)%nat
  /\ forall a, core r <> TrEmbedded (TTuple [a]).
Proof.
  assert (G : forall n r, (tsize r < n)%nat -> item r -> text (core r) = text r /\ sketch (core r) = sketch r /\ item (core r) /\ (tsize (core r) <= tsize r)%nat
    /\ forall a, core r <> TrEmbedded (TTuple [a])); [|apply (G (S (tsize r))); lia]. clear r.
  induction n as [|n IH]; [intros; lia|]. intros r L H. destruct H as [s W U P|e W1 W2|c C| |r k H|r s H|r s H|k r s K H|r H|r H].
  all: try (cbn [core]; split; [reflexivity|split; [reflexivity|split; [econstructor; eassumption|split; [lia|intros a E; discriminate E]]]]).
  - split; [reflexivity|split; [reflexivity|split; [now apply item_option|split; [cbn; lia|intros a E; discriminate E]]]].
  - cbn [core]. destruct (IH r) as (A & B & C & D & E); [cbn in L; lia|exact H|]. split; [|split; [|split; [exact C|split; [cbn; lia|exact E]]]].
    + rewrite A. cbn. reflexivity.
    + rewrite B. reflexivity.
Qed.

(** ** Items can be read *)
Definition is_dot (b : byte) : bool := Byte.eqb b x2e.
Definition kind (s : bytes) : N :=
  if Byte.eqb (last s x00) x3f then 1
  else if Byte.eqb (hd x00 s) x5b then 2
  else if Byte.eqb (hd x00 s) x7b then 3
  else if Byte.eqb (hd x00 s) x28 then 4
  else if existsb is_dot s then 5 else 6.
Lemma label_byte_head b : label_byte b = true -> Byte.eqb b x5b = false /\ Byte.eqb b x7b = false /\ Byte.eqb b x28 = false.
Proof. destruct b; intros H; try discriminate H; repeat split; reflexivity. Qed.
Lemma last_forall (P : byte -> bool) s : s <> [] -> forallb P s = true -> P (last s x00) = true.
Proof.
  induction s as [|b s IH]; intros N F; [now destruct N|]. cbn in F. apply andb_true_iff in F as [F1 F2].
  destruct s as [|c s]; [exact F1|]. apply IH; [discriminate|exact F2].
Qed.
Lemma last_app (a b : bytes) d : b <> [] -> last (a ++ b) d = last b d.
Proof.
  intros N. induction a as [|x a IH]; [reflexivity|]. cbn [app]. rewrite <- IH. destruct (a ++ b) eqn:E; [|reflexivity].
  apply app_eq_nil in E. now destruct N.
Qed.
Lemma no_dot s : forallb label_byte s = true -> existsb is_dot s = false.
Proof. induction s as [|b s IH]; [reflexivity|]. cbn. intros H. apply andb_true_iff in H as [A B]. rewrite (IH B), orb_false_r. destruct b; (reflexivity || discriminate A). Qed.
Lemma label_kind s : label s -> kind s = 6.
Proof.
  intros (N & F & _). unfold kind. pose proof (last_forall _ _ N F) as L. destruct (Byte.eqb (last s x00) x3f) eqn:E.
  { apply Byte.byte_dec_bl in E. rewrite E in L. discriminate L. }
  destruct s as [|b s]; [now destruct N|]. rewrite (no_dot _ F). cbn in F. apply andb_true_iff in F as [F _].
  cbn [hd]. now destruct (label_byte_head b F) as (-> & -> & ->).
Qed.
Lemma word_kind s : word s -> kind s = 6.
Proof. intros W. now apply label_kind, word_label. Qed.
Lemma dot_kind a b : label a -> label b -> kind (a ++ sbytes "." ++ b) = 5.
Proof.
  intros (N & F & _) (M & G & _). unfold kind. rewrite app_assoc, last_app by exact M. pose proof (last_forall _ _ M G) as L. destruct (Byte.eqb (last b x00) x3f) eqn:E.
  { apply Byte.byte_dec_bl in E. rewrite E in L. discriminate L. }
  rewrite <- app_assoc, existsb_app. change (existsb is_dot (sbytes "." ++ b)) with (true || existsb is_dot b). rewrite orb_true_r.
  destruct a as [|x a]; [now destruct N|]. cbn in F. apply andb_true_iff in F as [F _].
  cbn [app hd]. now destruct (label_byte_head x F) as (-> & -> & ->).
Qed.
Lemma last_dot_words a b t u : label t -> label u -> a ++ sbytes "." ++ t = b ++ sbytes "." ++ u -> a = b /\ t = u.
Proof.
  assert (X : forall s, label s -> ~ In x2e s).
  { intros s (_ & F & _) I. rewrite forallb_forall in F. specialize (F _ I). discriminate F. }
  intros T U. apply StonProofs.last_dot; now apply X.
Qed.
Definition code (r : tref) : N :=
  match r with
  | TrNamed _ => 6
  | TrExtern _ => 5
  | TrEmbedded (TPrim c) => kind (prim_text c)
  | TrEmbedded TUnicode => 6
  | TrEmbedded (TArray _ _) | TrEmbedded (TList _ _) => 2
  | TrEmbedded (TSet _ _) | TrEmbedded (TMap _ _ _) => 3
  | _ => 1
  end.
Lemma item_code r : item r -> (forall a, r <> TrEmbedded (TTuple [a])) -> kind (text r) = code r.
Proof.
  assert (BK : forall o c s, Byte.eqb c x3f = false -> kind ([o] ++ s ++ [c]) =
    if Byte.eqb o x5b then 2 else if Byte.eqb o x7b then 3 else if Byte.eqb o x28 then 4 else if existsb is_dot ([o] ++ s ++ [c]) then 5 else 6).
  { intros o c s C. unfold kind. rewrite app_assoc, last_app by discriminate. cbn [last]. rewrite C, <- app_assoc. reflexivity. }
  intros H NW. destruct H as [s W U P|e W1 W2|c C| |r k H|r s H|r s H|k r s K H|r H|r H].
  - now apply label_kind.
  - now apply dot_kind.
  - reflexivity.
  - reflexivity.
  - cbn [sty_ref sty_ty]. replace (sbytes "[" ++ text r ++ sbytes " ^ " ++ show_N k ++ sbytes "]") with ([x5b] ++ (text r ++ sbytes " ^ " ++ show_N k) ++ [x5d]) by now rewrite <- !app_assoc.
    rewrite BK; reflexivity.
  - cbn [sty_ref sty_ty]. replace (sbytes "[" ++ text r ++ sizing_text s ++ sbytes "]") with ([x5b] ++ (text r ++ sizing_text s) ++ [x5d]) by now rewrite <- !app_assoc.
    rewrite BK; reflexivity.
  - cbn [sty_ref sty_ty]. replace (sbytes "{" ++ text r ++ sizing_text s ++ sbytes "}") with ([x7b] ++ (text r ++ sizing_text s) ++ [x7d]) by now rewrite <- !app_assoc.
    rewrite BK; reflexivity.
  - cbn [sty_ref sty_ty].
    replace (sbytes "{" ++ text k ++ sbytes " ->" ++ sizing_text s ++ sbytes " " ++ text r ++ sbytes "}")
      with ([x7b] ++ (text k ++ sbytes " ->" ++ sizing_text s ++ sbytes " " ++ text r) ++ [x7d]) by now rewrite <- !app_assoc.
    rewrite BK; reflexivity.
  - destruct (option_text r) as [-> _]. unfold kind. rewrite last_app by discriminate. reflexivity.
  - now destruct (NW r).
Qed.

Definition UI (r : tref) : Prop := forall r' x x', item r -> item r' -> stop x -> stop x' -> text r ++ x = text r' ++ x' ->
  sketch r = sketch r' /\ x = x'.
Definition UC (r : tref) : Prop := forall r' x x', content r -> content r' -> stop_prod x -> stop_prod x' -> text r ++ x = text r' ++ x' ->
  sketch r = sketch r' /\ x = x'.

(** Tuples, with single items. *)
Definition tuple_of (l : list tref) : tref := match l with [x] => x | _ => TrEmbedded (TTuple l) end.
Lemma items_unique l : Forall UI l -> Forall item l -> l <> [] -> forall l' x x', Forall item l' -> l' <> [] -> stop_prod x -> stop_prod x' ->
  join (sbytes ", ") (map text l) ++ x = join (sbytes ", ") (map text l') ++ x' -> map sketch l = map sketch l' /\ x = x'.
Proof.
  induction l as [|a l IH]; intros U F N l' x x' F' N' S S' E; [now destruct N|]. destruct l' as [|a' l']; [now destruct N'|].
  inversion U as [|? ? Ua Ul]; subst. inversion F as [|? ? Fa Fl]; subst. inversion F' as [|? ? Fa' Fl']; subst.
  destruct l as [|b l], l' as [|b' l']; cbn [map join] in E; fold (join (sbytes ", ")) in E.
  - destruct (Ua a' x x' Fa Fa') as [A B]; try (now apply stop_prod_stop); [exact E|]. cbn. now rewrite A.
  - exfalso. rewrite <- !app_assoc in E. destruct (Ua a' x (sbytes ", " ++ join (sbytes ", ") (map text (b' :: l')) ++ x') Fa Fa') as [A B]; [now apply stop_prod_stop|right; reflexivity|exact E|].
    rewrite B in S. cbn in S. destruct S as [S|[[S _]|[S _]]]; discriminate S.
  - exfalso. rewrite <- !app_assoc in E. destruct (Ua a' (sbytes ", " ++ join (sbytes ", ") (map text (b :: l)) ++ x) x' Fa Fa') as [A B]; [right; reflexivity|now apply stop_prod_stop|exact E|].
    rewrite <- B in S'. cbn in S'. destruct S' as [S'|[[S' _]|[S' _]]]; discriminate S'.
  - rewrite <- !app_assoc in E.
    destruct (Ua a' (sbytes ", " ++ join (sbytes ", ") (map text (b :: l)) ++ x) (sbytes ", " ++ join (sbytes ", ") (map text (b' :: l')) ++ x') Fa Fa') as [A B]; [right; reflexivity|right; reflexivity|exact E|].
    apply app_inv_head in B. destruct (IH Ul Fl) with (l' := b' :: l') (x := x) (x' := x') as [C D]; try assumption; try discriminate.
    split; [|exact D]. cbn [map] in *. now rewrite A, C.
Qed.
Lemma fields_unique sep sep' fs : (sep = sbytes ", " \/ sep = break_field) -> (sep' = sbytes ", " \/ sep' = break_field) ->
  Forall (fun f => UI (snd f)) fs -> Forall (fun f => word (sbytes (fst f)) /\ item (snd f)) fs -> fs <> [] ->
  forall fs' x x', Forall (fun f => word (sbytes (fst f)) /\ item (snd f)) fs' -> fs' <> [] -> stop_prod x -> stop_prod x' ->
  join sep (map (sty_field text) fs) ++ x = join sep' (map (sty_field text) fs') ++ x' ->
  map (fun f => (fst f, sketch (snd f))) fs = map (fun f => (fst f, sketch (snd f))) fs' /\ x = x'.
Proof.
  intros SP SP'. induction fs as [|[n a] fs IH]; intros U F N fs' x x' F' N' S S' E; [now destruct N|]. destruct fs' as [|[n' a'] fs']; [now destruct N'|].
  inversion U as [|? ? Ua Ul]; subst. inversion F as [|? ? [Wn Fa] Fl]; subst. inversion F' as [|? ? [Wn' Fa'] Fl']; subst. cbn [fst snd] in *.
  assert (X : forall y y', stop y -> stop y' -> sty_field text (n, a) ++ y = sty_field text (n', a') ++ y' -> n = n' /\ sketch a = sketch a' /\ y = y').
  { intros y y' Y Y' E'. unfold sty_field in E'. cbn [fst snd] in E'. rewrite <- !app_assoc in E'.
    apply closed_split in E' as [E1 E2]; [|now apply word_closed|now apply word_closed|right; reflexivity|right; reflexivity].
    apply app_inv_head in E2. apply sbytes_inj in E1. destruct (Ua a' y y' Fa Fa' Y Y' E2). auto. }
  assert (SS : forall s y, (s = sbytes ", " \/ s = break_field) -> stop (s ++ y)) by (intros s y [->| ->]; right; reflexivity).
  assert (SN : forall s y, (s = sbytes ", " \/ s = break_field) -> stop_prod (s ++ y) -> False).
  { intros s y [->| ->] Q; cbn in Q.
    - destruct Q as [Q|[[Q _]|[Q _]]]; discriminate Q.
    - destruct Q as [Q|[[_ Q]|[Q _]]]; try discriminate Q. now apply (Q _ eq_refl). }
  destruct fs as [|b fs], fs' as [|b' fs']; cbn [map join] in E; fold (join sep) in E; fold (join sep') in E.
  - destruct (X x x') as (-> & A & B); try (now apply stop_prod_stop); [exact E|]. cbn. now rewrite A.
  - exfalso. rewrite <- !app_assoc in E. apply X in E as (_ & _ & E); [|now apply stop_prod_stop|now apply SS]. rewrite E in S. exact (SN _ _ SP' S).
  - exfalso. rewrite <- !app_assoc in E. apply X in E as (_ & _ & E); [|now apply SS|now apply stop_prod_stop]. rewrite <- E in S'. exact (SN _ _ SP S').
  - rewrite <- !app_assoc in E. apply X in E as (-> & A & E); [|now apply SS|now apply SS].
    assert (SE : sep = sep') by (destruct SP as [->| ->], SP' as [->| ->]; (reflexivity || discriminate E)). subst sep'.
    apply app_inv_head in E. destruct (IH Ul Fl) with (fs' := b' :: fs') (x := x) (x' := x') as [C D]; try assumption; try discriminate.
    split; [|exact D]. cbn [map fst snd] in *. now rewrite A, C.
Qed.
(** What a content is. *)
Lemma content_view r : content r ->
  (exists l, l <> [] /\ Forall item l /\ text r = join (sbytes ", ") (map text l) /\ sketch r = tuple_of (map sketch l)
     /\ Forall (fun a => (tsize a <= tsize r)%nat) l)
  \/ (exists fs sep, fs <> [] /\ (sep = sbytes ", " \/ sep = break_field) /\ Forall (fun f => word (sbytes (fst f)) /\ item (snd f)) fs
     /\ text r = join sep (map (sty_field text) fs) /\ sketch r = TrEmbedded (TStruct (map (fun f => (fst f, sketch (snd f))) fs))
     /\ Forall (fun f => (tsize (snd f) <= tsize r)%nat) fs).
Proof.
  intros [a H|a b fs H|fs N H].
  - left. exists [a]. split; [discriminate|split; [now constructor|split; [reflexivity|split; [reflexivity|constructor; [lia|constructor]]]]].
  - left. exists (a :: b :: fs). split; [discriminate|split; [exact H|split; [reflexivity|split; [reflexivity|]]]].
    apply Forall_forall. intros x I. apply tsize_tuple in I. lia.
  - right. exists fs, (if 3 <=? lenN fs then break_field else sbytes ", "). split; [exact N|].
    split; [destruct (3 <=? lenN fs); auto|split; [exact H|split; [reflexivity|split; [reflexivity|]]]].
    apply Forall_forall. intros [n x] I. apply tsize_struct in I. cbn [snd]. lia.
Qed.
Lemma items_head l x : Forall item l -> l <> [] -> exists a y, item a /\ join (sbytes ", ") (map text l) ++ x = text a ++ y
  /\ (y = x \/ exists z, y = sbytes ", " ++ z).
Proof.
  intros F N. destruct l as [|a [|b l]]; [now destruct N| |]; inversion F; subst.
  - exists a, x. split; [assumption|split; [reflexivity|now left]].
  - exists a. cbn [map join]. fold (join (sbytes ", ")). rewrite <- !app_assoc. eexists. split; [assumption|split; [reflexivity|right]]. eexists. reflexivity.
Qed.
Lemma fields_head sep fs x : Forall (fun f => word (sbytes (fst f)) /\ item (snd f)) fs -> fs <> [] ->
  exists n a y, word (sbytes n) /\ item a /\ join sep (map (sty_field text) fs) ++ x = sbytes n ++ sbytes " " ++ text a ++ y
  /\ (y = x \/ exists z, y = sep ++ z).
Proof.
  intros F N. destruct fs as [|[n a] [|b fs]]; [now destruct N| |]; inversion F as [|? ? [W I]]; subst.
  - exists n, a, x. split; [exact W|split; [exact I|]]. split; [|now left]. cbn. now rewrite <- !app_assoc.
  - exists n, a. cbn [map join]. fold (join sep). unfold sty_field at 1. cbn [fst snd]. rewrite <- !app_assoc. eexists. split; [exact W|split; [exact I|split; [reflexivity|right]]]. eexists. reflexivity.
Qed.
Lemma items_not_fields l sep fs x x' : Forall item l -> l <> [] -> Forall (fun f => word (sbytes (fst f)) /\ item (snd f)) fs -> fs <> [] ->
  stop_prod x -> join (sbytes ", ") (map text l) ++ x = join sep (map (sty_field text) fs) ++ x' -> False.
Proof.
  intros F N F' N' S E. destruct (items_head l x F N) as (a & y & A & Ea & Y). destruct (fields_head sep fs x' F' N') as (n & b & z & W & B & Eb & _).
  rewrite Ea, Eb in E. apply closed_split in E as [_ E]; [|now apply item_closed|now apply word_closed| |right; reflexivity].
  - destruct Y as [->|(q & ->)]; [|discriminate E]. rewrite E in S. cbn in S. destruct S as [S|[[S _]|[_ (q & S)]]]; try discriminate S.
    pose proof (lead_app _ z (item_lead b B)) as L. rewrite S in L. exact (lead_odd x5e _ eq_refl L).
  - destruct Y as [->|(q & ->)]; [now apply stop_prod_stop|right; reflexivity].
Qed.
Lemma tuple_of_inj l l' : l = l' -> tuple_of l = tuple_of l'.
Proof. now intros ->. Qed.
Lemma content_unique r : (forall a, (tsize a <= tsize r)%nat -> UI a) -> UC r.
Proof.
  intros U r' x x' C C' S S' E.
  destruct (content_view r C) as [(l & N & F & T & K & Z)|(fs & sep & N & SP & F & T & K & Z)], (content_view r' C') as [(l' & N' & F' & T' & K' & Z')|(fs' & sep' & N' & SP' & F' & T' & K' & Z')];
    rewrite T, T' in E; rewrite K, K'.
  - destruct (items_unique l) with (l' := l') (x := x) (x' := x') as [A B]; try assumption; [|split; [now apply tuple_of_inj|exact B]].
    apply Forall_impl with (2 := Z). exact U.
  - exfalso. exact (items_not_fields l sep' fs' x x' F N F' N' S E).
  - exfalso. symmetry in E. exact (items_not_fields l' sep fs x' x F' N' F N S' E).
  - destruct (fields_unique sep sep' fs) with (fs' := fs') (x := x) (x' := x') as [A B]; try assumption; [|split; [now rewrite A|exact B]].
    apply Forall_impl with (2 := Z). intros f. apply U.
Qed.

Lemma content_not_key r k x y : content r -> item k -> stop_prod x -> text r ++ x = text k ++ sbytes " ->" ++ y -> False.
Proof.
  intros C I S E. destruct (content_view r C) as [(l & N & F & T & _)|(fs & sep & N & SP & F & T & _)]; rewrite T in E; clear T.
  - destruct (items_head l x F N) as (a & z & A & Ea & Y). rewrite Ea in E.
    apply closed_split in E as [_ E]; [|now apply item_closed|now apply item_closed| |right; reflexivity].
    + destruct Y as [->|(q & ->)]; [|discriminate E]. rewrite E in S. cbn in S. destruct S as [S|[[S _]|[_ (q & S)]]]; discriminate S.
    + destruct Y as [->|(q & ->)]; [now apply stop_prod_stop|right; reflexivity].
  - destruct (fields_head sep fs x F N) as (n & b & z & W & B & Eb & _). rewrite Eb in E.
    apply closed_split in E as [_ E]; [|now apply word_closed|now apply item_closed|right; reflexivity|right; reflexivity].
    cbn in E. injection E as E. pose proof (lead_app _ z (item_lead b B)) as L. rewrite E in L. exact (lead_odd x2d _ eq_refl L).
Qed.
Lemma item_unique_upto n : forall r, (tsize r < n)%nat -> UI r.
Proof.
  induction n as [|n IH]; [intros; lia|]. intros r L r' x x' I I' S S' E.
  apply closed_split in E as [E X]; [|now apply item_closed|now apply item_closed|exact S|exact S']. split; [|exact X]. clear x x' S S' X.
  destruct (core_facts r I) as (T & K & Ic & Z & NW). destruct (core_facts r' I') as (T' & K' & Ic' & _ & NW'). rewrite <- T, <- T' in E. rewrite <- K, <- K'.
  assert (L' : (tsize (core r) < S n)%nat) by lia. clear T K Z T' K' I I' L. set (a := core r) in *. set (b := core r') in *. clearbody a b. clear r r'.
  assert (UCs : forall c, (tsize c < tsize a)%nat -> UC c). { intros c D. apply content_unique. intros d D'. apply IH. lia. }
  assert (UIs : forall c, (tsize c < tsize a)%nat -> UI c). { intros c D. apply IH. lia. }
  assert (K : code a = code b) by (rewrite <- (item_code a Ic NW), <- (item_code b Ic' NW'); now rewrite E).
  assert (PW : forall c, c < 256 -> kind (prim_text c) = 4 \/ kind (prim_text c) = 6 /\ prim_text c <> sbytes "Unicode").
  { intros c C. destruct (proj1 PL c C) as [->|[W U]]; [left; reflexivity|right; split; [now apply word_kind|exact U]]. }
  destruct Ic as [s W U P|e W1 W2|c C| |r k H|r s H|r s H|k r s Kk H|r H|r H]; try (now destruct (NW r));
  destruct Ic' as [s' W' U' P'|e' W1' W2'|c' C'| |r' k' H'|r' s' H'|r' s' H'|k' r' s' Kk' H'|r' H'|r' H']; try (now destruct (NW' r'));
  try discriminate K;
  try (cbn [code] in K; match type of K with context [kind (prim_text ?c)] => destruct (PW c) as [PK|[PK _]]; [assumption|rewrite PK in K; discriminate K..] end).
  - cbn [sty_ref] in E. apply sbytes_inj in E. now subst.
  - exfalso. exact (P c' C' E).
  - exfalso. apply U. now apply sbytes_inj.
  - cbn [sty_ref] in E. apply (last_dot_words) in E as [A B]; auto. cbn. apply sbytes_inj in A, B. now rewrite A, B.
  - exfalso. symmetry in E. exact (P' c C E).
  - cbn [sty_ref sty_ty] in E. now rewrite (proj2 PL c c' C C' E).
  - exfalso. cbn [sty_ref sty_ty] in E. destruct (PW c C) as [PK|[_ PK]]; [|now apply PK]. rewrite E in PK. discriminate PK.
  - exfalso. apply U'. symmetry. now apply sbytes_inj.
  - exfalso. cbn [sty_ref sty_ty] in E. destruct (PW c' C') as [PK|[_ PK]]; [|now apply PK]. rewrite <- E in PK. discriminate PK.
  - reflexivity.
  - cbn [sty_ref sty_ty] in E. apply app_inv_head in E. apply (UCs r) in E as [A B]; [|cbn; lia|exact H|exact H'|right; right; split; [reflexivity|eexists; reflexivity]|right; right; split; [reflexivity|eexists; reflexivity]].
    apply app_inv_head, app_inv_tail, StonProofs.show_N_inj in B. cbn. now rewrite A, B.
  - exfalso. cbn [sty_ref sty_ty] in E. apply app_inv_head in E. apply (UCs r) in E as [A B]; [|cbn; lia|exact H|exact H'|right; right; split; [reflexivity|eexists; reflexivity]|now apply sizing_stop].
    rewrite app_assoc in B. apply app_inv_tail in B. symmetry in B. exact (proj2 (proj2 SL) _ _ B).
  - exfalso. cbn [sty_ref sty_ty] in E. apply app_inv_head in E. apply (UCs r) in E as [A B]; [|cbn; lia|exact H|exact H'|now apply sizing_stop|right; right; split; [reflexivity|eexists; reflexivity]].
    rewrite (app_assoc (sbytes " ^ ")) in B. apply app_inv_tail in B. exact (proj2 (proj2 SL) _ _ B).
  - cbn [sty_ref sty_ty] in E. apply app_inv_head in E. apply (UCs r) in E as [A B]; [|cbn; lia|exact H|exact H'|now apply sizing_stop|now apply sizing_stop].
    apply app_inv_tail, (proj1 (proj2 SL)) in B. cbn. now rewrite A, B.
  - cbn [sty_ref sty_ty] in E. apply app_inv_head in E. apply (UCs r) in E as [A B]; [|cbn; lia|exact H|exact H'|now apply sizing_stop|now apply sizing_stop].
    apply app_inv_tail, (proj1 (proj2 SL)) in B. cbn. now rewrite A, B.
  - exfalso. cbn [sty_ref sty_ty] in E. apply app_inv_head in E. refine (content_not_key r k' _ _ H Kk' _ E). now apply sizing_stop.
  - exfalso. cbn [sty_ref sty_ty] in E. apply app_inv_head in E. symmetry in E. refine (content_not_key r' k _ _ H' Kk _ E). now apply sizing_stop.
  - cbn [sty_ref sty_ty] in E. apply app_inv_head in E. apply (UIs k) in E as [A B]; [|cbn; lia|exact Kk|exact Kk'|right; reflexivity|right; reflexivity].
    apply app_inv_head in B. apply sizing_space in B as [-> B]; [|now apply lead_app, content_lead|now apply lead_app, content_lead].
    apply (UCs r) in B as [B _]; [|cbn; lia|exact H|exact H'|left; reflexivity|left; reflexivity]. cbn. now rewrite A, B.
  - destruct (option_text r) as [T D]. destruct (option_text r') as [T' _]. rewrite T, T' in E.
    apply app_inv_tail in E. destruct (UIs r D r' [] []) as [A _]; try assumption; try exact Logic.I; [now rewrite E|].
    cbn. now rewrite A.
Qed.
Lemma item_unique r : UI r.
Proof. apply (item_unique_upto (S (tsize r))). lia. Qed.
Lemma contents_unique r : UC r.
Proof. apply content_unique. intros a _. apply item_unique. Qed.

(** ** Enums *)
Definition stop_type (x : bytes) : Prop :=
  match x with
  | [] => True
  | b :: x => closing b = true \/ (b = x0a /\ forall y, x <> x20 :: y)
  end.
Lemma stop_type_prod x : stop_type x -> stop_prod x.
Proof. destruct x; [trivial|]. cbn. tauto. Qed.
Lemma hash_split a b s s' : word a -> word b -> (s = [] \/ exists z, s = x23 :: z) -> (s' = [] \/ exists z, s' = x23 :: z) ->
  a ++ s = b ++ s' -> a = b /\ s = s'.
Proof.
  assert (X : forall s, word s -> ~ In x23 s).
  { intros q [_ F] I. rewrite forallb_forall in F. specialize (F _ I). discriminate F. }
  assert (Y : forall m q q', (q = [] \/ exists z, q = x23 :: z) -> m ++ q' = q -> m <> [] -> In x23 m).
  { intros m q q' [->|(z & ->)] E N; [apply app_eq_nil in E as [E _]; now destruct N|]. destruct m as [|c m]; [now destruct N|]. injection E as -> _. now left. }
  intros A B S S' E. apply app_eq_app in E as (m & [[-> E]|[-> E]]); destruct m as [|c m].
  - rewrite app_nil_r. now rewrite E.
  - exfalso. apply (X _ A). apply in_or_app. right. symmetry in E. exact (Y (c :: m) s' s S' E ltac:(discriminate)).
  - rewrite app_nil_r. now rewrite E.
  - exfalso. apply (X _ B). apply in_or_app. right. symmetry in E. exact (Y (c :: m) s s' S E ltac:(discriminate)).
Qed.
Lemma variant_closed tag v : word (sbytes (v_name v)) -> closed (sty_variant tag v).
Proof.
  intros W. apply closed_app; [now apply word_closed|]. destruct (v_tag v =? tag); [intros k; reflexivity|].
  apply closed_app; [intros k; reflexivity|apply word_closed, show_N_word].
Qed.
Lemma variant_unique tag v v' y y' : word (sbytes (v_name v)) -> word (sbytes (v_name v')) -> stop y -> stop y' ->
  sty_variant tag v ++ y = sty_variant tag v' ++ y' -> v = v' /\ y = y'.
Proof.
  intros W W' S S' E. apply closed_split in E as [E Y]; [|now apply variant_closed|now apply variant_closed|exact S|exact S']. split; [|exact Y].
  assert (H : forall v : variant, (if v_tag v =? tag then [] else sbytes "#" ++ show_N (v_tag v)) = [] \/
    exists z, (if v_tag v =? tag then [] else sbytes "#" ++ show_N (v_tag v)) = x23 :: z).
  { intros u. destruct (v_tag u =? tag); [now left|right; eexists; reflexivity]. }
  unfold sty_variant in E. apply hash_split in E as [A B]; try assumption; try apply H. apply sbytes_inj in A.
  destruct v as [n t], v' as [n' t']. cbn in *. subst n'. f_equal.
  destruct (t =? tag) eqn:Z, (t' =? tag) eqn:Z'; try discriminate B; [apply N.eqb_eq in Z, Z'; congruence|].
  injection B as B. now apply StonProofs.show_N_inj.
Qed.
Lemma enum_rest_unique l : Forall (fun v => word (sbytes (v_name v))) l -> forall k tag l' x x',
  Forall (fun v => word (sbytes (v_name v))) l' -> stop_type x -> stop_type x' ->
  sty_enum_rest k tag l ++ x0a :: x = sty_enum_rest k tag l' ++ x0a :: x' -> l = l' /\ x = x'.
Proof.
  assert (ST : forall k tag l x, stop (sty_enum_rest k tag l ++ x0a :: x)).
  { intros k tag q x. destruct q; [right; reflexivity|]. destruct k; right; reflexivity. }
  induction 1 as [|v l W F IH]; intros k tag l' x x' F' S S' E.
  - destruct l' as [|v' l']; [now injection E as ->|]. exfalso. destruct k; [|discriminate E]. cbn in E. injection E as ->.
    cbn in S. destruct S as [S|[S _]]; discriminate S.
  - destruct F' as [|v' l' W' F'].
    { exfalso. destruct k; [|discriminate E]. cbn in E. injection E as <-. cbn in S'. destruct S' as [S'|[S' _]]; discriminate S'. }
    assert (G : v = v' /\ l = l' /\ x = x'); [|destruct G as (-> & -> & ->); auto].
    destruct k; cbn [sty_enum_rest] in E; rewrite <- !app_assoc in E.
    + do 2 apply app_inv_head in E. apply variant_unique in E as [-> E]; try assumption; try apply ST. split; [reflexivity|exact (IH _ _ _ _ _ F' S S' E)].
    + apply app_inv_head in E. apply variant_unique in E as [-> E]; try assumption; try apply ST. split; [reflexivity|exact (IH _ _ _ _ _ F' S S' E)].
Qed.
Lemma enum_head vs x : vs <> [] -> Forall (fun v => word (sbytes (v_name v))) vs ->
  exists v y, word (sbytes (v_name v)) /\ sty_enum vs ++ x = sty_variant 0 v ++ sbytes " | " ++ y.
Proof.
  intros N F. destruct vs as [|v [|w vs]]; [now destruct N| |]; inversion F; subst; exists v.
  - eexists. split; [assumption|]. unfold sty_enum. rewrite <- !app_assoc. reflexivity.
  - eexists. split; [assumption|]. unfold sty_enum. cbn [app sty_enum_rest]. rewrite <- !app_assoc. reflexivity.
Qed.
Lemma enum_unique vs vs' x x' : vs <> [] -> vs' <> [] -> Forall (fun v => word (sbytes (v_name v))) vs -> Forall (fun v => word (sbytes (v_name v))) vs' ->
  stop_type x -> stop_type x' -> sty_enum vs ++ x = sty_enum vs' ++ x' -> vs = vs' /\ x = x'.
Proof.
  intros N N' F F' S S' E. destruct vs as [|v vs]; [now destruct N|]. destruct vs' as [|v' vs']; [now destruct N'|].
  inversion F as [|? ? W Fv]; subst. inversion F' as [|? ? W' Fv']; subst. unfold sty_enum in E. rewrite <- !app_assoc in E.
  apply variant_unique in E as [-> E]; [|exact W|exact W'|destruct vs; right; reflexivity|destruct vs'; right; reflexivity].
  assert (NP : forall w, word (sbytes (v_name w)) -> forall a b, sbytes " | (|)" ++ a = sbytes " | " ++ sty_variant (next_tag v') w ++ b -> False).
  { intros w Ww a b Z. unfold sty_variant in Z. destruct Ww as [Nw Fw]. destruct (sbytes (v_name w)) as [|c n]; [now destruct Nw|].
    cbn in Z. injection Z as <- _. cbn in Fw. discriminate Fw. }
  destruct vs as [|w vs], vs' as [|w' vs'].
  - do 2 apply app_inv_head in E. injection E as ->. auto.
  - exfalso. cbn [app sty_enum_rest] in E. rewrite <- !app_assoc in E. refine (NP w' _ _ _ E). now inversion Fv'.
  - exfalso. cbn [app sty_enum_rest] in E. rewrite <- !app_assoc in E. symmetry in E. refine (NP w _ _ _ E). now inversion Fv.
  - cbn [app] in E. apply (enum_rest_unique (w :: vs) Fv) in E as [E X]; try assumption. split; [now rewrite E|exact X].
Qed.

(** ** Unions and definitions *)
(** What can follow the content of a variant. *)
Definition stop_bare (x : bytes) : Prop :=
  match x with
  | [] => True
  | b :: x => closing b = true \/ b = x0a \/ (b = x20 /\ exists y, x = x7c :: y)
  end.
Lemma stop_bare_stop x : stop_bare x -> stop x.
Proof. destruct x; [trivial|]. cbn. intros [H|[->|[-> _]]]; auto. Qed.
Lemma union_text vs : as_some (TUnion vs) = None -> text_ty (TUnion vs) = sty_union text tref_compound vs.
Proof.
  intros H. cbn [sty_ty]. destruct vs as [|a [|[b r] [|c vs]]]; try reflexivity. unfold is_option. now rewrite H.
Qed.
Definition UT (t : ty tref) : Prop := forall t' x x', cleart t -> cleart t' -> stop_type x -> stop_type x' -> text_ty t ++ x = text_ty t' ++ x' ->
  sketch (TrEmbedded t) = sketch (TrEmbedded t') /\ x = x'.
Definition UV (r : tref) : Prop := forall r' x x', variantc r -> variantc r' -> stop_bare x -> stop_bare x' ->
  sty_content text tref_compound r ++ x = sty_content text tref_compound r' ++ x' -> sketch r = sketch r' /\ x = x'.

Lemma type_lead t : cleart t -> lead (text_ty t).
Proof.
  intros [t' C|vs N F|vs N A F].
  - exact (content_lead _ C).
  - destruct vs as [|v vs]; [now destruct N|]. cbn [sty_ty sty_enum]. unfold sty_variant. rewrite <- app_assoc. apply lead_app, word_lead. now inversion F.
  - rewrite union_text by exact A. destruct vs as [|[v r] vs]; [now destruct N|]. inversion F as [|? ? [W _] ?]; subst. cbn [fst] in W.
    assert (L : lead (sty_variants text tref_compound 0 ((v, r) :: vs))).
    { cbn [sty_variants]. unfold sty_variant. rewrite <- app_assoc. now apply lead_app, word_lead. }
    destruct vs as [|w vs]; [now apply lead_app|exact L].
Qed.
(** What a variant contains: a definition in parentheses, an item or a structure of one field. *)
Lemma variant_view r : variantc r ->
  (tref_compound r = true /\ exists t, r = TrEmbedded t /\ cleart t)
  \/ (tref_compound r = false /\ item r)
  \/ (tref_compound r = false /\ exists n a, r = TrEmbedded (TStruct [(n, a)]) /\ word (sbytes n) /\ item a).
Proof.
  intros H. destruct (tref_compound r) eqn:C.
  - left. split; [reflexivity|]. destruct H as [r I|t T]; [|now exists t]. destruct r as [t| |]; try discriminate C. exists t. split; [reflexivity|].
    now apply clear_simple, content_item.
  - right. destruct H as [r I|t T]; [left; auto|]. destruct T as [t D|vs N F|vs N A F]; try discriminate C.
    inversion D as [? I|a b fs F|fs N F]; subst; [left; auto| |].
    + exfalso. cbn [tref_compound is_compound] in C. apply N.ltb_ge in C. unfold lenN in C. cbn [List.length] in C. lia.
    + right. split; [reflexivity|]. destruct fs as [|[n a] [|g fs]]; [now destruct N| |].
      * exists n, a. inversion F as [|? ? [W I]]; subst. auto.
      * exfalso. cbn [tref_compound is_compound] in C. apply N.ltb_ge in C. unfold lenN in C. cbn [List.length] in C. lia.
Qed.
Lemma bare_lead r : variantc r -> tref_compound r = false -> lead (text r).
Proof.
  intros V C. destruct (variant_view r V) as [[D _]|[[_ I]|[_ (n & a & -> & W & I)]]]; [congruence|now apply item_lead|].
  cbn. now apply lead_app, word_lead.
Qed.
Lemma variant_content_unique r : (forall t, r = TrEmbedded t -> UT t) -> UV r.
Proof.
  intros U r' x x' V V' S S' E. unfold sty_content in E.
  assert (PB : forall t r a b, cleart t -> variantc r -> tref_compound r = false ->
    paren true (text (TrEmbedded t)) ++ a = paren false (text r) ++ b -> False).
  { intros t q a b T Vq C Z. cbn [paren] in Z. pose proof (bare_lead q Vq C) as L. apply (lead_app _ b) in L. rewrite <- Z, <- !app_assoc in L.
    exact (paren_lead _ _ (type_lead t T) L). }
  destruct (variant_view r V) as [[C (t & -> & T)]|B], (variant_view r' V') as [[C' (t' & -> & T')]|B'].
  - rewrite C, C' in E. cbn [paren] in E. rewrite <- !app_assoc in E. apply app_inv_head in E.
    destruct (U t eq_refl t' (sbytes ")" ++ x) (sbytes ")" ++ x') T T') as [A B]; [left; reflexivity|left; reflexivity|exact E|].
    split; [exact A|]. now apply app_inv_head in B.
  - exfalso. assert (C' : tref_compound r' = false) by tauto. rewrite C, C' in E. exact (PB t r' _ _ T V' C' E).
  - exfalso. assert (C : tref_compound r = false) by tauto. rewrite C, C' in E. symmetry in E. exact (PB t' r _ _ T' V C E).
  - assert (C : tref_compound r = false) by tauto. assert (C' : tref_compound r' = false) by tauto. rewrite C, C' in E. cbn [paren] in E.
    assert (IF : forall r n a y z, item r -> word (sbytes n) -> item a -> stop_bare y -> text r ++ y = text (TrEmbedded (TStruct [(n, a)])) ++ z -> False).
    { clear -PL SL. intros r n a y z I W J S E. cbn [sty_ref sty_ty map join] in E. unfold sty_field in E. cbn [fst snd] in E. rewrite <- !app_assoc in E.
      apply closed_split in E as [_ E]; [|now apply item_closed|now apply word_closed|now apply stop_bare_stop|right; reflexivity].
      rewrite E in S. cbn in S. destruct S as [S|[S|[_ (q & S)]]]; try discriminate S.
      pose proof (lead_app _ z (item_lead a J)) as L. rewrite S in L. exact (lead_odd x7c _ eq_refl L). }
    destruct B as [[_ I]|[_ (n & a & -> & W & I)]], B' as [[_ I']|[_ (n' & a' & -> & W' & I')]].
    + apply (item_unique r r'); auto using stop_bare_stop.
    + exfalso. exact (IF r n' a' x x' I W' I' S E).
    + exfalso. symmetry in E. exact (IF r' n a x' x I' W I S' E).
    + cbn [sty_ref sty_ty map join] in E. unfold sty_field in E. cbn [fst snd] in E. rewrite <- !app_assoc in E.
      apply closed_split in E as [E1 E]; [|now apply word_closed|now apply word_closed|right; reflexivity|right; reflexivity].
      apply app_inv_head in E. apply sbytes_inj in E1. apply item_unique in E as [A B]; auto using stop_bare_stop. cbn. now rewrite E1, A.
Qed.
(** What follows the variants of a union. *)
Definition stop_union (x : bytes) : Prop := stop_type x \/ exists y, x = sbytes " | (|)" ++ y.
Lemma stop_union_bare x : stop_union x -> stop_bare x.
Proof. intros [S|(y & ->)]; [destruct x; [trivial|]; cbn in *; tauto|]. right. right. split; [reflexivity|]. eexists. reflexivity. Qed.
Lemma stop_union_break y : stop_union (break_union ++ y) -> False.
Proof. intros [S|(z & S)]; [|discriminate S]. cbn in S. destruct S as [S|[_ S]]; [discriminate S|now apply (S _ eq_refl)]. Qed.
Lemma variants_unique vs : Forall (fun v => word (sbytes (v_name (fst v))) /\ variantc (snd v)) vs -> Forall (fun v => UV (snd v)) vs -> vs <> [] ->
  forall tag vs' x x', Forall (fun v => word (sbytes (v_name (fst v))) /\ variantc (snd v)) vs' -> vs' <> [] -> stop_union x -> stop_union x' ->
  sty_variants text tref_compound tag vs ++ x = sty_variants text tref_compound tag vs' ++ x' ->
  map (fun v => (fst v, sketch (snd v))) vs = map (fun v => (fst v, sketch (snd v))) vs' /\ x = x'.
Proof.
  induction vs as [|[v r] vs IH]; intros F U N tag vs' x x' F' N' S S' E; [now destruct N|]. destruct vs' as [|[v' r'] vs']; [now destruct N'|].
  inversion F as [|? ? [W V] Fv]; subst. inversion F' as [|? ? [W' V'] Fv']; subst. inversion U as [|? ? Ur Uv]; subst. cbn [fst snd] in *.
  assert (X : forall y y', stop_bare y -> stop_bare y' ->
    sty_variant tag v ++ sbytes " " ++ sty_content text tref_compound r ++ y = sty_variant tag v' ++ sbytes " " ++ sty_content text tref_compound r' ++ y' ->
    v = v' /\ sketch r = sketch r' /\ y = y').
  { intros y y' Y Y' Z. apply variant_unique in Z as [A Z]; [|exact W|exact W'|right; reflexivity|right; reflexivity].
    apply app_inv_head in Z. destruct (Ur r' y y' V V' Y Y' Z). auto. }
  assert (SB : forall y, stop_bare (break_union ++ y)) by (intros y; right; left; reflexivity).
  destruct vs as [|w vs], vs' as [|w' vs']; cbn [sty_variants] in E; fold (sty_variants text tref_compound) in E; rewrite <- !app_assoc in E; rewrite ?app_nil_l in E.
  - apply X in E as (-> & A & B); [|now apply stop_union_bare|now apply stop_union_bare]. cbn. now rewrite A.
  - exfalso. apply X in E as (_ & _ & B); [|now apply stop_union_bare|apply SB]. rewrite B in S. exact (stop_union_break _ S).
  - exfalso. apply X in E as (_ & _ & B); [|apply SB|now apply stop_union_bare]. rewrite <- B in S'. exact (stop_union_break _ S').
  - apply X in E as (-> & A & B); [|apply SB|apply SB]. apply app_inv_head in B.
    destruct (IH Fv Uv) with (tag := next_tag v') (vs' := w' :: vs') (x := x) (x' := x') as [C D]; try assumption; try discriminate.
    split; [|exact D]. cbn [map fst snd] in *. now rewrite A, C.
Qed.
Lemma union_form vs : vs <> [] -> exists e, sty_union text tref_compound vs = sty_variants text tref_compound 0 vs ++ e
  /\ (forall x, stop_type x -> stop_union (e ++ x)) /\ e = match vs with [_] => sbytes " | (|)" | _ => [] end.
Proof.
  intros N. destruct vs as [|a [|b vs]]; [now destruct N| |]; eexists; (split; [|split; [|reflexivity]]).
  - reflexivity.
  - intros x S. right. eexists. reflexivity.
  - cbn [sty_union]. now rewrite app_nil_r.
  - intros x S. now left.
Qed.
(** The beginning of a union: the first variant and what is after it. *)
Lemma union_head vs x : vs <> [] -> Forall (fun v => word (sbytes (v_name (fst v))) /\ variantc (snd v)) vs ->
  exists v r y, word (sbytes (v_name v)) /\ variantc r
  /\ sty_union text tref_compound vs ++ x = sty_variant 0 v ++ sbytes " " ++ sty_content text tref_compound r ++ y
  /\ ((exists z, y = break_union ++ z) \/ exists z, y = sbytes " | (|)" ++ z).
Proof.
  intros N F. destruct vs as [|[v r] [|w vs]]; [now destruct N| |]; inversion F as [|? ? [W V]]; subst; exists v, r.
  - eexists. split; [exact W|split; [exact V|]]. cbn [sty_union sty_variants]. rewrite <- !app_assoc. rewrite ?app_nil_l. split; [reflexivity|].
    right. eexists. reflexivity.
  - eexists. split; [exact W|split; [exact V|]]. cbn [sty_union sty_variants]. rewrite <- !app_assoc. split; [reflexivity|]. left. eexists. reflexivity.
Qed.
Lemma content_variant_lead r y : variantc r -> sty_content text tref_compound r ++ y = x7c :: [] ++ skipn 1 (sty_content text tref_compound r ++ y) -> False.
Proof.
  intros V E. destruct (tref_compound r) eqn:C; unfold sty_content in E; rewrite C in E; cbn [paren] in E; [discriminate E|].
  pose proof (lead_app _ y (bare_lead r V C)) as L. rewrite E in L. exact (lead_odd x7c _ eq_refl L).
Qed.
Lemma stop_type_stop x : stop_type x -> stop x.
Proof. intros S. now apply stop_prod_stop, stop_type_prod. Qed.
Lemma stop_type_space x y : stop_type x -> x = x20 :: y -> False.
Proof. intros S ->. cbn in S. destruct S as [S|[S _]]; discriminate S. Qed.
Lemma after_content sep x y : (sep = sbytes ", " \/ sep = break_field) -> stop_type x -> (y = x \/ exists z, y = sep ++ z) ->
  stop y /\ (forall z, y <> x20 :: z) /\ (forall z, y <> break_union ++ z).
Proof.
  intros SP S [->|(z & ->)].
  - split; [now apply stop_type_stop|]. split; intros w E; [exact (stop_type_space _ _ S E)|]. rewrite E in S. cbn in S. destruct S as [S|[_ S]]; [discriminate S|now apply (S _ eq_refl)].
  - destruct SP as [->| ->]; (split; [right; reflexivity|split; intros w E; discriminate E]).
Qed.
Lemma content_not_enum r vs x x' : content r -> vs <> [] -> Forall (fun v => word (sbytes (v_name v))) vs -> stop_type x ->
  text r ++ x = sty_enum vs ++ x' -> False.
Proof.
  intros C N F S E. destruct (enum_head vs x' N F) as (v & z & W & Ev). rewrite Ev in E. clear Ev.
  destruct (content_view r C) as [(l & Nl & Fl & T & _)|(fs & sep & Nl & SP & Fl & T & _)]; rewrite T in E; clear T.
  - destruct (items_head l x Fl Nl) as (a & y & A & Ea & Y). rewrite Ea in E.
    destruct (after_content (sbytes ", ") x y (or_introl eq_refl) S Y) as (Sy & NS & _).
    apply closed_split in E as [_ E]; [|now apply item_closed|now apply variant_closed|exact Sy|right; reflexivity]. exact (NS _ E).
  - destruct (fields_head sep fs x Fl Nl) as (n & b & y & Wn & B & Eb & _). rewrite Eb in E.
    apply closed_split in E as [_ E]; [|now apply word_closed|now apply variant_closed|right; reflexivity|right; reflexivity].
    cbn in E. injection E as E. pose proof (lead_app _ y (item_lead b B)) as L. rewrite E in L. exact (lead_odd x7c _ eq_refl L).
Qed.
Lemma content_not_union r vs x x' : content r -> vs <> [] -> Forall (fun v => word (sbytes (v_name (fst v))) /\ variantc (snd v)) vs -> stop_type x ->
  text r ++ x = sty_union text tref_compound vs ++ x' -> False.
Proof.
  intros C N F S E. destruct (union_head vs x' N F) as (v & q & z & W & V & Ev & Z). rewrite Ev in E. clear Ev.
  destruct (content_view r C) as [(l & Nl & Fl & T & _)|(fs & sep & Nl & SP & Fl & T & _)]; rewrite T in E; clear T.
  - destruct (items_head l x Fl Nl) as (a & y & A & Ea & Y). rewrite Ea in E.
    destruct (after_content (sbytes ", ") x y (or_introl eq_refl) S Y) as (Sy & NS & _).
    apply closed_split in E as [_ E]; [|now apply item_closed|now apply variant_closed|exact Sy|right; reflexivity]. exact (NS _ E).
  - destruct (fields_head sep fs x Fl Nl) as (n & b & y & Wn & B & Eb & Y). rewrite Eb in E.
    apply closed_split in E as [_ E]; [|now apply word_closed|now apply variant_closed|right; reflexivity|right; reflexivity].
    apply app_inv_head in E. destruct (after_content sep x y SP S Y) as (Sy & NS & NB).
    destruct (variant_view q V) as [[D (t & -> & T)]|[[D I]|[D (m & c & -> & Wm & I)]]]; unfold sty_content in E; rewrite D in E; cbn [paren] in E.
    + pose proof (lead_app _ y (item_lead b B)) as L. rewrite E, <- !app_assoc in L. exact (paren_lead _ _ (type_lead t T) L).
    + apply closed_split in E as [_ E]; [|now apply item_closed|now apply item_closed|exact Sy|destruct Z as [(w & ->)|(w & ->)]; right; reflexivity].
      destruct Z as [(w & ->)|(w & ->)]; [exact (NB _ E)|exact (NS _ E)].
    + cbn [sty_ref sty_ty map join] in E. unfold sty_field in E. cbn [fst snd] in E. rewrite <- !app_assoc in E.
      apply closed_split in E as [_ E]; [|now apply item_closed|now apply word_closed|exact Sy|right; reflexivity]. exact (NS _ E).
Qed.
Lemma enum_not_union vs us x x' : vs <> [] -> Forall (fun v => word (sbytes (v_name v))) vs ->
  us <> [] -> Forall (fun v => word (sbytes (v_name (fst v))) /\ variantc (snd v)) us ->
  sty_enum vs ++ x = sty_union text tref_compound us ++ x' -> False.
Proof.
  intros N F N' F' E. destruct (enum_head vs x N F) as (v & y & W & Ev). destruct (union_head us x' N' F') as (u & q & z & Wu & V & Eu & _).
  rewrite Ev, Eu in E. apply closed_split in E as [_ E]; [|now apply variant_closed|now apply variant_closed|right; reflexivity|right; reflexivity].
  cbn in E. injection E as E. apply (content_variant_lead q z V). rewrite <- E. reflexivity.
Qed.
Lemma type_unique_upto n : forall t, (tsize (TrEmbedded t) < n)%nat -> UT t.
Proof.
  induction n as [|n IH]; [intros; lia|]. intros t L t' x x' C C' S S' E.
  destruct C as [t C|vs N F|vs N A F], C' as [t' C'|vs' N' F'|vs' N' A' F'].
  - apply (contents_unique (TrEmbedded t)); auto using stop_type_prod.
  - exfalso. exact (content_not_enum (TrEmbedded t) vs' x x' C N' F' S E).
  - exfalso. rewrite (union_text vs' A') in E. exact (content_not_union (TrEmbedded t) vs' x x' C N' F' S E).
  - exfalso. symmetry in E. exact (content_not_enum (TrEmbedded t') vs x' x C' N F S' E).
  - apply enum_unique in E as [-> X]; auto.
  - exfalso. rewrite (union_text vs' A') in E. exact (enum_not_union vs vs' x x' N F N' F' E).
  - exfalso. rewrite (union_text vs A) in E. symmetry in E. exact (content_not_union (TrEmbedded t') vs x' x C' N F S' E).
  - exfalso. rewrite (union_text vs A) in E. symmetry in E. exact (enum_not_union vs' vs x' x N' F' N F E).
  - rewrite (union_text vs A), (union_text vs' A') in E.
    destruct (union_form vs N) as (e & Ue & Se & De). destruct (union_form vs' N') as (e' & Ue' & Se' & De'). rewrite Ue, Ue', <- !app_assoc in E.
    apply variants_unique in E as [V X]; auto.
    + split; [cbn [sketch]; now rewrite V|]. assert (EE : e = e'). { rewrite De, De'. destruct vs as [|a [|b vs]], vs' as [|a' [|b' vs']]; try discriminate V; reflexivity. }
      rewrite EE in X. now apply app_inv_head in X.
    + apply Forall_forall. intros [v r] I. cbn [snd]. apply variant_content_unique. intros t ->. apply IH.
      pose proof (tsize_union _ _ _ I). lia.
Qed.
Lemma type_unique t : UT t.
Proof. apply (type_unique_upto (S (tsize (TrEmbedded t)))). lia. Qed.

(** ** Libraries *)
Definition line (w : bytes) : Prop := ~ In x0a w.
Lemma line_split w : forall w' x x', line w -> line w' -> w ++ x0a :: x = w' ++ x0a :: x' -> w = w' /\ x = x'.
Proof.
  induction w as [|b w IH]; intros [|b' w'] x x' L L' E; cbn in E.
  - injection E as E. auto.
  - exfalso. injection E as <- _. apply L'. now left.
  - exfalso. injection E as -> _. apply L. now left.
  - injection E as <- E. apply IH in E as [-> ->]; [auto| |]; intros I; [apply L|apply L']; now right.
Qed.
Lemma line_app a b : line a -> line b -> line (a ++ b).
Proof. unfold line. intros A B I. apply in_app_iff in I as [I|I]; auto. Qed.
Lemma word_line w : word w -> line w.
Proof. intros [_ F] I. rewrite forallb_forall in F. discriminate (F _ I). Qed.
Lemma word_split (w : bytes) : forall w' b b' x x', word_byte b = false -> word_byte b' = false ->
  forallb word_byte w = true -> forallb word_byte w' = true -> w ++ b :: x = w' ++ b' :: x' -> w = w' /\ b :: x = b' :: x'.
Proof.
  induction w as [|a w IH]; intros [|a' w'] b b' x x' B B' W W' E; cbn in E, W, W'.
  - auto.
  - exfalso. injection E as <- _. now rewrite B in W'.
  - exfalso. injection E as -> _. now rewrite B' in W.
  - injection E as <- E. apply andb_true_iff in W as [_ W]. apply andb_true_iff in W' as [_ W'].
    destruct (IH w' b b' x x' B B' W W' E) as [-> X]. auto.
Qed.
Lemma sbytes_inj a b : sbytes a = sbytes b -> a = b.
Proof. intros E. rewrite <- (string_of_list_byte_of_string a), <- (string_of_list_byte_of_string b). exact (f_equal string_of_list_byte E). Qed.
Lemma named_line n n' m m' x x' : word (sbytes n) -> word (sbytes n') -> line m -> line m' ->
  sbytes n ++ sbytes "#" ++ m ++ x0a :: x = sbytes n' ++ sbytes "#" ++ m' ++ x0a :: x' -> n = n' /\ m = m' /\ x = x'.
Proof.
  intros [_ W] [_ W'] L L' E. cbn [sbytes list_byte_of_string app] in E. apply word_split in E as [N E]; try reflexivity; auto.
  apply sbytes_inj in N. injection E as E. apply line_split in E as [-> ->]; auto.
Qed.

Section Libraries.
Variable mnemonic : N -> bytes.
Hypothesis ML : mnemonics_legible mnemonic.
Lemma mnemonic_line id : line (mnemonic id).
Proof. apply ML. Qed.
Hint Resolve mnemonic_line : core.

Definition use_text (e : N * string) : bytes := sbytes "  use " ++ sbytes (snd e) ++ sbytes "#" ++ mnemonic (fst e) ++ [x0a].
Lemma uses_unique l : forall l' x x', Forall (fun e : N * string => word (sbytes (snd e))) l -> Forall (fun e => word (sbytes (snd e))) l' ->
  flat_map use_text l ++ x0a :: x = flat_map use_text l' ++ x0a :: x' ->
  map (fun e => (snd e, mnemonic (fst e))) l = map (fun e => (snd e, mnemonic (fst e))) l' /\ x = x'.
Proof.
  induction l as [|e l IH]; intros [|e' l'] x x' F F' E; cbn [flat_map] in E.
  - injection E as E. auto.
  - discriminate E.
  - discriminate E.
  - inversion F as [|? ? W Fl]; subst. inversion F' as [|? ? W' Fl']; subst.
    unfold use_text at 1 3 in E. rewrite <- !app_assoc in E. apply app_inv_head in E.
    apply named_line in E as (N & M & E); auto. cbn [map]. rewrite N, M. apply IH in E as [-> ->]; auto.
Qed.

(** The types are after an empty line, and begin with an annotation. *)
Definition after (z : bytes) : Prop := z = [] \/ exists y, z = x40 :: y.
Definition import_text (d : string * N * option (list (N * string))) : bytes :=
  sbytes "import " ++ sbytes (fst (fst d)) ++ sbytes "#" ++ mnemonic (snd (fst d)) ++ [x0a]
  ++ match snd d with None => [] | Some index => flat_map use_text index ++ [x0a] end.
Definition import_data (d : string * N * option (list (N * string))) :=
  (fst (fst d), mnemonic (snd (fst d)), option_map (map (fun e => (snd e, mnemonic (fst e)))) (snd d)).
Definition import_ok (d : string * N * option (list (N * string))) : Prop :=
  word (sbytes (fst (fst d))) /\ match snd d with None => True | Some l => Forall (fun e => word (sbytes (snd e))) l end.
Lemma imports_unique ds : forall ds' z z', Forall import_ok ds -> Forall import_ok ds' -> after z -> after z' ->
  flat_map import_text ds ++ x0a :: z = flat_map import_text ds' ++ x0a :: z' -> map import_data ds = map import_data ds' /\ z = z'.
Proof.
  assert (H : forall ds z, (exists y, flat_map import_text ds ++ x0a :: z = x69 :: y) \/ flat_map import_text ds ++ x0a :: z = x0a :: z).
  { intros [|d l] z; [now right|left]. cbn [flat_map]. unfold import_text at 1. cbn. eauto. }
  assert (NS : forall ds z l ds' z', after z -> flat_map import_text ds ++ x0a :: z = flat_map use_text l ++ x0a :: flat_map import_text ds' ++ x0a :: z' -> False).
  { intros l z us l' z' A E. destruct us as [|u us]; [cbn [flat_map app] in E|cbn [flat_map] in E; destruct (H l z) as [(y & Y)|Y]; rewrite Y in E; discriminate E].
    destruct (H l z) as [(y & Y)|Y]; rewrite Y in E; [discriminate E|]. injection E as E.
    destruct (H l' z') as [(y & Y')|Y']; rewrite Y' in E; destruct A as [->|(q & ->)]; discriminate E. }
  induction ds as [|d ds IH]; intros [|d' ds'] z z' F F' A A' E; cbn [flat_map] in E.
  - injection E as E. auto.
  - discriminate E.
  - discriminate E.
  - inversion F as [|? ? [W O] Fl]; subst. inversion F' as [|? ? [W' O'] Fl']; subst.
    unfold import_text at 1 3 in E. rewrite <- !app_assoc in E. apply app_inv_head in E. cbn [app] in E.
    apply named_line in E as (N & M & E); auto. cbn [map]. unfold import_data at 1 3. rewrite N, M.
    destruct (snd d) as [l|], (snd d') as [l'|].
    + rewrite <- !app_assoc in E. apply uses_unique in E as [U E]; auto. apply IH in E as [-> ->]; auto. cbn [option_map]. rewrite U. auto.
    + exfalso. rewrite <- !app_assoc in E. symmetry in E. exact (NS ds' z' l ds z A' E).
    + exfalso. rewrite <- !app_assoc in E. exact (NS ds z l' ds' z' A E).
    + apply IH in E as [-> ->]; auto.
Qed.

Local Notation entry := (sty_entry prim_text sizing_text mnemonic).
Lemma entry_unique e e' x x' : word (sbytes (fst e)) -> word (sbytes (fst e')) -> cleart (snd e) -> cleart (snd e') ->
  entry e ++ x = entry e' ++ x' ->
  (fst e, sketch (TrEmbedded (snd e))) = (fst e', sketch (TrEmbedded (snd e'))) /\ x = x'.
Proof.
  intros W W' C C' E. unfold sty_entry in E. rewrite <- !app_assoc in E. apply app_inv_head in E.
  rewrite !(app_assoc _ (sbytes ")")) in E. cbn [app] in E.
  apply line_split in E as [_ E]; [|apply line_app; [apply ML|intros [H|[]]; discriminate H]..].
  apply app_inv_head in E. unfold pad in E. rewrite <- !app_assoc in E.
  assert (B : forall k y, exists y', blanks k ++ sbytes " : " ++ y = x20 :: y'). { intros [|k] y; cbn; eauto. }
  destruct (B (17 - String.length (fst e))%nat (text_ty (snd e) ++ x0a :: x0a :: x)) as (y & Y).
  destruct (B (17 - String.length (fst e'))%nat (text_ty (snd e') ++ x0a :: x0a :: x')) as (y' & Y').
  cbn [app] in E. rewrite Y, Y' in E. apply word_split in E as [N E]; try reflexivity; [|apply W|apply W'].
  rewrite <- Y, <- Y' in E. apply sbytes_inj in N. rewrite N in E. do 2 apply app_inv_head in E.
  apply type_unique in E as [T E]; auto.
  - rewrite N, T. injection E as E. auto.
  - right. split; [reflexivity|intros q E'; discriminate E'].
  - right. split; [reflexivity|intros q E'; discriminate E'].
Qed.
Lemma entries_unique l : forall l', Forall (fun e => word (sbytes (fst e)) /\ cleart (snd e)) l -> Forall (fun e => word (sbytes (fst e)) /\ cleart (snd e)) l' ->
  flat_map entry l = flat_map entry l' ->
  map (fun e => (fst e, sketch (TrEmbedded (snd e)))) l = map (fun e => (fst e, sketch (TrEmbedded (snd e)))) l'.
Proof.
  induction l as [|e l IH]; intros [|e' l'] F F' E; cbn [flat_map] in E; try reflexivity; try discriminate E.
  inversion F as [|? ? [W C] Fl]; subst. inversion F' as [|? ? [W' C'] Fl']; subst.
  apply entry_unique in E as [X E]; auto. cbn [map]. rewrite X. f_equal. now apply IH.
Qed.
Definition import_of (s : sym_lib) (d : dependency) := (d_name d, d_id d, om_get String.compare (d_name d) (y_extern s)).
Lemma om_get_forall {V} (P : V -> Prop) k m : Forall (fun e : string * V => P (snd e)) m ->
  match om_get String.compare k m with Some v => P v | None => True end.
Proof. induction 1 as [|[k' v] m H F IH]; cbn; [exact I|]. destruct (String.compare k k'); auto. Qed.
Lemma lib_unique s s' : clear_lib prim_text s -> clear_lib prim_text s' ->
  sty_lib prim_text sizing_text mnemonic s = sty_lib prim_text sizing_text mnemonic s' ->
  y_name s = y_name s' /\ imports mnemonic s = imports mnemonic s'
  /\ map (fun e => (fst e, sketch (TrEmbedded (snd e)))) (y_types s) = map (fun e => (fst e, sketch (TrEmbedded (snd e)))) (y_types s').
Proof.
  intros (W & D & X & T) (W' & D' & X' & T') E. unfold sty_lib in E. do 2 apply app_inv_head in E. apply app_inv_head in E.
  cbn [app] in E. apply line_split in E as [N E]; auto using word_line. injection E as E.
  assert (A : forall l, after (flat_map entry l)). { intros [|e l]; [now left|right]. cbn [flat_map]. unfold sty_entry at 1. rewrite <- !app_assoc. eexists. reflexivity. }
  assert (I : forall s l, flat_map (sty_import mnemonic s) l = flat_map import_text (map (import_of s) l)).
  { intros q l. induction l as [|d l IH]; [reflexivity|]. cbn [flat_map map]. rewrite IH. f_equal. }
  assert (F : forall s, Forall (fun d => word (sbytes (d_name d))) (y_deps s) ->
    Forall (fun m => Forall (fun e => word (sbytes (snd e))) (snd m)) (y_extern s) -> Forall import_ok (map (import_of s) (y_deps s))).
  { intros q Fd Fe. apply Forall_map. eapply Forall_impl; [|exact Fd]. intros d Wd. split; [exact Wd|]. cbn.
    exact (om_get_forall (fun v => Forall (fun e => word (sbytes (snd e))) v) (d_name d) (y_extern q) Fe). }
  assert (M : forall s, map import_data (map (import_of s) (y_deps s)) = imports mnemonic s). { intros q. now rewrite map_map. }
  rewrite !I in E.
  assert (G : map import_data (map (import_of s) (y_deps s)) = map import_data (map (import_of s') (y_deps s'))
    /\ flat_map entry (y_types s) = flat_map entry (y_types s')).
  { apply imports_unique; auto. destruct (y_deps s) as [|d l], (y_deps s') as [|d' l']; cbn [map flat_map app] in E |- *; try discriminate E.
    - injection E as E. now rewrite E.
    - exact E. }
  destruct G as [G1 G2]. rewrite !M in G1. split; [now apply sbytes_inj|]. split; [exact G1|]. now apply entries_unique.
Qed.
End Libraries.
End Text.
