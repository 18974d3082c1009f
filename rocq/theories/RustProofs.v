(** Proofs for PropRust.v: the format of values in the type system is the format of the Rust types. *)
From Coq Require Import NArith ZArith Arith List Bool String Strings.Byte Lia.
From Verif Require Import Base Ty Ids Val TypeSys SpecUtf8 Spec SpecIds SpecWire SpecTypify Transpile SpecTranspile SpecRust TranspileProofs.
Import ListNotations.
Local Open Scope N_scope.

Lemma all_In {A} (P : A -> Prop) l : all P l <-> forall a, In a l -> P a.
Proof.
  induction l as [|b l IH]; cbn; [split; [intros _ a []|auto]|]. rewrite IH. split.
  - intros [H K] a [<-|I]; auto.
  - intros H. split; auto.
Qed.
Lemma map_repeat_eq {A B} (f : A -> B) a n : map f (repeat a n) = repeat (f a) n.
Proof. induction n as [|n IH]; [reflexivity|]. cbn. now rewrite IH. Qed.
Lemma in_turn_repeat {A B} (f : A -> B) k t n : map f (in_turn (repeat (k, t) n)) = in_turn (repeat (f k, f t) n).
Proof. induction n as [|n IH]; [reflexivity|]. cbn. unfold in_turn in IH. now rewrite IH. Qed.
Lemma in_turn_In {A} (k t x : A) n : In x (in_turn (repeat (k, t) n)) -> x = k \/ x = t.
Proof. unfold in_turn. rewrite in_flat_map. intros ([a b] & I & J). apply repeat_spec in I. injection I as -> ->. cbn in J. intuition. Qed.

Lemma place_forallb {A} tag (f : A -> bool) a l : forallb f (place tag a l) = f a && forallb f l.
Proof.
  induction l as [|b l IH]; [reflexivity|]. cbn [place]. destruct (tag a <? tag b); [reflexivity|]. cbn [forallb]. rewrite IH.
  now destruct (f a), (f b).
Qed.
Lemma by_tag_forallb {A} tag (f : A -> bool) l : forallb f (by_tag tag l) = forallb f l.
Proof.
  unfold by_tag. change (forallb f l) with (forallb f [] && forallb f l). generalize (@nil A).
  induction l as [|a l IH]; intros s; cbn [fold_left forallb]; [now rewrite andb_true_r|]. rewrite IH, place_forallb.
  now destruct (f a), (forallb f s), (forallb f l).
Qed.

Definition standard_ids (f : stype -> semid) : Prop :=
  f (SType None (TPrim P_BYTE)) = byte_id /\ f (SType None (TPrim P_U8)) = u8_id /\ f (SType None TUnicode) = unicode_id.

Section Format.
Variables (mem : N) (sys : type_system).
Hypothesis K : known_ids sys.
(** The ids of types. *)
Variable st_id : stype -> semid.
Hypothesis IDS : standard_ids st_id.
Local Notation wire := (wire mem sys).
Local Notation wires := (wires mem sys).
Local Notation written := (written mem).
Local Notation writtens := (writtens mem).

Definition tid (t : rust) : semid := st_id (meaning t).
(** The types of all parts are in the system. *)
Definition held (s : stype) : Prop := forall p, part p s -> sys_find sys (st_id p) = Some (map_ty st_id (st_body p)).
Definition agree (t : rust) : Prop := forall v bs, wire (tid t) v bs <-> written t v bs.

Lemma held_self s : held s -> sys_find sys (st_id s) = Some (map_ty st_id (st_body s)).
Proof. intros H. apply H. constructor. Qed.
Lemma held_ref s r : held s -> In r (refs (st_body s)) -> held r.
Proof. intros H I p P. apply H. destruct s as [n b]. now apply part_inner with r. Qed.

(** Which types have the ids of bytes and of characters, and which ones are alphabets. *)
Lemma byte_held t : held (meaning t) -> byte_item (tid t) -> byte_type t = true.
Proof.
  intros H B. apply held_self in H. fold (tid t) in H. destruct K as (K1 & K2 & _).
  assert (E : map_ty st_id (st_body (meaning t)) = TPrim P_BYTE \/ map_ty st_id (st_body (meaning t)) = TPrim P_U8).
  { destruct B as [B|B]; rewrite B in H; [left; now apply K1|right; now apply K2]. }
  assert (P : forall tuple fs, map_ty st_id (product tuple fs) = TPrim P_BYTE \/ map_ty st_id (product tuple fs) = TPrim P_U8 -> False).
  { intros tuple [|f fs] [X|X]; try discriminate X; destruct tuple; discriminate X. }
  destruct t; cbn [meaning st_body map_ty] in E; try (destruct E as [E|E]; discriminate E).
  - cbn [byte_type]. destruct E as [E|E]; injection E as ->; reflexivity.
  - now destruct (P _ _ E).
Qed.
Lemma byte_id_type t : byte_type t = true -> byte_item (tid t).
Proof.
  intros B. destruct t; try discriminate B. cbn [byte_type] in B. apply orb_true_iff in B as [B|B]; apply N.eqb_eq in B; subst;
    [right; exact (proj1 (proj2 IDS))|left; exact (proj1 IDS)].
Qed.
Lemma unicode_held t : held (meaning t) -> ~ unicode_item (tid t).
Proof.
  intros H B. apply held_self in H. fold (tid t) in H. destruct K as (_ & _ & K3). rewrite B in H. apply K3 in H.
  assert (P : forall tuple fs, map_ty st_id (product tuple fs) = TUnicode -> False).
  { intros tuple [|f fs] X; try discriminate X; destruct tuple; discriminate X. }
  destruct t; cbn [meaning st_body map_ty] in H; try discriminate H. now apply P in H.
Qed.
Lemma chars_character t : chars_type (map_ty st_id (st_body (meaning t))) <> None <-> character t = true.
Proof.
  assert (P : forall tuple fs, chars_type (map_ty st_id (product tuple fs)) = None).
  { intros tuple [|f fs]; [reflexivity|]. now destruct tuple. }
  destruct t; cbn [meaning st_body map_ty chars_type character]; rewrite ?P; try (split; [intros X; now destruct X|discriminate]).
  rewrite by_tag_forallb. destruct (forallb _ vs); split; intros X; try discriminate X; try reflexivity; now destruct X.
Qed.
Lemma chars_none t : character t = false -> chars_type (map_ty st_id (st_body (meaning t))) = None.
Proof.
  intros H. destruct (chars_type (map_ty st_id (st_body (meaning t)))) eqn:E; [|reflexivity].
  assert (X : character t = true) by (apply chars_character; rewrite E; discriminate). congruence.
Qed.
Lemma chars_some t : character t = true -> exists a, chars_type (map_ty st_id (st_body (meaning t))) = Some a.
Proof. intros H. apply chars_character in H. destruct (chars_type (map_ty st_id (st_body (meaning t)))); [eauto|now destruct H]. Qed.

(** Values one after another. *)
Lemma wires_agree ts : (forall t, In t ts -> agree t) -> forall l bs, wires (map tid ts) l bs <-> writtens ts l bs.
Proof.
  induction ts as [|t ts IH]; intros A l bs.
  - split; intros H; inversion H; constructor.
  - assert (At : agree t) by (apply A; now left). assert (IH' := IH (fun t' I => A t' (or_intror I))).
    split; intros H; inversion H; subst; constructor; try (now apply At); now apply IH'.
Qed.

Ltac same := match goal with
  | H : sys_find sys ?i = Some ?a, H' : sys_find sys ?i = Some ?b |- _ =>
      lazymatch a with b => fail | _ => let E := fresh "E" in assert (E : b = a) by congruence; clear H'; first [discriminate E|injection E; clear E; intros; subst|subst] end
  end.

(** Fields of structures and tuples. *)
Lemma like_refuted (fs : list (string * rust)) : (forall f, In f fs -> held (meaning (snd f))) ->
  like_string (map snd fs) = false -> forall a1 a2 min max, ~ restricted_string sys (map tid (map snd fs)) a1 a2 min max.
Proof.
  intros H L a1 a2 min max [first rest r t1 t2 E F1 C1 F2 F3 C2].
  destruct fs as [|[n a] [|[m b] [|f fs]]]; try discriminate E. cbn [map snd] in *. injection E as <- <-. unfold tid in *.
  assert (Ha : held (meaning a)) by (apply (H (n, a)); now left). assert (Hb : held (meaning b)) by (apply (H (m, b)); right; now left).
  assert (CA : character a = true).
  { apply chars_character. rewrite (held_self _ Ha) in F1. injection F1 as ->. congruence. }
  rewrite (held_self _ Hb) in F2. injection F2 as F2.
  destruct b; cbn [meaning st_body map_ty] in F2; try discriminate F2.
  - injection F2 as <- ->. pose proof (held_ref _ (SType None TUnicode) Hb (or_introl eq_refl)) as HU. apply held_self in HU.
    rewrite HU in F3. injection F3 as <-. discriminate C2.
  - injection F2 as <- ->. cbn [like_string] in L. rewrite CA in L. cbn in L.
    pose proof (held_ref _ (meaning b) Hb (or_introl eq_refl)) as HB. apply held_self in HB. rewrite HB in F3. injection F3 as <-.
    assert (CB : character b = true) by (apply chars_character; congruence). congruence.
  - destruct fs; [discriminate F2|]. destruct tuple; discriminate F2.
Qed.
Definition fields (fs : list (string * rust)) : list (string * stype) := map (fun f => (fst f, meaning (snd f))) fs.
Lemma fields_snd fs : map st_id (map snd (fields fs)) = map tid (map snd fs).
Proof. unfold fields. rewrite !map_map. reflexivity. Qed.
Lemma fields_agree id tuple fs : sys_find sys id = Some (map_ty st_id (product tuple (fields fs))) ->
  (forall f, In f fs -> held (meaning (snd f))) -> (forall f, In f fs -> agree (snd f)) ->
  (tuple = true -> like_string (map snd fs) = false) ->
  forall v bs, wire id v bs <-> fields_written mem tuple fs v bs.
Proof.
  intros S H A L v bs.
  assert (AA : forall t, In t (map snd fs) -> agree t) by (intros t I; apply in_map_iff in I as (f & <- & I); now apply A).
  destruct fs as [|f fs].
  - change (map_ty st_id (product tuple (fields []))) with (@TPrim semid P_UNIT) in S. split; intros W.
    + inversion W; subst; try same; try constructor; discriminate.
    + inversion W; subst; try congruence. now apply W_unit.
  - assert (NE : f :: fs <> []) by discriminate. revert S H A L AA NE. generalize (f :: fs) as gs. clear f fs. intros gs S H A L AA NE. destruct tuple.
    + assert (S' : sys_find sys id = Some (TTuple (map tid (map snd gs)))).
      { rewrite S, <- fields_snd. destruct gs; [now destruct NE|reflexivity]. }
      clear S. split; intros W.
      * inversion W; subst v bs; same; try (exfalso; eapply like_refuted; eauto; fail).
        apply R_tuple; [assumption|]. now apply wires_agree.
      * inversion W; subst; try congruence; try (now destruct NE). apply W_tuple with (fs := map tid (map snd gs)); [assumption|now apply like_refuted; auto|].
        now apply wires_agree.
    + assert (S' : sys_find sys id = Some (TStruct (map (fun g => (fst g, tid (snd g))) gs))).
      { rewrite S. destruct gs as [|f fs]; [now destruct NE|]. cbn [fields map product map_ty fst snd]. unfold fields. rewrite !map_map. reflexivity. }
      assert (N1 : map fst (map (fun g : string * rust => (fst g, tid (snd g))) gs) = map fst gs) by (rewrite map_map; reflexivity).
      assert (N2 : map snd (map (fun g : string * rust => (fst g, tid (snd g))) gs) = map tid (map snd gs)) by (rewrite !map_map; reflexivity).
      clear S. split; intros W.
      * inversion W; subst v bs; same. apply R_struct; [assumption|congruence|]. apply wires_agree; [assumption|]. now rewrite <- N2.
      * inversion W; subst; try congruence; try (now destruct NE). eapply W_struct; [eassumption|congruence|]. rewrite N2. now apply wires_agree.
Qed.

Lemma uint_bytes p w : uint_width p = Some w -> p = P_BYTE /\ w = 1 \/ (0 < p < 0x40 /\ w = number_bytes p).
Proof.
  unfold uint_width. destruct ((1 <=? p) && (p <=? 8)) eqn:E.
  - apply andb_true_iff in E as [A B]. apply N.leb_le in A, B. intros [= <-]. right. split; [lia|]. unfold number_bytes.
    destruct (N.ltb_spec p 32); lia.
  - destruct (N.eqb_spec p 0x40) as [->|]; [|discriminate]. intros [= <-]. now left.
Qed.
Lemma int_bytes p w : int_width p = Some w -> 0x40 < p < 0x80 /\ w = number_bytes (p - 0x40).
Proof.
  unfold int_width. destruct (N.eqb_spec p 0x41) as [->|]; [intros [= <-]; split; [lia|reflexivity]|].
  destruct (N.eqb_spec p 0x42) as [->|]; [intros [= <-]; split; [lia|reflexivity]|].
  destruct (N.eqb_spec p 0x44) as [->|]; [intros [= <-]; split; [lia|reflexivity]|].
  destruct (N.eqb_spec p 0x48) as [->|]; [intros [= <-]; split; [lia|reflexivity]|discriminate].
Qed.
Lemma one_byte bs : lenN bs = 1 -> exists b, bs = [b] /\ le_number bs = Byte.to_N b.
Proof. destruct bs as [|b [|c bs]]; intros L; try (unfold lenN in L; cbn in L; lia). exists b. split; [reflexivity|]. cbn. lia. Qed.

Lemma chars_held t : held (meaning t) -> character t = true ->
  exists rt a, sys_find sys (tid t) = Some rt /\ chars_type rt = Some a.
Proof. intros H C. destruct (chars_some t C) as (a & A). exists (map_ty st_id (st_body (meaning t))), a. split; [now apply held_self|exact A]. Qed.

Lemma format_agrees : forall t, readable t -> held (meaning t) -> agree t.
Proof.
  induction t as [t IH] using rust_induction. intros R H v bs. rewrite Forall_forall in IH.
  pose proof (held_self _ H) as S. change (sys_find sys (tid t) = Some (map_ty st_id (st_body (meaning t)))) in S.
  destruct t as [p|lib name|s|c c1 s|t len|t s|t s|k t s|lib name vs|lib name vs wr|lib name tuple fs].
  - (* primitives *) cbn [meaning st_body map_ty readable] in *. split; intros W.
    + inversion W; subst v; try same.
      * constructor.
      * match goal with U : uint_width _ = Some _ |- _ => destruct (uint_bytes _ _ U) as [[-> Q]|[B Q]] end; [|now apply R_uint].
        destruct (one_byte _ Q) as (b & Y & ->). rewrite Y. apply R_byte.
      * match goal with U : int_width _ = Some _ |- _ => destruct (int_bytes _ _ U) as [B Q] end. now apply R_int.
    + assert (N1 : forall x : byte, le_number [x] = Byte.to_N x) by (intros x; cbn [le_number]; lia).
      inversion W; subst.
      * now apply W_unit.
      * rewrite <- N1. eapply W_uint; [exact S|reflexivity|reflexivity].
      * destruct R as [->|[R|R]]; [unfold P_UNIT in *; lia| |].
        -- destruct (uint_width p) as [w|] eqn:U; [|now destruct R]. destruct (uint_bytes _ _ U) as [[-> _]|[_ ->]]; [unfold P_BYTE in *; lia|].
           now apply (W_uint mem sys _ p (number_bytes p)).
        -- destruct (int_width p) as [w|] eqn:U; [|now destruct R]. destruct (int_bytes _ _ U). lia.
      * destruct R as [->|[R|R]]; [unfold P_UNIT in *; lia| |].
        -- destruct (uint_width p) as [w|] eqn:U; [|now destruct R]. destruct (uint_bytes _ _ U) as [[-> _]|[? _]]; [unfold P_BYTE in *; lia|lia].
        -- destruct (int_width p) as [w|] eqn:U; [|now destruct R]. destruct (int_bytes _ _ U) as [_ ->].
           now apply (W_int mem sys _ p (number_bytes (p - 0x40))).
      * destruct R as [->|[R|R]]; [unfold P_UNIT in *; lia| |].
        -- destruct (uint_width p) as [w|] eqn:U; [|now destruct R]. destruct (uint_bytes _ _ U) as [[-> _]|[? _]]; [unfold P_BYTE in *; lia|lia].
        -- destruct (int_width p) as [w|] eqn:U; [|now destruct R]. destruct (int_bytes _ _ U). lia.
  - (* nothing *) cbn [meaning st_body map_ty] in *. split; intros W.
    + inversion W; subst; try same; try constructor; discriminate.
    + inversion W; subst. now apply W_unit.
  - (* text *) cbn [meaning st_body map_ty readable] in *. destruct s as [min max]. cbn [s_max] in R.
    pose proof (held_ref _ (SType None TUnicode) H (or_introl eq_refl)) as HU. apply held_self in HU. cbn [st_body map_ty] in HU.
    destruct K as (K1 & K2 & _).
    assert (NB : ~ byte_item (st_id (SType None TUnicode))).
    { intros [B|B]; rewrite B in HU; [apply K1 in HU|apply K2 in HU]; discriminate HU. }
    split; intros W.
    + inversion W; subst; try same.
      * same. discriminate.
      * contradiction.
      * now apply R_text.
      * exfalso. match goal with X : max < 2 ^ 32 -> _ |- _ => apply (proj2 (X R)) end. apply IDS.
    + inversion W; subst. cbn [s_max] in *. eapply W_text; try eassumption; [reflexivity|]. apply IDS.
  - (* restricted strings *) cbn [meaning st_body map_ty map readable] in *. destruct R as (C & C1 & M). destruct s as [min max]. cbn [s_min s_max] in *.
    assert (H1 : held (meaning c1)) by (apply (held_ref _ _ H); left; reflexivity).
    assert (HL : held (SType None (TList (meaning c) (mkSizing (min - 1) (max - 1))))) by (apply (held_ref _ _ H); right; left; reflexivity).
    assert (HC : held (meaning c)) by (apply (held_ref _ _ HL); left; reflexivity).
    destruct (chars_held c HC C) as (rt & a & F & A). destruct (chars_held c1 H1 C1) as (rt1 & a1 & F1 & A1).
    pose proof (held_self _ HL) as SL. cbn [st_body map_ty] in SL.
    assert (RS : restricted_string sys [st_id (meaning c1); st_id (SType None (TList (meaning c) (mkSizing (min - 1) (max - 1))))] a1 a (min - 1) (max - 1)).
    { eapply Restricted; [reflexivity|exact F1|exact A1|exact SL|exact F|exact A]. }
    assert (MM : max - 1 + 1 = max) by lia.
    split; intros W.
    + inversion W; subst; try same.
      * exfalso. match goal with X : forall _ _ _ _, ~ restricted_string _ _ _ _ _ _ |- _ => exact (X _ _ _ _ RS) end.
      * match goal with X : restricted_string _ _ ?b1 ?b2 ?m1 ?m2 |- _ => assert (E : m2 = max - 1) end.
        { match goal with X : restricted_string _ _ _ _ _ _ |- _ => destruct X as [first rest r t1 t2 E F2 C2 F3 _ _]; injection E as <- <- end.
          rewrite SL in F3. injection F3 as _ _ <-. reflexivity. }
        subst. rewrite MM in *. now apply R_string.
    + inversion W; subst. cbn [s_max] in *. eapply W_rstring; try eassumption. now rewrite MM.
  - (* arrays *) cbn [meaning st_body map_ty readable] in *.
    assert (HT : held (meaning t)) by (apply (held_ref _ _ H); left; reflexivity).
    assert (A : agree t) by (apply IH; [left; reflexivity|assumption|assumption]).
    assert (AA : forall n l bs, wires (repeat (st_id (meaning t)) n) l bs <-> writtens (repeat t n) l bs).
    { intros n l b. rewrite <- wires_agree; [now rewrite map_repeat_eq|]. intros u I. apply repeat_spec in I. now subst u. }
    split; intros W.
    + inversion W; subst; try same.
      * apply R_byte_array; [now apply byte_held|assumption].
      * apply R_array; [|assumption|now apply AA]. destruct (byte_type t) eqn:B; [|reflexivity]. now apply byte_id_type in B.
    + inversion W; subst.
      * eapply W_byte_array; [exact S|now apply byte_id_type|assumption].
      * eapply W_array; [exact S| |assumption|now apply AA]. intros B. apply byte_held in B; [congruence|assumption].
  - (* lists *) cbn [meaning st_body map_ty readable] in *. destruct s as [min max].
    assert (HT : held (meaning t)) by (apply (held_ref _ _ H); left; reflexivity).
    assert (A : agree t) by (apply IH; [left; reflexivity|assumption|assumption]).
    assert (AA : forall n l bs, wires (repeat (st_id (meaning t)) n) l bs <-> writtens (repeat t n) l bs).
    { intros n l b. rewrite <- wires_agree; [now rewrite map_repeat_eq|]. intros u I. apply repeat_spec in I. now subst u. }
    pose proof (held_self _ HT) as ST.
    assert (CT : forall rt, sys_find sys (st_id (meaning t)) = Some rt -> chars_type rt = None -> character t = false).
    { intros rt F Z. destruct (character t) eqn:C; [|reflexivity]. apply chars_character in C. rewrite ST in F. injection F as <-. contradiction. }
    split; intros W.
    + inversion W; subst v; try same.
      * apply R_chars; try assumption. apply chars_character. rewrite ST in *. congruence.
      * apply R_bytes; try assumption. now apply byte_held.
      * exfalso. now apply (unicode_held t).
      * eapply R_list; [now apply CT with rt| |eassumption|assumption|now apply AA]. cbn [s_max]. intros M. destruct (byte_type t) eqn:B; [|reflexivity]. apply byte_id_type in B.
        match goal with X : max < 2 ^ 32 -> _ |- _ => now destruct (proj1 (X M) B) end.
    + inversion W; subst; cbn [s_max] in *.
      * destruct (chars_held t) as (rt & a & F & C); [assumption|assumption|]. eapply W_chars; eassumption.
      * eapply W_bytes; try eassumption; [|now apply byte_id_type]. apply chars_none. now destruct t.
      * eapply W_list; try eassumption; [now apply chars_none| |now apply AA]. intros M. split; [|now apply unicode_held].
        intros B. apply byte_held in B; [|assumption]. match goal with X : max < 2 ^ 32 -> _ |- _ => rewrite (X M) in B end. discriminate B.
  - (* sets *) cbn [meaning st_body map_ty readable] in *. destruct s as [min max].
    assert (HT : held (meaning t)) by (apply (held_ref _ _ H); left; reflexivity).
    assert (A : agree t) by (apply IH; [left; reflexivity|assumption|assumption]).
    assert (AA : forall n l bs, wires (repeat (st_id (meaning t)) n) l bs <-> writtens (repeat t n) l bs).
    { intros n l b. rewrite <- wires_agree; [now rewrite map_repeat_eq|]. intros u I. apply repeat_spec in I. now subst u. }
    split; intros W.
    + inversion W; subst v; try same. apply R_set; auto. now apply AA.
    + inversion W; subst. eapply W_set; try eassumption. now apply AA.
  - (* maps *) cbn [meaning st_body map_ty readable] in *. destruct s as [min max]. destruct R as [Rk R].
    assert (HK : held (meaning k)) by (apply (held_ref _ _ H); left; reflexivity).
    assert (HT : held (meaning t)) by (apply (held_ref _ _ H); right; left; reflexivity).
    assert (Ak : agree k) by (apply IH; [left; reflexivity|assumption|assumption]).
    assert (A : agree t) by (apply IH; [right; left; reflexivity|assumption|assumption]).
    assert (AA : forall n l bs, wires (in_turn (repeat (st_id (meaning k), st_id (meaning t)) n)) l bs <-> writtens (in_turn (repeat (k, t) n)) l bs).
    { intros n l b. rewrite <- wires_agree; [now rewrite in_turn_repeat|]. intros u I. apply in_turn_In in I as [-> | ->]; assumption. }
    split; intros W.
    + inversion W; subst v; try same. apply R_map; auto. now apply AA.
    + inversion W; subst. eapply W_map; try eassumption. now apply AA.
  - (* enumerations *) cbn [meaning st_body map_ty] in *. split; intros W.
    + inversion W; subst; try same. apply R_enum; [|assumption]. now apply by_tag_In in H1.
    + inversion W; subst. eapply W_enum; [exact S| |assumption]. now apply by_tag_In.
  - (* unions *) cbn [readable] in R. rewrite all_In in R.
    set (content := fun v : variant * (variant_kind * list (string * rust)) => match fst (snd v) with
                               | KUnit => SType None (TPrim P_UNIT)
                               | KFields tuple => SType None (product tuple (fields (snd (snd v))))
                               end).
    assert (SU : sys_find sys (tid (RuUnion lib name vs wr)) = Some (TUnion (map (fun e => (fst e, st_id (snd e)))
      (by_tag (fun e => v_tag (fst e)) (map (fun v => (fst v, content v)) vs))))) by exact S.
    assert (IN : forall w r, In (w, r) (map (fun e => (fst e, st_id (snd e))) (by_tag (fun e => v_tag (fst e)) (map (fun v => (fst v, content v)) vs)))
      <-> exists x, In (w, x) vs /\ r = st_id (content (w, x))).
    { intros w r. rewrite in_map_iff. split.
      - intros ([w' s] & E & I). cbn in E. injection E as <- <-. apply by_tag_In in I. apply in_map_iff in I as ([w x] & E & I). injection E as <- <-.
        exists x. auto.
      - intros (x & I & ->). exists (w, content (w, x)). split; [reflexivity|]. apply by_tag_In. apply in_map_iff. now exists (w, x). }
    assert (HC : forall x, In x vs -> held (content x)).
    { intros x I. apply (held_ref _ _ H). cbn [meaning st_body refs]. apply in_map_iff. exists (fst x, content x). split; [reflexivity|].
      apply by_tag_In. apply in_map_iff. now exists x. }
    assert (FF : forall w tuple fs, In (w, (KFields tuple, fs)) vs -> forall v bs,
      wire (st_id (content (w, (KFields tuple, fs)))) v bs <-> fields_written mem tuple fs v bs).
    { intros w tuple fs I. pose proof (HC _ I) as HX. destruct (R _ I) as [RL RF]. cbn [fst snd] in RL, RF. rewrite all_In in RF.
      assert (HF : forall f, In f fs -> held (meaning (snd f))).
      { intros f J. apply (held_ref _ _ HX). unfold content. cbn [fst snd st_body]. destruct fs as [|g gs]; [destruct J|].
        assert (J' : In (meaning (snd f)) (map snd (fields (g :: gs)))) by (unfold fields; rewrite map_map; apply in_map_iff; now exists f).
        destruct tuple; exact J'. }
      apply fields_agree; [exact (held_self _ HX)|exact HF| |intros ->; now apply RL].
      intros f J. apply IH; [|now apply RF|now apply HF]. cbn [rust_subs]. apply in_flat_map. exists (w, (KFields tuple, fs)). split; [exact I|].
      apply in_map_iff. now exists f. }
    clear S. split; intros W.
    + inversion W; subst; try same.
      match goal with X : In (_, _) (map _ (by_tag _ _)) |- _ => apply IN in X as ([kind fs] & I & ->) end.
      destruct kind as [|tuple].
      * match goal with X : wire (st_id _) _ _ |- _ => rename X into WI end.
        pose proof (held_self _ (HC _ I)) as SC. cbn [content fst snd st_body map_ty] in SC. unfold content in WI. cbn [fst snd] in WI.
        inversion WI; subst; try same; try discriminate. eapply R_union_unit; eassumption.
      * eapply R_union; [exact I|assumption|]. now apply FF with v0.
    + inversion W; subst.
      * eapply W_union; [exact SU|apply IN; eexists; split; [eassumption|reflexivity]|assumption|]. unfold content. cbn [fst snd].
        match goal with I : In (_, (KUnit, _)) vs |- _ => pose proof (held_self _ (HC _ I)) as SC end. now apply W_unit.
      * eapply W_union; [exact SU|apply IN; eexists; split; [eassumption|reflexivity]|assumption|]. now apply FF.
  - (* product *) cbn [readable] in R. destruct R as [RL R]. rewrite all_In in R.
    assert (HF : forall f, In f fs -> held (meaning (snd f))).
    { intros f I. apply (held_ref _ _ H). cbn [meaning st_body]. change (map (fun f => (fst f, meaning (snd f))) fs) with (fields fs).
      destruct fs as [|g gs]; [destruct I|]. assert (J : In (meaning (snd f)) (map snd (fields (g :: gs)))).
      { unfold fields. rewrite map_map. apply in_map_iff. now exists f. }
      destruct tuple; exact J. }
    assert (FA : forall f, In f fs -> agree (snd f)).
    { intros f I. apply IH; [apply in_map_iff; now exists f|now apply R|now apply HF]. }
    pose proof (fields_agree _ tuple fs S HF FA RL v bs) as E. rewrite E. split; intros W; [now constructor|now inversion W].
Qed.
End Format.
