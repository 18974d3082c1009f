(** Proofs about the exchange of values with self-describing formats. *)
From Coq Require Import NArith ZArith Arith List Bool String Ascii Strings.Byte Permutation Lia.
From Verif Require Import Base Ty Ids Val TypeSys Encode Typify Spec CodecLemmas ValLemmas SpecTypify TypifyProofs TypifyNotations Serde SpecSerde.
Import ListNotations.
Local Open Scope N_scope.

Lemma chr_between_iff b lo hi : chr_between b lo hi = true <-> lo <= Byte.to_N b <= hi.
Proof. unfold chr_between. rewrite andb_true_iff, !N.leb_le. reflexivity. Qed.
Lemma ok_identifier s : name_ok s = true -> identifier s.
Proof.
  unfold name_ok, rstring_ok, identifier. destruct (sbytes s) as [|b r] eqn:E; [discriminate|]. intros H.
  apply andb_true_iff in H as [H L]. apply andb_true_iff in H as [F R].
  exists (Byte.to_N b), (map Byte.to_N r). split; [reflexivity|]. split; [|split].
  - unfold alpha_small_lodash in F. apply orb_true_iff in F as [F|F]; [left; now apply chr_between_iff|right; now apply N.eqb_eq].
  - rewrite Forall_map, Forall_forall. rewrite forallb_forall in R. intros x I. specialize (R x I). unfold alpha_num_lodash in R.
    rewrite !orb_true_iff, !chr_between_iff, N.eqb_eq in R. tauto.
  - apply N.leb_le in L. rewrite slen_bytes, E in L. unfold lenN in *. cbn in *. rewrite map_length. exact L.
Qed.
Lemma documentable_list rb l :
  (fix all l := match l with [] => True | x :: l => documentable rb x /\ all l end) l <-> Forall (documentable rb) l.
Proof. induction l as [|x l IH]; [split; auto|]. rewrite IH. split; [intros [A B]; auto|intros H; inversion H; auto]. Qed.
Lemma documentable_fields rb (l : list (string * sval)) :
  (fix all l := match l with [] => True | f :: l => documentable rb (snd f) /\ all l end) l <-> Forall (documentable rb) (map snd l).
Proof. induction l as [|x l IH]; [split; auto; constructor|]. rewrite IH. cbn. split; [intros [A B]; auto|intros H; inversion H; auto]. Qed.

Lemma typify_struct_map rec req lw l : Forall2 (fun e' e => fst e' = fst e
    /\ exists id, nf_ty_by_name req (fst e) = Some id /\ rec (snd e') id = Ok (snd e)) lw l ->
  forall new, NoDup (map fst (new ++ l)) -> typify_struct rec req lw new = Ok (new ++ l).
Proof.
  induction 1 as [|[n' x'] [n x] lw l (E & id & H1 & H2) F IH]; intros new ND; cbn in *; [now rewrite app_nil_r|]. subst n'.
  rewrite H1. cbn. rewrite H2. cbn. rewrite imap_insert_new; [rewrite IH; rewrite <- app_assoc; auto|].
  rewrite map_app in ND. cbn in ND. apply NoDup_remove_2 in ND. intros I. apply ND, in_or_app. now left.
Qed.

Lemma Forall2_len {A B} {Q : A -> B -> Prop} {l l'} : Forall2 Q l l' -> List.length l = List.length l'.
Proof. induction 1; cbn; congruence. Qed.
Lemma collect_all {A B} (f : A -> option B) l r : Forall2 (fun a b => f a = Some b) l r -> collect f l = Some r.
Proof. induction 1 as [|a b l r H F IH]; [reflexivity|]. cbn [collect]. fold (collect f). rewrite H, IH. reflexivity. Qed.

Section Reread.
Variables (bt : snum -> string) (rb : string -> option snum) (c : config) (sys : type_system).
Local Notation HT := (has_type (mkMode true false) c sys).
Hypothesis W : wf_sys sys.
Hypothesis K : known_ids sys.
Hypothesis B : byte_in_strings_only sys.
Hypothesis V : names_valid sys.
Hypothesis NE : no_empty_arrays sys.
Hypothesis RB : forall s n, rb s = Some n -> 100 < slen s.
Local Notation reads := (fun v w => read rb (ser bt v) = Some w).

Lemma identifier_short s : identifier s -> rb s = None.
Proof.
  intros (x & r & E & _ & _ & L). destruct (rb s) as [n|] eqn:R; [|reflexivity]. exfalso. apply RB in R.
  rewrite slen_bytes in R. apply (f_equal (@List.length N)) in E. rewrite map_length in E. unfold lenN in *. rewrite E in R. lia.
Qed.
Lemma not_tag a : documentable rb a -> ~ tag_like a -> read_tag (ser bt a) = None.
Proof.
  destruct a as [|[n|n|z|z]|s|b| |[s|n]| | | | |]; cbn [documentable ser ser_num ser_tag read_tag tag_like]; intros D N; try reflexivity; try contradiction.
  - destruct ((0 <=? Z.of_N n)%Z && (Z.of_N n <? 256)%Z) eqn:E; [|reflexivity]. exfalso. apply N. apply andb_true_iff in E as [_ E].
    apply Z.ltb_lt in E. lia.
  - destruct ((0 <=? z)%Z && (z <? 256)%Z) eqn:E; [|reflexivity]. exfalso. apply N. apply andb_true_iff in E as [E1 E2].
    apply Z.ltb_lt in E2. apply Z.leb_le in E1. lia.
  - destruct (name_ok s) eqn:E; [|reflexivity]. exfalso. now apply N, ok_identifier.
  - subst b. reflexivity.
Qed.
Lemma read_seq l ws : Forall2 reads l ws -> Forall (documentable rb) l -> (forall a b, l = [a; b] -> ~ tag_like a) ->
  read rb (DSeq (map (ser bt) l)) = Some (VList ws).
Proof.
  intros F D NT.
  assert (C : collect (read rb) (map (ser bt) l) = Some ws).
  { apply collect_all. clear -F. induction F; constructor; assumption. }
  cbn [read]. fold (collect (read rb)). rewrite C. destruct l as [|a [|b [|? ?]]]; try reflexivity. cbn [map].
  rewrite not_tag; [reflexivity|now inversion D|now apply (NT a b)].
Qed.
Lemma read_map (l : list (string * sval)) ws : Forall2 reads (map snd l) ws -> NoDup (map fst l) -> Forall identifier (map fst l) ->
  read rb (ser bt (VStruct l)) = Some (VStruct (combine (map fst l) ws)).
Proof.
  intros F ND I. cbn [ser read].
  rewrite (collect_all _ _ (combine (map fst l) ws)).
  2: { clear ND. revert ws F. induction l as [|[n x] l IH]; intros ws F; inversion F; subst; constructor; inversion I; subst.
    - cbn [fst snd]. cbn [snd] in H1. rewrite H1, (identifier_ok n) by assumption. reflexivity.
    - apply IH; assumption. }
 cbn [option_map]. f_equal. f_equal. apply Forall2_len in F. rewrite map_length in F.
  assert (E : map fst (combine (map fst l) ws) = map fst l).
  { clear -F. revert ws F. induction l as [|[n x] l IH]; intros [|w ws] F; try discriminate; [reflexivity|]. cbn. f_equal. apply IH. cbn in F. lia. }
  apply imap_collect. now rewrite E.
Qed.

Lemma land_small n : n < 2 ^ 63 -> N.land n 0x8000000000000000 = 0.
Proof.
  intros L. change 0x8000000000000000 with (2 ^ 63). apply N.bits_inj. intros i. rewrite N.land_spec, N.pow2_bits_eqb, N.bits_0.
  destruct (N.eqb_spec 63 i) as [<-|]; [|apply andb_false_r]. rewrite andb_true_r.
  destruct (N.eq_dec n 0) as [->|NZ]; [reflexivity|]. apply N.bits_above_log2. apply N.log2_lt_pow2; lia.
Qed.

Definition reread id v := exists w, reads v w /\ forall fuel, (vdepth v <= fuel)%nat -> typify_val fuel sys w id = Ok v.
Definition P id v := sys_find sys id <> Some (TPrim P_BYTE) -> documentable rb v -> reread id v.

Lemma reread_list r l : Forall (reread r) l -> exists ws, Forall2 reads l ws
  /\ forall fuel, Forall (fun x => (vdepth x <= fuel)%nat) l -> map_outcome (fun w => typify_val fuel sys w r) ws = Ok l.
Proof.
  induction 1 as [|x l (w & R & T) _ (ws & RS & TS)]; [exists []; split; [constructor|reflexivity]|].
  exists (w :: ws). split; [now constructor|]. intros fuel D. inversion D; subst. cbn. rewrite (T fuel) by assumption. cbn.
  rewrite (TS fuel) by assumption. reflexivity.
Qed.
Lemma reread_zip fs l : Forall2 reread fs l -> exists ws, Forall2 reads l ws
  /\ forall fuel, Forall (fun x => (vdepth x <= fuel)%nat) l -> typify_zip (typify_val fuel sys) ws fs = Ok l.
Proof.
  induction 1 as [|id x fs l (w & R & T) _ (ws & RS & TS)]; [exists []; split; [constructor|reflexivity]|].
  exists (w :: ws). split; [now constructor|]. intros fuel D. inversion D; subst. cbn. rewrite (T fuel) by assumption. cbn.
  rewrite (TS fuel) by assumption. reflexivity.
Qed.
Lemma reread_struct fs (l : list (string * sval)) : NoDup (map fst fs) -> map fst l = map fst fs -> Forall2 reread (map snd fs) (map snd l) ->
  exists ws, Forall2 reads (map snd l) ws
  /\ forall fuel, Forall (fun x => (vdepth (snd x) <= fuel)%nat) l -> typify_struct (typify_val fuel sys) fs (combine (map fst l) ws) [] = Ok l.
Proof.
  intros ND E F.
  assert (G : forall part, incl part fs -> map fst l = map fst part -> Forall2 reread (map snd part) (map snd l) ->
    exists ws, Forall2 reads (map snd l) ws
    /\ forall fuel, Forall (fun x => (vdepth (snd x) <= fuel)%nat) l ->
       Forall2 (fun e' e => fst e' = fst e /\ exists id, nf_ty_by_name fs (fst e) = Some id /\ typify_val fuel sys (snd e') id = Ok (snd e))
         (combine (map fst l) ws) l).
  { clear E F. induction l as [|[n x] l IH]; intros [|[n' r] part] I E F; try discriminate.
    - exists []. split; constructor.
    - cbn in E, F. injection E as <- E. inversion F as [|? ? ? ? (w & R & T) F']; subst.
      destruct (IH part) as (ws & RS & TS); [intros y J; apply I; now right|exact E|exact F'|].
      exists (w :: ws). split; [now constructor|]. intros fuel D. inversion D; subst. cbn. constructor; [|now apply TS].
      split; [reflexivity|]. exists r. cbn. split; [|now apply T]. apply nf_ty_by_name_In; [exact ND|]. apply I. now left. }
  destruct (G fs) as (ws & RS & TS); [apply incl_refl|exact E|exact F|]. exists ws. split; [exact RS|]. intros fuel D.
  apply (typify_struct_map _ fs (combine (map fst l) ws) l (TS fuel D) []). cbn. rewrite E. exact ND.
Qed.

Lemma reread_typed id v : HT id v -> P id v.
Proof.
  revert id v. apply (has_type_ind' (mkMode true false) c sys P); unfold P.
  - (* unit *) intros id F NB D. exists VUnit. split; [reflexivity|]. intros [|fuel] L; [cbn in L; lia|].
    rewrite (typify_unfold sys fuel _ _ _ (type_of_find sys _ _ W F)). reflexivity.
  - (* unsigned *) intros id p w n F U L NB D.
    assert (n < 2 ^ 64).
    { apply N.lt_le_trans with (2 ^ (8 * w)); [exact L|]. apply N.pow_le_mono_r; [lia|]. unfold uint_width in U.
      destruct ((1 <=? p) && (p <=? 8)) eqn:X; [|destruct (p =? 0x40); [injection U as <-; lia|discriminate U]].
      injection U as <-. apply andb_true_iff in X as [_ X]. apply N.leb_le in X. lia. }
    exists (VNum (Uint n)). split.
    + cbn [ser ser_num read read_num]. unfold read_num. replace ((0 <=? Z.of_N n)%Z && (Z.of_N n <? 2 ^ 64)%Z) with true; [now rewrite N2Z.id|].
      symmetry. apply andb_true_iff. split; [apply Z.leb_le; lia|apply Z.ltb_lt; change (2 ^ 64)%Z with (Z.of_N (2 ^ 64)); lia].
    + intros [|fuel] Lf; [cbn in Lf; lia|]. rewrite (typify_unfold sys fuel _ _ _ (type_of_find sys _ _ W F)). cbn.
      destruct (uint_width_cases p w U) as [-> | ->]; [reflexivity|contradiction].
  - (* signed *) intros id p w z F U L NB D.
    assert (S63 : (- 2 ^ 63 <= z < 2 ^ 63)%Z).
    { assert (w <= 8) by (unfold int_width in U; repeat (destruct (_ =? _); [injection U as <-; lia|]); discriminate U).
      assert (2 ^ (8 * Z.of_N w - 1) <= 2 ^ 63)%Z by (apply Z.pow_le_mono_r; lia). lia. }
    destruct (Z.leb_spec 0 z) as [P0|N0].
    + exists (VNum (Uint (Z.to_N z))). split.
      * cbn [ser ser_num read]. unfold read_num. replace ((0 <=? z)%Z && (z <? 2 ^ 64)%Z) with true; [reflexivity|].
        symmetry. apply andb_true_iff. split; [apply Z.leb_le; lia|apply Z.ltb_lt]. change (2 ^ 64)%Z with (2 * 2 ^ 63)%Z. lia.
      * intros [|fuel] Lf; [cbn in Lf; lia|]. rewrite (typify_unfold sys fuel _ _ _ (type_of_find sys _ _ W F)). cbn [typify_ty].
        rewrite (int_width_small p w U), land_small by (change (2 ^ 63) with (Z.to_N (2 ^ 63)%Z); lia).
        replace (is_small_unsigned p) with false; [cbn; now rewrite Z2N.id by lia|].
        pose proof (int_width_small p w U) as S. unfold is_small_signed in S. apply andb_true_iff in S as [S _].
        apply N.leb_le in S. symmetry. unfold is_small_unsigned. apply N.leb_gt. lia.
    + exists (VNum (Int z)). split.
      * cbn [ser ser_num read]. unfold read_num. replace (0 <=? z)%Z with false by (symmetry; apply Z.leb_gt; lia). cbn [andb].
        replace ((- 2 ^ 63 <=? z)%Z && (z <? 0)%Z) with true; [reflexivity|].
        symmetry. apply andb_true_iff. split; [apply Z.leb_le; lia|apply Z.ltb_lt; lia].
      * intros [|fuel] Lf; [cbn in Lf; lia|]. rewrite (typify_unfold sys fuel _ _ _ (type_of_find sys _ _ W F)). cbn.
        rewrite (int_width_small p w U). reflexivity.
  - (* enum *) intros id vs v F I NB D.
    assert (ID : identifier (v_name v)).
    { pose proof (V _ _ F) as N. cbn in N. rewrite Forall_forall in N. now apply N. }
    exists (VStr (v_name v)). split.
    + cbn [ser ser_tag read]. now rewrite identifier_short.
    + intros [|fuel] Lf; [cbn in Lf; lia|]. rewrite (typify_unfold sys fuel _ _ _ (type_of_find sys _ _ W F)). cbn [typify_ty].
      cbn in D. apply N.eqb_neq in D. rewrite D. cbn [andb]. rewrite (identifier_ok _ ID).
      replace (ev_has_name vs (v_name v)) with true; [reflexivity|].
      symmetry. apply existsb_exists. exists v. split; [exact I|apply String.eqb_refl].
  - (* union *) intros id vs v r w F I T IH NB D.
    assert (NBr : sys_find sys r <> Some (TPrim P_BYTE)).
    { intros X. edestruct (B id) as [_ [[? Y]|[? [Y _]]]]; [exact F| |exact X|discriminate Y|discriminate Y].
      cbn. apply (in_map snd) in I. exact I. }
    destruct (IH NBr D) as (w' & R & TY). exists (VUnion (Name (v_name v)) w').
    assert (ID : identifier (v_name v)).
    { pose proof (V _ _ F) as N. cbn in N. rewrite Forall_forall in N. now apply (N _ I). }
    split.
    + cbn [ser ser_tag read read_tag]. rewrite (identifier_ok _ ID), R. reflexivity.
    + intros [|fuel] Lf; [cbn in Lf; lia|]. rewrite (typify_unfold sys fuel _ _ _ (type_of_find sys _ _ W F)). cbn [typify_ty].
      destruct (wf_types _ W _ _ F) as [ND _]. unfold uv_ty_by_name.
      pose proof (uv_by_name_In vs (v, r) ND I) as E. cbn in E. rewrite E. cbn [option_map snd].
      rewrite (TY fuel) by (cbn in Lf; lia). reflexivity.
  - (* tuple *) intros id fs l F NR T IH NB [D NT]. apply documentable_list in D.
    assert (NBs : Forall (fun f => sys_find sys f <> Some (TPrim P_BYTE)) fs).
    { apply Forall_forall. intros f I X.
      edestruct (B id) as [_ [[? Y]|[? [Y _]]]]; [exact F|exact I|exact X|discriminate Y|discriminate Y]. }
    assert (Q : Forall2 reread fs l).
    { clear -IH D NBs. induction IH as [|f x fs l Hx Hl IH]; constructor; inversion D; inversion NBs; subst; auto. }
    destruct (reread_zip fs l Q) as (ws & RS & TS). exists (VList ws). split.
    + cbn [ser]. now apply read_seq.
    + intros [|fuel] Lf; [cbn in Lf; lia|]. rewrite (typify_unfold sys fuel _ _ _ (type_of_find sys _ _ W F)). cbn [typify_ty].
      rewrite TS; [reflexivity|]. cbn in Lf. apply le_S_n in Lf. apply list_max_le in Lf. now apply Forall_map in Lf.
  - (* restricted string *) intros id fs a1 a2 mn mx s F RS A L IA NB D. exists (VStr s). split.
    + cbn [ser read]. cbn in D. now rewrite D.
    + intros fuel Lf. apply (typify_typed false c sys W K B); [eapply HT_rstring; eauto|exact NB|exact Lf].
  - (* structure *) intros id fs l F N T IH NB D. cbn in D. apply documentable_fields in D.
    assert (NBs : Forall (fun f => sys_find sys f <> Some (TPrim P_BYTE)) (map snd fs)).
    { apply Forall_forall. intros f I X.
      edestruct (B id) as [_ [[? Y]|[? [Y _]]]]; [exact F|exact I|exact X|discriminate Y|discriminate Y]. }
    assert (Q : Forall2 reread (map snd fs) (map snd l)).
    { clear -IH D NBs. induction IH as [|f x fs' l' Hx Hl IH]; constructor; inversion D; inversion NBs; subst; auto. }
    pose proof (wf_types _ W _ _ F) as ND. cbn in ND.
    destruct (reread_struct fs l ND N Q) as (ws & RS & TS). exists (VStruct (combine (map fst l) ws)). split.
    + apply read_map; [exact RS|now rewrite N|]. rewrite N, Forall_map. exact (V _ _ F).
    + intros [|fuel] Lf; [cbn in Lf; lia|]. rewrite (typify_unfold sys fuel _ _ _ (type_of_find sys _ _ W F)). cbn [typify_ty].
      replace (lenN (combine (map fst l) ws) =? lenN fs) with true.
      2: { symmetry. apply N.eqb_eq. unfold lenN. rewrite combine_length, map_length, <- (Forall2_len RS), map_length, Nat.min_id.
           rewrite <- (map_length fst l), N, map_length. reflexivity. }
      cbn [negb]. rewrite TS; [reflexivity|]. cbn in Lf. apply le_S_n in Lf. apply list_max_le in Lf. now apply Forall_map in Lf.
  - (* byte array *) intros id r len b F BI L C NB D. cbn in D. subst b. exfalso. unfold lenN in L. cbn in L. subst len.
    exact (NE _ _ F).
  - (* array *) intros id r len l A. discriminate A.
  - (* characters *) intros id r rt a mn mx s F FR CT A L IA NB D. exists (VStr s). split.
    + cbn [ser read]. cbn in D. now rewrite D.
    + intros fuel Lf. apply (typify_typed false c sys W K B); [eapply HT_chars; eauto|exact NB|exact Lf].
  - (* bytes *) intros id r rt mn mx b F FR CT BI M L NB D. cbn in D. subst b. exists (VStr ""). split.
    + cbn [ser read]. change (to_hex []) with ""%string. destruct (rb "") as [n|] eqn:E; [|reflexivity].
      apply RB in E. cbn in E. lia.
    + intros [|fuel] Lf; [cbn in Lf; lia|]. rewrite (typify_unfold sys fuel _ _ _ (type_of_find sys _ _ W F)). cbn [typify_ty].
      destruct L as (_ & _ & L). change (slen "") with 0. change (lenN []) with 0 in L. rewrite sizing_check_ok by (apply L; reflexivity). cbn [negb].
      rewrite (proj1 (byte_item_iff r)) by assumption.
      replace (is_unicode_id r) with false; [reflexivity|]. symmetry. apply not_true_is_false. intros X. apply unicode_item_iff in X.
      destruct K as (K1 & K2 & K3). unfold unicode_item in X. subst r. pose proof (K3 _ FR). subst rt.
      destruct BI as [E|E]; rewrite E in FR; [apply K1 in FR|apply K2 in FR]; discriminate FR.
  - (* text *) intros id r rt mn mx s F FR CT NBI UI M U L NB D. exists (VStr s). split.
    + cbn [ser read]. cbn in D. now rewrite D.
    + intros fuel Lf. apply (typify_typed false c sys W K B); [eapply HT_text; eauto|exact NB|exact Lf].
  - (* list *) intros id r rt mn mx l F FR CT ML L T IH NB [D NT]. apply documentable_list in D.
    assert (NBr : sys_find sys r <> Some (TPrim P_BYTE)).
    { intros X. edestruct (B id) as [Y [[? Z]|[s [Z Z']]]]; [exact F|left; reflexivity|exact X|discriminate Z|].
      injection Z as <-. cbn in Z'. now apply ML in Z'. }
    assert (Q : Forall (reread r) l) by (rewrite Forall_forall in *; auto).
    destruct (reread_list r l Q) as (ws & RS & TS). exists (VList ws). split.
    + cbn [ser]. now apply read_seq.
    + intros [|fuel] Lf; [cbn in Lf; lia|]. rewrite (typify_unfold sys fuel _ _ _ (type_of_find sys _ _ W F)). cbn [typify_ty].
      destruct L as (_ & _ & L). replace (lenN ws) with (lenN l) by (unfold lenN; now rewrite (Forall2_len RS)).
      rewrite sizing_check_ok by (apply L; reflexivity). cbn [negb].
      rewrite TS; [reflexivity|]. cbn in Lf. apply le_S_n in Lf. apply list_max_le in Lf. now apply Forall_map in Lf.
  - (* set *) intros id r mn mx l F L T IH ND NB [].
  - (* map *) intros id k r mn mx l F L T1 IH1 T2 IH2 ND NB [].
Qed.
End Reread.

(** ** Documents *)
Lemma each_all {E A B} (f : A -> outcome E B) l r : Forall2 (fun a b => f a = Ok b) l r -> each f l = Ok r.
Proof. induction 1 as [|a b l r H F IH]; [reflexivity|]. cbn [each]. fold (each f). rewrite H. cbn. rewrite IH. reflexivity. Qed.

Section NatInd.
Variables (toml : bool) (c : config) (sys : type_system).
Local Notation ND := (natural toml c sys).
Variable P : semid -> doc -> sval -> Prop.
Local Notation canonical := (mkMode true false).
Hypothesis H_unit : forall id, toml = false -> sys_find sys id = Some (TPrim P_UNIT) -> P id DNull VUnit.
Hypothesis H_uint : forall id p w n, toml = false -> sys_find sys id = Some (TPrim p) -> uint_width p = Some w -> n < 2 ^ (8 * w) ->
  P id (DNum (Z.of_N n)) (VNum (Uint n)).
Hypothesis H_int : forall id p w z, sys_find sys id = Some (TPrim p) -> int_width p = Some w ->
  (- 2 ^ (8 * Z.of_N w - 1) <= z < 2 ^ (8 * Z.of_N w - 1))%Z -> P id (DNum z) (VNum (Int z)).
Hypothesis H_enum : forall id vs x, sys_find sys id = Some (TEnum vs) -> In x vs -> identifier (v_name x) ->
  (forall b, sbytes (v_name x) = [b] -> ~ In (Byte.to_N b) (map v_tag vs)) -> P id (DStr (v_name x)) (VEnum (Name (v_name x))).
Hypothesis H_enum_tag : forall id vs x, toml = false -> sys_find sys id = Some (TEnum vs) -> In x vs ->
  P id (DNum (Z.of_N (v_tag x))) (VEnum (Name (v_name x))).
Hypothesis H_bool : forall id vs x b, sys_find sys id = Some (TEnum vs) -> In x vs -> v_tag x = (if b : bool then 1 else 0) ->
  P id (DBool b) (VEnum (Name (v_name x))).
Hypothesis H_none : forall id r u, toml = false -> sys_find sys id = Some (TUnion [(mkVariant "none" 0, u); (mkVariant "some" 1, r)]) ->
  sys_find sys u = Some (TPrim P_UNIT) -> P id DNull (VUnion (Name "none") VUnit).
Hypothesis H_some : forall id r u d w, sys_find sys id = Some (TUnion [(mkVariant "none" 0, u); (mkVariant "some" 1, r)]) ->
  d <> DNull -> P r d w -> P id d (VUnion (Name "some") w).
Hypothesis H_tuple : forall id fs ps, sys_find sys id = Some (TTuple fs) ->
  (forall a1 a2 min max, ~ restricted_string sys fs a1 a2 min max) ->
  Forall2 (fun r p => P r (fst p) (snd p)) fs ps -> P id (DSeq (map fst ps)) (VTuple (map snd ps)).
Hypothesis H_newtype : forall id r d w, sys_find sys id = Some (TTuple [r]) -> (forall l, d <> DSeq l) -> P r d w -> P id d (VTuple [w]).
Hypothesis H_text : forall id s, has_type canonical c sys id (VStr s) -> P id (DStr s) (VStr s).
Hypothesis H_bytes : forall id r rt min max b,
  sys_find sys id = Some (TList r (mkSizing min max)) -> sys_find sys r = Some rt ->
  chars_type rt = None -> byte_item r -> max < 2 ^ 32 -> len_ok canonical c min max (lenN b) -> P id (DStr (bstring b)) (VBytes b).
Hypothesis H_byte_array : forall id r len b,
  sys_find sys id = Some (TArray r len) -> byte_item r -> lenN b = len -> len <= cap c -> ascii_text (bstring b) ->
  P id (DStr (bstring b)) (VBytes b).
Hypothesis H_struct : forall id fs l qs,
  sys_find sys id = Some (TStruct fs) -> map fst qs = map fst fs -> Forall (fun f => identifier (fst f)) fs ->
  Forall2 (fun r p => P r (fst p) (snd p)) (map snd fs) (map snd qs) ->
  Permutation l (map (fun q => (DStr (fst q), fst (snd q))) qs) ->
  P id (DMap l) (VStruct (map (fun q => (fst q, snd (snd q))) qs)).
Hypothesis H_list : forall id r rt min max ps,
  sys_find sys id = Some (TList r (mkSizing min max)) -> sys_find sys r = Some rt ->
  chars_type rt = None -> (max < 2 ^ 32 -> ~ byte_item r /\ ~ unicode_item r) ->
  len_ok canonical c min max (lenN ps) -> Forall (fun p => P r (fst p) (snd p)) ps ->
  P id (DSeq (map fst ps)) (VList (map snd ps)).
Hypothesis H_map : forall id k r min max ks ps,
  sys_find sys id = Some (TMap k r (mkSizing min max)) ->
  len_ok canonical c min max (lenN ps) -> List.length ks = List.length ps ->
  Forall (fun p => P k (fst p) (snd p)) ks -> Forall (fun p => P r (fst p) (snd p)) ps -> NoDup (map snd ks) ->
  P id (DMap (combine (map fst ks) (map fst ps))) (VMap (combine (map snd ks) (map snd ps))).

Fixpoint natural_ind' id d w (h : ND id d w) {struct h} : P id d w.
Proof.
  assert (F2 : forall fs (ps : list (doc * sval)), Forall2 (fun r p => ND r (fst p) (snd p)) fs ps ->
                 Forall2 (fun r p => P r (fst p) (snd p)) fs ps).
  { fix go 3. intros fs ps h2. destruct h2; constructor; [apply natural_ind'; assumption|apply go; assumption]. }
  assert (F1 : forall r (ps : list (doc * sval)), Forall (fun p => ND r (fst p) (snd p)) ps -> Forall (fun p => P r (fst p) (snd p)) ps).
  { intros r. fix go 2. intros l h1. destruct h1; constructor; [apply natural_ind'; assumption|apply go; assumption]. }
  destruct h.
  - now apply H_unit.
  - eapply H_uint; eauto.
  - eapply H_int; eauto.
  - eapply H_enum; eauto.
  - eapply H_enum_tag; eauto.
  - eapply H_bool; eauto.
  - eapply H_none; eauto.
  - eapply H_some; eauto.
  - eapply H_tuple; eauto.
  - eapply H_newtype; eauto.
  - eapply H_text; eauto.
  - eapply H_bytes; eauto.
  - eapply H_byte_array; eauto.
  - eapply H_struct; eauto.
  - eapply H_list; eauto.
  - eapply H_map; eauto.
Qed.
End NatInd.

(** What documents do not give. *)
Lemma convert_not toml d : (forall g x, convert toml d <> Ok (VUnion g x)) /\ (forall l, convert toml d <> Ok (VTuple l))
  /\ (forall l, convert toml d <> Ok (VSet l)) /\ (convert toml d = Ok VUnit -> d = DNull)
  /\ (forall l, convert toml d = Ok (VList l) -> exists l', d = DSeq l').
Proof.
  destruct toml, d as [|b|z| |s|l|l]; cbn; (split; [|split; [|split; [|split]]]); intros; try discriminate; eauto; destruct (each _ l); discriminate.
Qed.
Lemma convert_seq toml l : convert toml (DSeq l) = let* l' := each (convert toml) l in Ok (VList l').
Proof. destruct toml; reflexivity. Qed.
Lemma convert_map toml l : convert toml (DMap l) =
  let* l' := each (fun e => let* k := convert toml (fst e) in let* v := convert toml (snd e) in Ok (k, v)) l in Ok (VMap l').
Proof. destruct toml; reflexivity. Qed.
Lemma convert_str toml s : convert toml (DStr s) = Ok (VStr s).
Proof. destruct toml; reflexivity. Qed.

Section Docs.
Variables (toml : bool) (c : config) (sys : type_system).
Hypothesis W : wf_sys sys.
Definition gives id d w := exists v, convert toml d = Ok v /\ denotes c sys id v w.
Lemma gives_list (Q : doc * sval -> semid) ps : Forall (fun p => gives (Q p) (fst p) (snd p)) ps -> exists vs : list (sval * sval),
  Forall2 (fun d v => convert toml d = Ok v) (map fst ps) (map fst vs) /\ map snd vs = map snd ps
  /\ Forall2 (fun p q => denotes c sys (Q p) (fst q) (snd q)) ps vs.
Proof.
  induction 1 as [|[d w] ps (v & R & T) _ (vs & RS & E & TS)]; [exists []; repeat split; constructor|].
  exists ((v, w) :: vs). cbn in *. split; [now constructor|]. split; [now f_equal|]. now constructor.
Qed.
Lemma gives_zip fs ps : Forall2 (fun r p => gives r (fst p) (snd p)) fs ps -> exists vs : list (sval * sval),
  Forall2 (fun d v => convert toml d = Ok v) (map fst ps) (map fst vs) /\ map snd vs = map snd ps
  /\ Forall2 (fun r q => denotes c sys r (fst q) (snd q)) fs vs.
Proof.
  induction 1 as [|r [d w] fs ps (v & R & T) _ (vs & RS & E & TS)]; [exists []; repeat split; constructor|].
  exists ((v, w) :: vs). cbn in *. split; [now constructor|]. split; [now f_equal|]. now constructor.
Qed.
Lemma each_perm {A B E} (f : A -> outcome E B) l l' r : Permutation l l' -> Forall2 (fun a b => f a = Ok b) l' r ->
  exists r', Permutation r' r /\ Forall2 (fun a b => f a = Ok b) l r'.
Proof.
  intros P. revert r. induction P as [|x l l' P IH|x y l|l1 l2 l3 P1 IH1 P2 IH2]; intros r F.
  - inversion F; subst. exists []. auto.
  - inversion F; subst. destruct (IH _ H3) as (r' & P' & F'). exists (y :: r'). auto.
  - inversion F; subst. inversion H3; subst. eexists. split; [apply perm_swap|]. auto.
  - destruct (IH2 _ F) as (r2 & Q2 & F2). destruct (IH1 _ F2) as (r1 & Q1 & F1). exists r1. split; [etransitivity; eauto|auto].
Qed.
Lemma sbytes_bstring b : sbytes (bstring b) = b.
Proof. unfold sbytes, bstring. rewrite list_byte_of_string_of_list_byte. reflexivity. Qed.

Lemma natural_gives id d w : natural toml c sys id d w -> gives id d w.
Proof.
  revert id d w. apply (natural_ind' toml c sys gives).
  - intros id TM F. exists VUnit. split; [now rewrite TM|]. apply DN_unit; [exact F|now left].
  - intros id p w n TM F U L. exists (VNum (Uint n)). split; [rewrite TM; cbn; unfold from_number|now apply (DN_uint c sys id p w n)].
    replace (0 <=? Z.of_N n)%Z with true by (symmetry; apply Z.leb_le; lia). now rewrite N2Z.id.
  - intros id p w z F U L. unfold gives. destruct toml eqn:TM; [exists (VNum (Int z)); split; [reflexivity|now apply (DN_int c sys id p w)]|].
    cbn. unfold from_number. destruct (Z.leb_spec 0 z).
    + eexists. split; [reflexivity|]. rewrite <- (Z2N.id z) at 2 by assumption. apply (DN_natural c sys id p w); [exact F|exact U|].
      assert (0 < w) by (unfold int_width in U; repeat (destruct (_ =? _); [injection U as <-; lia|]); discriminate U).
      assert (E : Z.of_N (2 ^ (8 * w - 1)) = (2 ^ (8 * Z.of_N w - 1))%Z) by (rewrite N2Z.inj_pow; f_equal; lia). lia.
    + eexists. split; [reflexivity|]. now apply (DN_int c sys id p w).
  - intros id vs x F I ID NT. exists (VStr (v_name x)). split; [apply convert_str|]. now apply (DN_enum_text c sys id vs).
  - intros id vs x TM F I. exists (VNum (Uint (v_tag x))). split; [rewrite TM; cbn; unfold from_number|].
    + replace (0 <=? Z.of_N (v_tag x))%Z with true by (symmetry; apply Z.leb_le; lia). now rewrite N2Z.id.
    + apply (DN_enum c sys id vs x); [exact F|exact I|right; right; left; reflexivity].
  - intros id vs x b F I T. exists (VEnum (Ord (v_tag x))). split; [rewrite T; now destruct toml, b|].
    apply (DN_enum c sys id vs x); [exact F|exact I|right; left; reflexivity].
  - intros id r u TM F FU. exists VUnit. split; [now rewrite TM|]. eapply DN_none; [exact F|exact FU|now left].
  - intros id r u d w F ND (v & R & T). exists v. split; [exact R|]. eapply DN_content; [exact F| |exact T].
    split; [intros ->; now apply ND, (proj2 (proj2 (proj2 (convert_not toml d))))|]. split; [intros t x ->; exact (proj1 (convert_not toml d) _ _ R)|intros x y ->; exact (proj1 (proj2 (convert_not toml d)) _ R)].
  - intros id fs ps F NR H. destruct (gives_zip fs ps H) as (vs & RS & E & TS). exists (VList (map fst vs)). split.
    + rewrite convert_seq. rewrite (each_all _ _ _ RS). reflexivity.
    + rewrite <- E. eapply DN_tuple; [exact F|exact NR|exact TS|now right].
  - intros id r d w F ND (v & R & T). exists v. split; [exact R|]. apply (DN_newtype c sys id r v w F).
    + intros l ->. exact (proj1 (proj2 (convert_not toml d)) _ R).
    + intros l ->. apply (proj2 (proj2 (proj2 (convert_not toml d)))) in R as [l' E]. exact (ND l' E).
    + exact T.
  - intros id s T. exists (VStr s). split; [apply convert_str|now apply DN_text].
  - intros id r rt mn mx b F FR CT BI M L. exists (VStr (bstring b)). split; [apply convert_str|].
    eapply DN_bytes; [exact F|exact FR|exact CT|exact BI|exact M|exact L|]. right. exists (bstring b). split; [reflexivity|apply sbytes_bstring].
  - intros id r len b F BI L C A. exists (VStr (bstring b)). split; [apply convert_str|].
    eapply DN_byte_array; [exact F|exact BI|exact L|exact C|]. right. exists (bstring b). split; [reflexivity|]. split; [apply sbytes_bstring|exact A].
  - intros id fs l qs F N I H PM. destruct (gives_zip _ _ H) as (vs & RS & E & TS).
    assert (LEN : List.length qs = List.length vs) by (apply Forall2_len in RS; rewrite !map_length in RS; exact RS).
    set (qs' := combine (map fst qs) vs).
    assert (E1 : map fst qs' = map fst qs).
    { unfold qs'. clear -LEN. revert vs LEN. induction qs as [|q qs IH]; intros [|v vs] L; try discriminate; [reflexivity|]. cbn. f_equal. apply IH. cbn in L. lia. }
    assert (E2 : map snd qs' = vs).
    { unfold qs'. clear -LEN. revert vs LEN. induction qs as [|q qs IH]; intros [|v vs] L; try discriminate; [reflexivity|]. cbn. f_equal. apply IH. cbn in L. lia. }
    assert (E3 : map (fun q => (fst q, snd (snd q))) qs = map (fun q => (fst q, snd (snd q))) qs').
    { unfold qs'. clear -LEN E. revert vs LEN E. induction qs as [|q qs IH]; intros [|v vs] L E; try discriminate; [reflexivity|]. cbn in *.
      injection E as E0 E. f_equal; [now rewrite E0|]. apply IH; [lia|exact E]. }
    destruct (each_perm (fun e : doc * doc => let* k := convert toml (fst e) in let* v := convert toml (snd e) in Ok (k, v)) _ _
      (map (fun q => (VStr (fst q), fst (snd q))) qs') PM) as (r & PR & FR).
    { unfold qs'. clear -RS LEN. revert vs LEN RS. induction qs as [|q qs IH]; intros [|v vs] L RS; try discriminate; [constructor|].
      cbn in *. inversion RS; subst. constructor; [|apply IH; [lia|assumption]]. cbn [fst snd]. rewrite convert_str. cbn [bind]. rewrite H2. reflexivity. }
    exists (VMap r). split.
    + rewrite convert_map. rewrite (each_all _ _ _ FR). reflexivity.
    + rewrite E3. eapply DN_struct_map; [exact F|now rewrite E1|now rewrite E2|exact PR|exact I].
  - intros id r rt mn mx ps F FR CT ML L H. destruct (gives_list (fun _ => r) ps H) as (vs & RS & E & TS). exists (VList (map fst vs)). split.
    + rewrite convert_seq. rewrite (each_all _ _ _ RS). reflexivity.
    + rewrite <- E. eapply DN_list; [exact F|exact FR|exact CT|exact ML| |].
      * replace (lenN vs) with (lenN ps) by (unfold lenN; now rewrite (Forall2_len TS)). exact L.
      * clear -TS. induction TS; constructor; auto.
  - intros id k r mn mx ks ps F L LE H1 H2 NDk.
    destruct (gives_list (fun _ => k) ks H1) as (kv & RK & EK & TK). destruct (gives_list (fun _ => r) ps H2) as (vs & RS & E & TS).
    exists (VMap (combine (map fst kv) (map fst vs))). split.
    + rewrite convert_map. rewrite (each_all _ _ (combine (map fst kv) (map fst vs))); [reflexivity|]. clear -RK RS.
      revert RS. generalize (map fst ps) (map fst vs). induction RK as [|d v l1 l2 H RK IH]; intros m1 m2 RS; [constructor|].
      destruct RS as [|d' v' m1 m2 H' RS]; [constructor|]. cbn. constructor; [cbn; rewrite H; cbn; rewrite H'; reflexivity|now apply IH].
    + rewrite <- EK, <- E. eapply DN_map; [exact F| | | | |now rewrite EK].
      * replace (lenN vs) with (lenN ps) by (unfold lenN; now rewrite (Forall2_len TS)). exact L.
      * rewrite <- (Forall2_len TK), <- (Forall2_len TS). exact LE.
      * clear -TK. induction TK; constructor; auto.
      * clear -TS. induction TS; constructor; auto.
Qed.
End Docs.
