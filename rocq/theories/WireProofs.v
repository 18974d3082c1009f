(** Deserialization accepts exactly the bytes described by the specification of the binary format. *)
From Coq Require Import NArith ZArith List Bool String Ascii Strings.Byte Lia.
From Verif Require Import Base Ty Ids Val TypeSys Encode Decode DecodeShort SpecUtf8 Utf8Proofs Spec CodecLemmas RoundTrip ReadLemmas Sound
  WriteLemmas CodecProofs SpecWire.
Import ListNotations.
Local Open Scope N_scope.

Scheme wire_mut := Minimality for wire Sort Prop
  with wires_mut := Minimality for wires Sort Prop.

Lemma le_number_unle bs : le_number bs = unle bs.
Proof. induction bs as [|b r IH]; [reflexivity|]. cbn. now rewrite IH. Qed.

Lemma read_uint_app k bs rest : List.length bs = k -> read_uint k (bs ++ rest) = Ok (le_number bs, rest).
Proof. intros H. unfold read_uint. rewrite take_app' by assumption. reflexivity. Qed.

Lemma read_uint_split k d n rest : read_uint k d = Ok (n, rest) ->
  exists bs, d = bs ++ rest /\ List.length bs = k /\ n = le_number bs.
Proof.
  unfold read_uint. destruct (take k d) as [[b r]|] eqn:E; [|discriminate]. cbn. intros [= <- <-].
  apply take_Some in E as [-> L]. exists b. auto.
Qed.

Lemma untwos_signed bs : untwos (List.length bs) (le_number bs) = le_signed bs.
Proof.
  unfold untwos, le_signed, lenN.
  assert (E : (Z.of_N (2 ^ (8 * N.of_nat (List.length bs))) = 2 ^ (8 * Z.of_nat (List.length bs)))%Z).
  { rewrite N2Z.inj_pow, N2Z.inj_mul, nat_N_Z. reflexivity. }
  rewrite E. set (x := le_number bs) in *. clearbody x.
  destruct (Z.ltb_spec (2 * Z.of_N x) (2 ^ (8 * Z.of_nat (List.length bs)))%Z),
    (N.ltb_spec (2 * x) (2 ^ (8 * N.of_nat (List.length bs)))); reflexivity || lia.
Qed.

Lemma read_len_prefix sz n p rest : len_prefix (s_max sz) n p -> read_len sz (p ++ rest) = Ok (n, rest).
Proof.
  intros [L <-]. unfold read_len. rewrite read_uint_app; [reflexivity|].
  rewrite <- len_width_byte_size, <- L. unfold lenN. lia.
Qed.

Lemma read_len_split sz d n rest : read_len sz d = Ok (n, rest) ->
  exists p, d = p ++ rest /\ len_prefix (s_max sz) n p.
Proof.
  unfold read_len. intros H. apply read_uint_split in H as [p [-> [L ->]]]. exists p. split; [reflexivity|].
  split; [|reflexivity]. rewrite len_width_byte_size. unfold lenN. lia.
Qed.

(** ** All sequences as sequences of types *)

Lemma read_n_seq (rec : semid -> bytes -> reading sval) r n d : read_n (rec r) n d = read_seq rec (repeat r n) d.
Proof.
  revert d. induction n as [|n IH]; intros d; [reflexivity|]. cbn [read_n repeat read_seq].
  destruct (rec r d) as [[v d']|e| |]; cbn [bind]; try reflexivity. now rewrite IH.
Qed.

Lemma read_fields_seq (rec : semid -> bytes -> reading sval) (fs : list (string * semid)) d :
  read_seq (fun f d => let* (v, d) := rec (snd f) d in Ok ((fst f, v), d)) fs d
  = (let* (l, d) := read_seq rec (map snd fs) d in Ok (combine (map fst fs) l, d)).
Proof.
  revert d. induction fs as [|f fs IH]; intros d; [reflexivity|]. cbn [map read_seq combine].
  destruct (rec (snd f) d) as [[v d']|e| |]; cbn [bind]; try reflexivity. rewrite IH.
  destruct (read_seq rec (map snd fs) d') as [[l d'']|e| |]; reflexivity.
Qed.

Fixpoint pairs {A} (l : list A) : list (A * A) :=
  match l with
  | a :: b :: r => (a, b) :: pairs r
  | _ => []
  end.

Lemma pairs_in_turn {A} (l : list (A * A)) : pairs (in_turn l) = l.
Proof. induction l as [|[a b] l IH]; [reflexivity|]. cbn. unfold in_turn in IH. now rewrite IH. Qed.

Lemma read_map_seq (rec : semid -> bytes -> reading sval) k r n d :
  read_n (fun d => let* (k, d) := rec k d in let* (v, d) := rec r d in Ok ((k, v), d)) n d
  = (let* (l, d) := read_seq rec (in_turn (repeat (k, r) n)) d in Ok (pairs l, d)).
Proof.
  revert d. induction n as [|n IH]; intros d; [reflexivity|]. cbn [read_n repeat in_turn flat_map app fst snd read_seq].
  destruct (rec k d) as [[x d1]|e| |]; cbn [bind]; try reflexivity.
  destruct (rec r d1) as [[y d2]|e| |]; cbn [bind]; try reflexivity. rewrite IH.
  unfold in_turn. destruct (read_seq rec _ d2) as [[l d3]|e| |]; reflexivity.
Qed.

Lemma wires_length mem sys ids l bs : wires mem sys ids l bs -> List.length ids = List.length l.
Proof. induction 1; cbn; congruence. Qed.

Lemma in_turn_length {A} (l : list (A * A)) : List.length (in_turn l) = (2 * List.length l)%nat.
Proof. induction l; [reflexivity|]. cbn. unfold in_turn in IHl. rewrite IHl. lia. Qed.

Lemma pairs_length {A} n (l : list A) : List.length l = (2 * n)%nat -> List.length (pairs l) = n /\ in_turn (pairs l) = l.
Proof.
  revert l. induction n as [|n IH]; intros l H.
  - destruct l; [split; reflexivity|discriminate].
  - destruct l as [|a [|b l]]; cbn in H; try lia. cbn [pairs in_turn flat_map app fst snd List.length].
    destruct (IH l) as [A1 A2]; [lia|]. unfold in_turn in A2. now rewrite A1, A2.
Qed.

(** ** Every accepted input is as specified *)
Section Sound.
Variables (c : config) (sys : type_system).
Hypothesis W : wf_sys sys.
Notation wire := (wire (cap c) sys).
Notation wires := (wires (cap c) sys).

Lemma read_seq_wires (rec : semid -> bytes -> reading sval) ids :
  (forall id d v rest, rec id d = Ok (v, rest) -> exists bs, d = bs ++ rest /\ wire id v bs) ->
  forall d l rest, read_seq rec ids d = Ok (l, rest) -> exists bs, d = bs ++ rest /\ wires ids l bs.
Proof.
  intros R. induction ids as [|id ids IH]; intros d l rest H; cbn [read_seq] in H.
  - injection H as <- <-. exists []. split; [reflexivity|constructor].
  - apply bind_Ok in H as [[v d1] [H1 H]]. apply bind_Ok in H as [[vs d2] [H2 H]]. injection H as <- <-.
    apply R in H1 as [b [-> H1]]. apply IH in H2 as [bs [-> H2]].
    exists (b ++ bs). split; [now rewrite app_assoc|]. now constructor.
Qed.

Lemma read_raw_split len d b rest : read_raw c len d = Ok (b, rest) -> d = b ++ rest /\ lenN b = len /\ len <= cap c.
Proof. intros H. apply read_raw_inv in H as [-> [L1 L2]]. auto. Qed.

Lemma ascii_bytes_text b : ascii_bytes b = true -> ascii_text (bstring b).
Proof. intros H. apply ascii_text_iff. unfold is_ascii. now rewrite sbytes_bstring. Qed.

Lemma prim_wire id p d v rest : sys_find sys id = Some (TPrim p) -> read_prim p d = Ok (v, rest) ->
  exists bs, d = bs ++ rest /\ wire id v bs.
Proof.
  intros F H.
  destruct (uint_width p) as [w|] eqn:U.
  { destruct (uint_width_cases _ _ U) as [_ [_ R]]. rewrite R in H.
    apply bind_Ok in H as [[n d1] [H1 H]]. injection H as <- <-.
    apply read_uint_split in H1 as [bs [-> [L ->]]]. exists bs. split; [reflexivity|].
    eapply W_uint; eauto. unfold lenN. lia. }
  destruct (int_width p) as [w|] eqn:I.
  { destruct (int_width_cases _ _ I) as [_ [_ R]]. rewrite R in H. unfold read_int in H.
    apply bind_Ok in H as [[n d1] [H1 H]]. apply bind_Ok in H1 as [[z d2] [H2 H1]].
    injection H1 as <- <-. injection H as <- <-.
    apply read_uint_split in H2 as [bs [-> [L ->]]]. exists bs. split; [reflexivity|].
    rewrite <- L, untwos_signed. eapply W_int; eauto. unfold lenN. lia. }
  apply prim_cases in H as [[-> [-> ->]]|[[w [n [U' _]]]|[w [z [I' _]]]]]; [|congruence|congruence].
  exists []. split; [reflexivity|]. now constructor.
Qed.

Lemma read_wire fuel : forall id d v rest,
  read_type fuel c sys id d = Ok (v, rest) -> exists bs, d = bs ++ rest /\ wire id v bs.
Proof.
  induction fuel as [|fuel IH]; intros id d v rest H; [discriminate|].
  cbn [read_type] in H. destruct (sys_find sys id) as [t|] eqn:F; [|discriminate]. cbn [ok_or bind] in H.
  rewrite short_read in H. pose proof (wf_types _ W _ _ F) as WT.
  assert (SQ : forall ids d l rest, read_seq (read_type fuel c sys) ids d = Ok (l, rest) ->
    exists bs, d = bs ++ rest /\ wires ids l bs) by (intros ids; apply read_seq_wires; exact IH).
  assert (RA : forall sz d v rest, read_ascii c sz d = Ok (v, rest) ->
    exists p bs, d = (p ++ bs) ++ rest /\ v = VStr (bstring bs) /\ len_prefix (s_max sz) (lenN bs) p /\ lenN bs <= cap c
      /\ ascii_text (bstring bs)).
  { clear. intros sz d v rest H. unfold read_ascii in H. apply bind_Ok in H as [[len d1] [H1 H]].
    apply read_len_split in H1 as [p [-> P]]. apply bind_Ok in H as [[b d2] [H2 H]].
    apply read_raw_split in H2 as [-> [<- L]]. destruct (ascii_bytes b) eqn:A; [|discriminate]. injection H as <- <-.
    exists p, b. rewrite app_assoc. apply ascii_bytes_text in A. auto. }
  destruct t; cbn [short_ty] in H.
  - eapply prim_wire; eauto.
  - discriminate.
  - (* enum *)
    apply bind_Ok in H as [[tag d1] [H1 H]]. apply read_uint_split in H1 as [bs [-> [L ->]]].
    destruct bs as [|b [|]]; try discriminate L. cbn [le_number] in H. rewrite N.mul_0_r, N.add_0_r in H.
    unfold ev_name_by_tag in H. destruct (ev_by_tag vs (Byte.to_N b)) as [vr|] eqn:E; [|discriminate].
    cbn [option_map ok_or bind] in H. injection H as <- <-. apply find_In in E as [I E]. apply N.eqb_eq in E.
    exists [b]. split; [reflexivity|]. econstructor; eauto.
  - (* union *)
    apply bind_Ok in H as [[tag d1] [H1 H]]. apply read_uint_split in H1 as [bs [-> [L ->]]].
    destruct bs as [|b [|]]; try discriminate L. cbn [le_number] in H. rewrite N.mul_0_r, N.add_0_r in H.
    destruct (uv_by_tag vs (Byte.to_N b)) as [[vr r]|] eqn:E; [|discriminate]. cbn [ok_or bind fst snd] in H.
    apply bind_Ok in H as [[w d2] [H2 H]]. injection H as <- <-. apply find_In in E as [I E]. apply N.eqb_eq in E.
    apply IH in H2 as [bs [-> H2]]. exists (b :: bs). split; [reflexivity|]. econstructor; eauto.
  - (* tuple *)
    destruct (is_rstring c sys fs) as [b|[]| |] eqn:RS; try discriminate. cbn [lift_unknown bind] in H.
    pose proof (is_rstring_inv _ _ _ _ _ W F RS) as RS'. destruct b.
    + destruct RS' as [a1 [a2 [mn [mx RS']]]].
      destruct (is_rstring_true c _ _ _ _ _ _ _ W F RS') as [_ [r E]]. rewrite E in H.
      cbn [lift_unknown bind expect snd] in H. apply RA in H as [p [bs [-> [-> [P [L A]]]]]].
      exists (p ++ bs). split; [reflexivity|]. eapply W_rstring; eauto. reflexivity.
    + apply bind_Ok in H as [[l d1] [H1 H2]]. injection H2 as <- <-. apply SQ in H1 as [bs [-> H1]].
      exists bs. split; [reflexivity|]. eapply W_tuple; eauto.
  - (* structure *)
    rewrite read_fields_seq in H. apply bind_Ok in H as [[l d1] [H1 H2]]. injection H2 as <- <-.
    apply bind_Ok in H1 as [[l0 d2] [H1 H2]]. injection H2 as <- <-. apply SQ in H1 as [bs [-> H1]].
    pose proof (wires_length _ _ _ _ _ H1) as L. rewrite map_length in L.
    assert (M1 : map fst (combine (map fst fs) l0) = map fst fs).
    { clear -L. revert l0 L. induction fs; intros [|x l0] L; cbn in *; try discriminate; [reflexivity|]. f_equal. auto. }
    assert (M2 : map snd (combine (map fst fs) l0) = l0).
    { clear -L. revert l0 L. induction fs; intros [|x l0] L; cbn in *; try discriminate; [reflexivity|]. f_equal. auto. }
    cbn in WT. rewrite imap_collect by (now rewrite M1).
    exists bs. split; [reflexivity|]. eapply W_struct; eauto. now rewrite M2.
  - (* array *)
    destruct (is_byte_id r) eqn:BI.
    + apply bind_Ok in H as [[b d1] [H1 H2]]. injection H2 as <- <-.
      apply read_raw_split in H1 as [-> [<- L]]. exists b. split; [reflexivity|].
      eapply W_byte_array; eauto. now apply byte_item_iff.
    + apply bind_Ok in H as [u [HA H]]. apply alloc_inv in HA. apply bind_Ok in H as [[l d1] [H1 H2]]. injection H2 as <- <-.
      rewrite read_n_seq in H1. apply SQ in H1 as [bs [-> H1]].
      pose proof (wires_length _ _ _ _ _ H1) as L. rewrite repeat_length in L. rewrite L in H1.
      assert (L' : lenN l = len) by (unfold lenN; lia). subst len.
      exists bs. split; [reflexivity|]. eapply W_array; eauto. now apply byte_item_false.
  - (* list *)
    destruct (sys_find sys r) as [rt|] eqn:FR; [|discriminate]. cbn [ok_or bind] in H.
    destruct s as [mn mx]. cbn [s_max] in *.
    rewrite char_enum_spec in H. destruct (chars_type rt) as [a|] eqn:CT.
    + apply RA in H as [p [bs [-> [-> [P [L A]]]]]].
      exists (p ++ bs). split; [reflexivity|]. eapply W_chars; eauto. reflexivity.
    + destruct (is_byte_id r && (mx <=? u32_max)) eqn:BI.
      { apply andb_true_iff in BI as [BI M]. apply N.leb_le in M. unfold u32_max in M.
        unfold read_blob in H. apply bind_Ok in H as [[len d1] [H1 H]]. apply read_len_split in H1 as [p [-> P]].
        apply bind_Ok in H as [[b d2] [H2 H]]. apply read_raw_split in H2 as [-> [<- L]]. injection H as <- <-.
        exists (p ++ b). split; [now rewrite app_assoc|].
        eapply W_bytes; eauto; [now apply byte_item_iff|lia]. }
      destruct (is_unicode_id r && (mx <=? u32_max)) eqn:UI.
      { apply andb_true_iff in UI as [UI M]. rewrite M, andb_true_r in BI. apply N.leb_le in M. unfold u32_max in M.
        unfold read_string in H. apply bind_Ok in H as [[len d1] [H1 H]]. apply read_len_split in H1 as [p [-> P]].
        apply bind_Ok in H as [[b d2] [H2 H]]. apply read_raw_split in H2 as [-> [<- L]].
        destruct (utf8_valid b) eqn:V; [|discriminate]. injection H as <- <-. apply utf8_spec in V.
        exists (p ++ b). split; [now rewrite app_assoc|].
        eapply W_text; eauto; [now apply byte_item_false|now apply unicode_item_iff|lia|reflexivity]. }
      apply bind_Ok in H as [[len d1] [H1 H]]. apply read_len_split in H1 as [p [-> P]].
      apply bind_Ok in H as [[l d2] [H2 H]]. injection H as <- <-.
      unfold read_list in H2. apply bind_Ok in H2 as [u [HA H2]]. apply alloc_inv in HA.
      rewrite read_n_seq in H2. apply SQ in H2 as [bs [-> H2]].
      pose proof (wires_length _ _ _ _ _ H2) as L. rewrite repeat_length in L. rewrite L in H2.
      assert (L' : lenN l = len) by (unfold lenN; lia). subst len.
      exists (p ++ bs). split; [now rewrite app_assoc|].
      eapply W_list; eauto. intros M. assert (M' : mx <=? u32_max = true) by (apply N.leb_le; unfold u32_max; lia).
      rewrite M', andb_true_r in BI, UI. split; [apply byte_item_false|apply unicode_item_false]; assumption.
  - (* set *)
    apply bind_Ok in H as [[len d1] [H1 H]]. apply read_len_split in H1 as [p [-> P]].
    apply bind_Ok in H as [[l d2] [H2 H]]. injection H as <- <-.
    unfold read_list in H2. apply bind_Ok in H2 as [u [HA H2]]. apply alloc_inv in HA.
    rewrite read_n_seq in H2. apply SQ in H2 as [bs [-> H2]].
    pose proof (wires_length _ _ _ _ _ H2) as L. rewrite repeat_length in L. rewrite L in H2.
    assert (L' : lenN l = len) by (unfold lenN; lia). subst len.
    exists (p ++ bs). split; [now rewrite app_assoc|]. destruct s as [mn mx]. eapply W_set; eauto.
  - (* map *)
    apply bind_Ok in H as [[len d1] [H1 H]]. apply read_len_split in H1 as [p [-> P]].
    apply bind_Ok in H as [[l d2] [H2 H]]. injection H as <- <-.
    unfold read_map in H2. apply bind_Ok in H2 as [u [HA H2]]. apply alloc_inv in HA.
    rewrite read_map_seq in H2. apply bind_Ok in H2 as [[l0 d3] [H2 H3]]. injection H3 as <- <-.
    apply SQ in H2 as [bs [-> H2]].
    pose proof (wires_length _ _ _ _ _ H2) as L. rewrite in_turn_length, repeat_length in L.
    destruct (pairs_length (N.to_nat len) l0 (eq_sym L)) as [L1 L2].
    rewrite <- L2 in H2. rewrite <- L1 in H2 at 1.
    assert (L' : lenN (pairs l0) = len) by (unfold lenN; lia). rewrite <- L' in P, HA.
    exists (p ++ bs). split; [now rewrite app_assoc|]. destruct s as [mn mx]. eapply W_map; eauto.
Qed.

(** ** Every specified input is accepted *)

Lemma wire_read : forall id v bs, wire id v bs ->
  exists n, forall fuel rest, (n <= fuel)%nat -> read_type fuel c sys id (bs ++ rest) = Ok (v, rest).
Proof.
  assert (ST : forall id t v bs, sys_find sys id = Some t ->
    (exists n, forall fuel rest, (n <= fuel)%nat -> short_ty (read_type fuel c sys) c sys id t (bs ++ rest) = Ok (v, rest)) ->
    exists n, forall fuel rest, (n <= fuel)%nat -> read_type fuel c sys id (bs ++ rest) = Ok (v, rest)).
  { intros id t v bs F [n H]. exists (S n). intros [|fuel] rest L; [lia|].
    rewrite (read_type_S _ _ _ _ _ _ F). apply H. lia. }
  assert (RR : forall sz p bs rest, len_prefix (s_max sz) (lenN bs) p -> lenN bs <= cap c -> ascii_text (bstring bs) ->
    read_ascii c sz ((p ++ bs) ++ rest) = Ok (VStr (bstring bs), rest)).
  { intros sz p bs rest P L A. unfold read_ascii. rewrite <- app_assoc, (read_len_prefix _ _ _ _ P). cbn [bind].
    rewrite read_raw_app by assumption. cbn [bind]. apply ascii_text_iff in A. unfold is_ascii in A.
    rewrite sbytes_bstring in A. now rewrite A. }
  assert (UT : forall k (l : list sval), lenN l = N.of_nat k -> N.to_nat (N.of_nat k) = List.length l).
  { intros k l H. unfold lenN in H. lia. }
  intros id v bs H.
  apply (wire_mut (cap c) sys
    (fun id v bs => exists n, forall fuel rest, (n <= fuel)%nat -> read_type fuel c sys id (bs ++ rest) = Ok (v, rest))
    (fun ids l bs => exists n, forall fuel rest, (n <= fuel)%nat ->
       read_seq (read_type fuel c sys) ids (bs ++ rest) = Ok (l, rest))
    ); try exact H; clear id v bs H.
  - intros id F. apply (ST _ _ _ _ F). exists O. intros fuel rest _. reflexivity.
  - intros id p w bs F U L. apply (ST _ _ _ _ F). exists O. intros fuel rest _. cbn [short_ty].
    destruct (uint_width_cases _ _ U) as [_ [_ R]]. rewrite R, read_uint_app by (unfold lenN in L; lia). reflexivity.
  - intros id p w bs F U L. apply (ST _ _ _ _ F). exists O. intros fuel rest _. cbn [short_ty].
    assert (L' : List.length bs = N.to_nat w) by (unfold lenN in L; lia).
    destruct (int_width_cases _ _ U) as [_ [_ R]]. rewrite R. unfold read_int.
    rewrite read_uint_app by assumption. cbn [bind]. now rewrite <- L', untwos_signed.
  - intros id vs v b F I T. apply (ST _ _ _ _ F). exists O. intros fuel rest _. cbn [short_ty].
    destruct (wf_types _ W _ _ F) as [N1 [N2 B]].
    rewrite (read_uint_app 1 [b]) by reflexivity. cbn [bind le_number]. rewrite N.mul_0_r, N.add_0_r, T.
    unfold ev_name_by_tag. rewrite ev_by_tag_In by assumption. reflexivity.
  - intros id vs v r w b bs F I T _ [n H]. apply (ST _ _ _ _ F). exists n. intros fuel rest Hf. cbn [short_ty].
    destruct (wf_types _ W _ _ F) as [N1 [N2 B]].
    change ((b :: bs) ++ rest) with ([b] ++ (bs ++ rest)).
    rewrite (read_uint_app 1 [b]) by reflexivity. cbn [bind le_number]. rewrite N.mul_0_r, N.add_0_r, T.
    change (v_tag v) with (v_tag (fst (v, r))) at 1. rewrite uv_by_tag_In by assumption.
    cbn [ok_or bind snd fst]. rewrite H by assumption. reflexivity.
  - intros id fs l bs F NR HW [n H]. apply (ST _ _ _ _ F). exists (S n). intros fuel rest Hf. cbn [short_ty].
    rewrite (is_rstring_false c sys id fs); try assumption.
    + cbn [lift_unknown bind]. rewrite H by lia. reflexivity.
    + clear -HW. induction HW as [|id v b ids l bs H1 H2 IH]; constructor; auto.
      inversion H1; subst; match goal with X : sys_find sys id = _ |- _ => rewrite X end; congruence || exact I.
  - intros id fs a1 a2 mn mx s p bs F RS P L TX A. unfold text in TX. subst s. apply (ST _ _ _ _ F). exists O. intros fuel rest _. cbn [short_ty].
    destruct (is_rstring_true c _ _ _ _ _ _ _ W F RS) as [E1 [r E2]].
    rewrite E1, E2. cbn [lift_unknown bind expect snd]. now apply RR.
  - intros id fs l bs F NM HW [n H]. apply (ST _ _ _ _ F). exists n. intros fuel rest Hf. cbn [short_ty].
    rewrite read_fields_seq, H by assumption. cbn [bind].
    assert (E : combine (map fst fs) (map snd l) = l).
    { rewrite <- NM. clear. induction l as [|[a b] l IH]; [reflexivity|]. cbn. now rewrite IH. }
    rewrite E. pose proof (wf_types _ W _ _ F) as ND. cbn in ND. rewrite imap_collect by (now rewrite NM). reflexivity.
  - intros id r bs F BI L. apply (ST _ _ _ _ F). exists O. intros fuel rest _. cbn [short_ty].
    rewrite (proj1 (byte_item_iff r)) by assumption. rewrite read_raw_app by assumption. reflexivity.
  - intros id r l bs F BI L HW [n H]. apply (ST _ _ _ _ F). exists n. intros fuel rest Hf. cbn [short_ty].
    rewrite (proj1 (byte_item_false r)) by assumption. rewrite alloc_ok by assumption. cbn [bind].
    rewrite read_n_seq. unfold lenN at 1. rewrite Nat2N.id, H by assumption. reflexivity.
  - intros id r rt a mn mx s p bs F FR CT P L TX A. unfold text in TX. subst s. apply (ST _ _ _ _ F). exists O. intros fuel rest _. cbn [short_ty].
    rewrite FR. cbn [ok_or bind]. rewrite char_enum_spec, CT. now apply RR.
  - intros id r rt mn mx p bs F FR CT BI M P L. apply (ST _ _ _ _ F). exists O. intros fuel rest _. cbn [short_ty].
    rewrite FR. cbn [ok_or bind]. rewrite char_enum_spec, CT. rewrite (proj1 (byte_item_iff r)) by assumption. cbn [s_max].
    replace (mx <=? u32_max) with true by (symmetry; apply N.leb_le; unfold u32_max; lia). cbn [andb].
    unfold read_blob. rewrite <- app_assoc, (read_len_prefix (mkSizing mn mx) _ _ _ P). cbn [bind].
    rewrite read_raw_app by assumption. reflexivity.
  - intros id r rt mn mx s p bs F FR CT BI UI M P L TX V. unfold text in TX. subst s. apply (ST _ _ _ _ F). exists O. intros fuel rest _. cbn [short_ty].
    rewrite FR. cbn [ok_or bind]. rewrite char_enum_spec, CT.
    rewrite (proj1 (byte_item_false r)), (proj1 (unicode_item_iff r)) by assumption. cbn [s_max].
    replace (mx <=? u32_max) with true by (symmetry; apply N.leb_le; unfold u32_max; lia). cbn [andb].
    unfold read_string. rewrite <- app_assoc, (read_len_prefix (mkSizing mn mx) _ _ _ P). cbn [bind].
    rewrite read_raw_app by assumption. cbn [bind]. now rewrite (proj2 (utf8_spec _) V).
  - intros id r rt mn mx l p bs F FR CT NB P L HW [n H]. apply (ST _ _ _ _ F). exists n. intros fuel rest Hf. cbn [short_ty].
    rewrite FR. cbn [ok_or bind]. rewrite char_enum_spec, CT.
    replace (is_byte_id r && (s_max (mkSizing mn mx) <=? u32_max)) with false.
    2:{ cbn [s_max]. destruct (N.leb_spec mx u32_max) as [Lm|]; [|now rewrite andb_false_r].
        destruct NB as [NB1 NB2]; [unfold u32_max in Lm; lia|]. apply byte_item_false in NB1. now rewrite NB1. }
    replace (is_unicode_id r && (s_max (mkSizing mn mx) <=? u32_max)) with false.
    2:{ cbn [s_max]. destruct (N.leb_spec mx u32_max) as [Lm|]; [|now rewrite andb_false_r].
        destruct NB as [NB1 NB2]; [unfold u32_max in Lm; lia|]. apply unicode_item_false in NB2. now rewrite NB2. }
    rewrite <- app_assoc, (read_len_prefix (mkSizing mn mx) _ _ _ P). cbn [bind]. unfold read_list.
    rewrite alloc_ok by assumption. cbn [bind]. rewrite read_n_seq. unfold lenN at 1. rewrite Nat2N.id, H by assumption.
    reflexivity.
  - intros id r mn mx l p bs F P L HW [n H]. apply (ST _ _ _ _ F). exists n. intros fuel rest Hf. cbn [short_ty].
    rewrite <- app_assoc, (read_len_prefix (mkSizing mn mx) _ _ _ P). cbn [bind]. unfold read_list.
    rewrite alloc_ok by assumption. cbn [bind]. rewrite read_n_seq. unfold lenN at 1. rewrite Nat2N.id, H by assumption.
    reflexivity.
  - intros id k r mn mx l p bs F P L HW [n H]. apply (ST _ _ _ _ F). exists n. intros fuel rest Hf. cbn [short_ty].
    rewrite <- app_assoc, (read_len_prefix (mkSizing mn mx) _ _ _ P). cbn [bind]. unfold read_map.
    rewrite alloc_ok by assumption. cbn [bind]. rewrite read_map_seq. unfold lenN at 1. rewrite Nat2N.id, H by assumption.
    cbn [bind]. now rewrite pairs_in_turn.
  - exists O. intros fuel rest _. reflexivity.
  - intros id v b ids l bs _ [n1 H1] _ [n2 H2]. exists (Nat.max n1 n2). intros fuel rest Hf. cbn [read_seq].
    rewrite <- app_assoc, H1 by lia. cbn [bind]. rewrite H2 by lia. reflexivity.
Qed.
End Sound.

Lemma deserialize_wire c sys id data v : wf_sys sys ->
  ((exists fuel, strict_deserialize_type fuel c sys id data = Ok (mkTyped id v))
   <-> wire (cap c) sys id v data /\ lenN data <= u32_max).
Proof.
  intros W. split.
  - intros [fuel H]. apply deserialize_inv in H as [L [_ H]]. cbn [tv_val] in H.
    apply (read_wire _ _ W) in H as [bs [E H]]. rewrite app_nil_r in E. subst bs. auto.
  - intros [H L]. apply (wire_read _ _ W) in H as [n H]. exists n. apply deserialize_all; [|assumption].
    rewrite <- (app_nil_r data). apply H. lia.
Qed.

Lemma serialize_wire m c ce sys id v : wf_sys sys -> (dbg ce = true -> strict m = true) -> arrays m = false ->
  has_type m c sys id v ->
  exists bs, write_val ce sys v id = Ok bs /\ wire (cap c) sys id v bs.
Proof.
  intros W D NA T. destruct (round_trip m c ce sys W D NA id v T) as [bs [E R]]. exists bs. split; [exact E|].
  specialize (R (vdepth v) [] (le_n _)). apply (read_wire _ _ W) in R as [bs' [E' R]].
  rewrite !app_nil_r in E'. now subst bs'.
Qed.

(** ** What can be serialized has no arrays of other items than bytes *)

Lemma enc_zip_Ok {E A B} (f : A -> B -> outcome E bytes) l m bs : List.length l = List.length m ->
  enc_zip f l m = Ok bs -> Forall2 (fun x y => exists b, f x y = Ok b) l m.
Proof.
  revert m bs. induction l as [|x l IH]; intros [|y m] bs L H; try discriminate L; constructor; cbn in H;
    apply bind_Ok in H as [b [H1 H]]; apply bind_Ok in H as [b' [H2 H]]; eauto.
Qed.

Lemma enc_all_Ok {E A} (f : A -> outcome E bytes) l bs :
  enc_all f l = Ok bs -> Forall (fun x => exists b, f x = Ok b) l.
Proof.
  revert bs. induction l as [|x l IH]; intros bs H; constructor; cbn in H;
    apply bind_Ok in H as [b [H1 H]]; apply bind_Ok in H as [b' [H2 H]]; eauto.
Qed.

Lemma write_no_arrays m c ce sys id v : wf_sys sys -> has_type m c sys id v ->
  forall bs, write_val ce sys v id = Ok bs -> has_type (mkMode (strict m) false) c sys id v.
Proof.
  intros W H.
  assert (FA : forall r (l : list sval), Forall (fun v => forall bs, write_val ce sys v r = Ok bs -> has_type (mkMode (strict m) false) c sys r v) l ->
    forall bs, enc_all (fun v => write_val ce sys v r) l = Ok bs -> Forall (has_type (mkMode (strict m) false) c sys r) l).
  { intros r l F bs E. apply enc_all_Ok in E. induction F; constructor; inversion E as [|? ? [b Eb] E']; subst; eauto. }
  induction H using has_type_ind'; intros bs E;
    match goal with X : sys_find sys id = Some ?t |- _ => pose proof (type_of_find _ _ _ W X) as TO; rename X into F end;
    cbn [write_val] in E; rewrite TO in E; cbn [expect bind] in E.
  - now constructor.
  - econstructor; eauto.
  - eapply HT_int; eauto.
  - econstructor; eauto.
  - destruct (wf_types _ W _ _ F) as [N1 [N2 B]].
    change (v_name v) with (v_name (fst (v, r))) in E. rewrite uv_by_name_In in E by assumption.
    cbn [expect bind snd fst] in E. apply bind_Ok in E as [b [E1 E2]]. econstructor; eauto.
  - apply bind_Ok in E as [u [_ E]]. econstructor; eauto.
    match goal with X : Forall2 (has_type _ _ _) _ _ |- _ => rename X into HT end.
    match goal with X : Forall2 _ _ _ |- _ => rename X into IH end.
    apply enc_zip_Ok in E; [|symmetry; eapply Forall2_len; eauto].
    clear -IH E. revert l IH E. induction fs as [|f fs IHf]; intros l IH E; inversion IH; subst; constructor;
      inversion E as [|? ? ? ? [b Eb] E']; subst; eauto.
  - eapply HT_rstring; eauto.
  - apply bind_Ok in E as [u [_ E]].
    pose proof (wf_types _ W _ _ F) as ND. cbn in ND.
    match goal with X : map fst l = map fst fs |- _ => rename X into NM end.
    match goal with X : Forall2 (has_type _ _ _) _ _ |- _ => rename X into HT end.
    match goal with X : Forall2 _ _ _ |- _ => rename X into IH end.
    apply enc_all_Ok in E. econstructor; eauto.
    assert (NDl : NoDup (map fst l)) by (rewrite NM; assumption).
    assert (G : forall l' fs', incl l' l -> map fst l' = map fst fs' ->
      Forall2 (fun (id : semid) (v : sval) => forall bs : bytes, write_val ce sys v id = Ok bs -> has_type (mkMode (strict m) false) c sys id v) (map snd fs') (map snd l') ->
      Forall (fun f => exists b, match imap_get (map (fun e => (fst e, fun id => write_val ce sys (snd e) id)) l) (fst f) with
                                 | None => Err (MissingField (fst f)) | Some w => w (snd f) end = Ok b) fs' ->
      Forall2 (has_type (mkMode (strict m) false) c sys) (map snd fs') (map snd l')).
    { clear -NDl. induction l' as [|[n x] l' IHl]; intros [|[n' i] fs'] I NM IH E; cbn in *; try discriminate; constructor.
      - injection NM as <- NM. inversion IH as [|? ? ? ? IH1 IH2]; subst. inversion E as [|? ? [b Eb] E2]; subst.
        rewrite (imap_get_map (fun v id => write_val ce sys v id) l) in Eb. cbn [fst snd] in Eb.
        rewrite (imap_get_In l n x NDl) in Eb by (apply I; now left). cbn [option_map] in Eb. eauto.
      - injection NM as <- NM. inversion IH; subst. inversion E; subst. apply IHl; auto.
        intros y Hy; apply I; now right. }
    apply (G l fs (incl_refl l) NM IH E).
  - econstructor; eauto.
  - discriminate.
  - eapply HT_chars; eauto.
  - eapply HT_bytes; eauto.
  - eapply HT_text; eauto.
  - apply bind_Ok in E as [b [E1 E2]]. eapply HT_list; eauto.
  - apply bind_Ok in E as [b [E1 E2]]. eapply HT_set; eauto.
  - apply bind_Ok in E as [b [E1 E2]]. apply enc_all_Ok in E1. eapply HT_map; eauto.
    + match goal with X : Forall (fun _ => forall _, _) (map fst l) |- _ => rename X into IHk end.
      clear -IHk E1. induction l as [|e l IHl]; cbn in *; constructor; inversion E1 as [|? ? [x Ex] E2]; subst;
        inversion IHk; subst; eauto. apply bind_Ok in Ex as [y [Ey _]]. eauto.
    + match goal with X : Forall (fun _ => forall _, _) (map snd l) |- _ => rename X into IHk end.
      clear -IHk E1. induction l as [|e l IHl]; cbn in *; constructor; inversion E1 as [|? ? [x Ex] E2]; subst;
        inversion IHk; subst; eauto. apply bind_Ok in Ex as [y [_ Ey]]. apply bind_Ok in Ey as [z [Ez _]]. eauto.
Qed.

Lemma write_wire m c ce sys id v bs : wf_sys sys -> has_type m c sys id v ->
  write_val ce sys v id = Ok bs -> wire (cap c) sys id v bs.
Proof.
  intros W T E.
  assert (R : exists ce', dbg ce' = false /\ write_val ce' sys v id = Ok bs).
  { destruct (dbg ce) eqn:D; [|eauto]. exists (mkConfig false 0). split; [reflexivity|].
    exact (write_release ce _ sys v D id bs E). }
  destruct R as [ce' [D E']]. pose proof (write_no_arrays _ _ _ _ _ _ W T _ E') as T'.
  destruct (serialize_wire (mkMode (strict m) false) c ce' sys id v W ltac:(congruence) eq_refl T') as [bs' [E'' H]]. congruence.
Qed.
