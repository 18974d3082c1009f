(** Deserialization gives typed values which serialize to the bytes read. *)
From Coq Require Import NArith ZArith List Bool String Ascii Strings.Byte Lia.
From Verif Require Import Base Ty Ids Val TypeSys Encode Decode DecodeShort SpecUtf8 Utf8Proofs Spec CodecLemmas RoundTrip ReadLemmas.
Import ListNotations.
Local Open Scope N_scope.

Definition lax : mode := mkMode false true.
Definition lax_na : mode := mkMode false false.

Lemma read_uint_inv k d n rest : read_uint k d = Ok (n, rest) ->
  d = le k n ++ rest /\ n < 2 ^ (8 * N.of_nat k).
Proof.
  unfold read_uint. intros H. apply bind_Ok in H as [[b d'] [H1 H2]]. injection H2 as <- <-.
  destruct (take k d) as [[a e]|] eqn:E; [|discriminate]. injection H1 as -> ->.
  apply take_Some in E as [-> <-]. rewrite le_unle. split; [reflexivity|]. apply unle_bound.
Qed.

Lemma read_len_inv sz d n rest : read_len sz d = Ok (n, rest) ->
  d = enc_len sz n ++ rest /\ n < 2 ^ (8 * len_width (s_max sz)).
Proof.
  unfold read_len, enc_len. intros H. apply read_uint_inv in H as [-> H].
  rewrite N2Nat.id in H. now rewrite len_width_byte_size.
Qed.

Lemma read_raw_inv c len d b rest : read_raw c len d = Ok (b, rest) ->
  d = b ++ rest /\ lenN b = len /\ len <= cap c.
Proof.
  unfold read_raw, alloc. destruct (N.ltb_spec (cap c) len); [discriminate|]. cbn [bind].
  destruct (take (N.to_nat len) d) as [[a e]|] eqn:E; [|discriminate].
  intros Q. injection Q as -> ->. apply take_Some in E as [-> L]. unfold lenN. rewrite L, N2Nat.id. auto.
Qed.

Lemma read_ascii_inv c sz d v rest : read_ascii c sz d = Ok (v, rest) ->
  exists s, v = VStr s /\ d = (enc_len sz (slen s) ++ sbytes s) ++ rest /\ ascii_text s
            /\ slen s < 2 ^ (8 * len_width (s_max sz)) /\ slen s <= cap c.
Proof.
  unfold read_ascii. intros H. apply bind_Ok in H as [[len d1] [H1 H2]].
  apply read_len_inv in H1 as [-> L1]. apply bind_Ok in H2 as [[b d2] [H2 H3]].
  apply read_raw_inv in H2 as [-> [L2 L3]].
  destruct (ascii_bytes b) eqn:A; [|discriminate]. injection H3 as <- <-.
  exists (bstring b). rewrite slen_bytes, sbytes_bstring, L2. repeat split; auto.
  - now rewrite app_assoc.
  - apply ascii_text_iff. unfold is_ascii. now rewrite sbytes_bstring.
Qed.

Lemma read_string_inv c sz d v rest : read_string c sz d = Ok (v, rest) ->
  exists s, v = VStr s /\ d = (enc_len sz (slen s) ++ sbytes s) ++ rest /\ is_text (sbytes s)
            /\ slen s < 2 ^ (8 * len_width (s_max sz)) /\ slen s <= cap c.
Proof.
  unfold read_string. intros H. apply bind_Ok in H as [[len d1] [H1 H2]].
  apply read_len_inv in H1 as [-> L1]. apply bind_Ok in H2 as [[b d2] [H2 H3]].
  apply read_raw_inv in H2 as [-> [L2 L3]].
  destruct (utf8_valid b) eqn:A; [|discriminate]. injection H3 as <- <-. apply utf8_spec in A.
  exists (bstring b). rewrite slen_bytes, sbytes_bstring, L2. repeat split; auto.
  now rewrite app_assoc.
Qed.

Lemma read_blob_inv c sz d v rest : read_blob c sz d = Ok (v, rest) ->
  exists b, v = VBytes b /\ d = (enc_len sz (lenN b) ++ b) ++ rest
            /\ lenN b < 2 ^ (8 * len_width (s_max sz)) /\ lenN b <= cap c.
Proof.
  unfold read_blob. intros H. apply bind_Ok in H as [[len d1] [H1 H2]].
  apply read_len_inv in H1 as [-> L1]. apply bind_Ok in H2 as [[b d2] [H2 H3]].
  apply read_raw_inv in H2 as [-> [L2 L3]]. injection H3 as <- <-.
  exists b. rewrite L2. repeat split; auto. now rewrite app_assoc.
Qed.

Lemma alloc_inv {E} c n u : @alloc E c n = Ok u -> n <= cap c.
Proof. unfold alloc. destruct (N.ltb_spec (cap c) n); [discriminate|auto]. Qed.

(** Reading [n] items. [Q x bs]: the item [x] is represented by [bs]. *)
Lemma read_n_inv {A} (Q : A -> bytes -> Prop) rd n :
  (forall d v rest, rd d = Ok (v, rest) -> exists bs, d = bs ++ rest /\ Q v bs) ->
  forall d l rest, read_n rd n d = Ok (l, rest) ->
  List.length l = n /\ exists bss, d = List.concat bss ++ rest /\ Forall2 Q l bss.
Proof.
  intros H. induction n; intros d l rest R; cbn [read_n] in R.
  - injection R as <- <-. split; [reflexivity|]. exists []. split; [reflexivity|constructor].
  - apply bind_Ok in R as [[x d1] [R1 R]]. apply bind_Ok in R as [[xs d2] [R2 R3]]. injection R3 as <- <-.
    apply H in R1 as [b [-> Q1]]. apply IHn in R2 as [<- [bss [-> Q2]]].
    split; [reflexivity|]. exists (b :: bss). split; [cbn; now rewrite app_assoc|now constructor].
Qed.

Lemma read_seq_inv {A B} (Q : A -> B -> bytes -> Prop) rd fs :
  (forall f d v rest, rd f d = Ok (v, rest) -> exists bs, d = bs ++ rest /\ Q f v bs) ->
  forall d (l : list B) rest, read_seq rd fs d = Ok (l, rest) ->
  exists bss, d = List.concat bss ++ rest /\ List.length bss = List.length fs
    /\ Forall2 (fun f x => Q f (fst x) (snd x)) fs (combine l bss) /\ List.length l = List.length fs.
Proof.
  intros H. induction fs as [|f fs IH]; intros d l rest R; cbn [read_seq] in R.
  - injection R as <- <-. exists []. repeat split; constructor.
  - apply bind_Ok in R as [[x d1] [R1 R]]. apply bind_Ok in R as [[xs d2] [R2 R3]]. injection R3 as <- <-.
    apply H in R1 as [b [-> Q1]]. apply IH in R2 as [bss [-> [L1 [Q2 L2]]]].
    exists (b :: bss). cbn [List.concat combine List.length]. rewrite app_assoc, L1, L2. repeat split.
    now constructor.
Qed.

(** Writing items one by one. *)
Lemma enc_all_concat {E A} (w : A -> outcome E bytes) l bss :
  Forall2 (fun x b => w x = Ok b) l bss -> enc_all w l = Ok (List.concat bss).
Proof. induction 1 as [|x b l bss H F IH]; [reflexivity|]. cbn. rewrite H. cbn. now rewrite IH. Qed.

Lemma prim_cases p d v rest : read_prim p d = Ok (v, rest) ->
  (p = P_UNIT /\ v = VUnit /\ d = rest)
  \/ (exists w n, uint_width p = Some w /\ v = VNum (Uint n) /\ n < 2 ^ (8 * w) /\ d = le (N.to_nat w) n ++ rest)
  \/ (exists w z, int_width p = Some w /\ v = VNum (Int z)
        /\ (- 2 ^ (8 * Z.of_N w - 1) <= z < 2 ^ (8 * Z.of_N w - 1))%Z
        /\ d = le (N.to_nat w) (twos (N.to_nat w) z) ++ rest).
Proof.
  intros H.
  destruct (uint_width p) as [w|] eqn:U.
  - right; left. destruct (uint_width_cases _ _ U) as [_ [_ R]]. rewrite R in H.
    apply bind_Ok in H as [[n d'] [H1 H2]]. injection H2 as <- <-. apply read_uint_inv in H1 as [-> B].
    rewrite N2Nat.id in B. exists w, n. auto.
  - destruct (int_width p) as [w|] eqn:I.
    + right; right. destruct (int_width_cases _ _ I) as [_ [Lw R]]. rewrite R in H.
      apply bind_Ok in H as [[z d'] [H1 H2]]. injection H2 as <- <-. unfold read_int in H1.
      apply bind_Ok in H1 as [[n d''] [H1 H2]]. injection H2 as <- <-. apply read_uint_inv in H1 as [-> B].
      exists w, (untwos (N.to_nat w) n). repeat split; auto.
      * pose proof (untwos_range (N.to_nat w) n ltac:(lia) B) as X. rewrite N_nat_Z in X. lia.
      * pose proof (untwos_range (N.to_nat w) n ltac:(lia) B) as X. rewrite N_nat_Z in X. lia.
      * now rewrite twos_untwos.
    + left. unfold read_prim in H. cbv zeta in H.
      destruct (N.eqb_spec p P_UNIT) as [->|NE]; [injection H as <- <-; auto|]. exfalso.
      unfold uint_width in U. unfold int_width in I.
      destruct ((1 <=? p) && (p <=? 8)) eqn:E; [discriminate|].
      destruct (N.eqb_spec p 0x40); [discriminate|].
      destruct (N.eqb_spec p 0x41); [discriminate|].
      destruct (N.eqb_spec p 0x42); [discriminate|].
      destruct (N.eqb_spec p 0x44); [discriminate|].
      destruct (N.eqb_spec p 0x48); [discriminate|].
      assert (E' : ~ (1 <= p <= 8)).
      { intros [A B]. apply N.leb_le in A, B. rewrite A, B in E. discriminate. }
      unfold P_UNIT in NE.
      repeat match type of H with
      | (if p =? ?q then _ else _) = _ =>
          let X := fresh in destruct (N.eqb_spec p q) as [X|X]; [unfold q in X; lia|]
      end. discriminate.
Qed.

(** The type of [id] given by [F] is the one of the other hypothesis on the type of [id]. *)
Ltac same_type F :=
  match type of F with
  | ?l = _ =>
      match goal with
      | H : l = Some _ |- _ => rewrite F in H; try discriminate H; injection H; clear H; intros; subst
      end
  end.

Lemma find_In {A} (f : A -> bool) l x : find f l = Some x -> In x l /\ f x = true.
Proof. apply find_some. Qed.

Section Sound.
Variables (c ce : config) (sys : type_system).
Hypothesis W : wf_sys sys.
Hypothesis ND : dbg ce = false.

Lemma no_assert {E} b : @debug_assert E ce b = Ok tt.
Proof. unfold debug_assert. now rewrite ND. Qed.

(** [v] of the type [id] is represented by [bs]. *)
Definition repr (id : semid) (v : sval) (bs : bytes) : Prop :=
  has_type lax c sys id v /\ (has_type lax_na c sys id v -> write_val ce sys v id = Ok bs).

Lemma repr_forall r l bss :
  Forall2 (repr r) l bss -> Forall (has_type lax c sys r) l
    /\ (Forall (has_type lax_na c sys r) l -> enc_all (fun v => write_val ce sys v r) l = Ok (List.concat bss)).
Proof.
  intros F. split.
  - induction F as [|x b l bss [H _] F IH]; constructor; auto.
  - intros N. apply enc_all_concat.
    induction F as [|x b l bss [_ H] F IH]; constructor; inversion N; subst; auto.
Qed.

Lemma repr_tuple fs l bss :
  Forall2 (fun f x => repr f (fst x) (snd x)) fs (combine l bss) -> List.length l = List.length fs ->
  List.length bss = List.length fs ->
  Forall2 (has_type lax c sys) fs l
    /\ (Forall2 (has_type lax_na c sys) fs l ->
        enc_zip (fun v id => write_val ce sys v id) l fs = Ok (List.concat bss)).
Proof.
  revert l bss; induction fs as [|f fs IH]; intros [|x l] [|b bss] F L1 L2; cbn in *; try discriminate.
  - split; [constructor|reflexivity].
  - inversion F as [|? ? ? ? [H1 H2] F']; subst. cbn in H1, H2.
    destruct (IH l bss F') as [A B]; [lia|lia|].
    split; [constructor; auto|]. intros N. inversion N; subst. rewrite H2 by assumption. cbn.
    rewrite B by assumption. reflexivity.
Qed.

Lemma repr_fields fs (l : list (string * sval)) bss :
  Forall2 (fun (f : string * semid) (x : (string * sval) * bytes) =>
     fst f = fst (fst x) /\ repr (snd f) (snd (fst x)) (snd x)) fs (combine l bss) ->
  List.length l = List.length fs -> List.length bss = List.length fs ->
  map fst l = map fst fs /\ Forall2 (has_type lax c sys) (map snd fs) (map snd l)
    /\ (Forall2 (has_type lax_na c sys) (map snd fs) (map snd l) ->
        forall l0, incl l l0 -> NoDup (map fst l0) ->
        enc_all (fun f => match imap_get l0 (fst f) with
                          | None => Err (MissingField (fst f))
                          | Some v => write_val ce sys v (snd f)
                          end) fs = Ok (List.concat bss)).
Proof.
  revert l bss; induction fs as [|[n i] fs IH]; intros [|[n' x] l] [|b bss] F L1 L2; cbn in *; try discriminate.
  - repeat split; constructor.
  - inversion F as [|? ? ? ? [E [H1 H2]] F']; subst. cbn in E, H1, H2. subst n'.
    destruct (IH l bss F') as [A [B C]]; [lia|lia|].
    split; [now rewrite A|]. split; [constructor; auto|].
    intros N l0 I NDl. inversion N; subst.
    rewrite (imap_get_In l0 n x) by (try assumption; apply I; now left).
    rewrite H2 by assumption. cbn.
    rewrite (C ltac:(assumption) l0) by (try assumption; intros y Hy; apply I; now right). reflexivity.
Qed.

Lemma write_struct l fs id : sys_find sys id = Some (TStruct fs) ->
  write_val ce sys (VStruct l) id =
  enc_all (fun f => match imap_get l (fst f) with
                    | None => Err (MissingField (fst f))
                    | Some v => write_val ce sys v (snd f)
                    end) fs.
Proof.
  intros F. cbn [write_val]. rewrite (type_of_find _ _ _ W F). cbn [expect bind].
  rewrite no_assert. cbn [bind]. apply enc_all_ext. apply Forall_forall. intros f _.
  rewrite (imap_get_map (fun v id => write_val ce sys v id) l (fst f)).
  destruct (imap_get l (fst f)); reflexivity.
Qed.

Lemma read_sound fuel : forall id d v rest,
  read_type fuel c sys id d = Ok (v, rest) -> exists bs, d = bs ++ rest /\ repr id v bs.
Proof.
  induction fuel as [|fuel IH]; intros id d v rest H; [discriminate|].
  cbn [read_type] in H. destruct (sys_find sys id) as [t|] eqn:F; [|discriminate]. cbn [ok_or bind] in H.
  pose proof (type_of_find _ _ _ W F) as TO.
  pose proof (wf_types _ W _ _ F) as WT.
  rewrite short_read in H. destruct t; cbn [short_ty] in H.
  - (* primitive *)
    apply prim_cases in H as [[-> [-> ->]]|[[w [n [U [-> [B ->]]]]]|[w [z [U [-> [B ->]]]]]]].
    + exists []. split; [reflexivity|]. split; [now constructor|].
      intros _. cbn [write_val]. rewrite TO. cbn [expect bind]. now rewrite no_assert.
    + exists (le (N.to_nat w) n). split; [reflexivity|]. split; [econstructor; eauto|].
      intros _. cbn [write_val]. rewrite TO. cbn [expect bind].
      destruct (uint_width_cases _ _ U) as [S [Lw _]]. rewrite S, slice_le by lia. reflexivity.
    + exists (le (N.to_nat w) (twos (N.to_nat w) z)). split; [reflexivity|]. split; [eapply HT_int; eauto|].
      intros _. cbn [write_val]. rewrite TO. cbn [expect bind].
      destruct (int_width_cases _ _ U) as [S [Lw _]]. rewrite S, slice_le by lia.
      rewrite twos_narrow by lia. reflexivity.
  - discriminate.
  - (* enum *)
    apply bind_Ok in H as [[tag d1] [H1 H]]. apply read_uint_inv in H1 as [-> B].
    unfold ev_name_by_tag in H. destruct (ev_by_tag vs tag) as [vr|] eqn:E; [|discriminate].
    cbn [option_map ok_or bind] in H. injection H as <- <-.
    apply find_In in E as [I E]. apply N.eqb_eq in E. subst tag.
    exists (le 1 (v_tag vr)). split; [reflexivity|]. split; [econstructor; eauto|].
    intros _. cbn [write_val]. rewrite TO. cbn [expect bind].
    destruct WT as [N1 [N2 B']]. unfold ev_tag_by_name. rewrite ev_by_name_In by assumption.
    cbn. rewrite N.mod_small by (cbn in B; lia). reflexivity.
  - (* union *)
    apply bind_Ok in H as [[tag d1] [H1 H]]. apply read_uint_inv in H1 as [-> B].
    destruct (uv_by_tag vs tag) as [[vr r]|] eqn:E; [|discriminate]. cbn [ok_or bind snd fst] in H.
    apply bind_Ok in H as [[w d2] [H2 H3]]. injection H3 as <- <-.
    apply find_In in E as [I E]. apply N.eqb_eq in E. subst tag. cbn [fst] in *.
    apply IH in H2 as [bs [-> [T R]]].
    exists (le 1 (v_tag vr) ++ bs). split; [now rewrite app_assoc|]. split; [econstructor; eauto|].
    intros T'. destruct WT as [N1 [N2 B']]. cbn [write_val]. rewrite TO. cbn [expect bind].
    change (v_name vr) with (v_name (fst (vr, r))). rewrite uv_by_name_In by assumption.
    cbn [expect bind snd fst]. rewrite R.
    + cbn. rewrite N.mod_small by (cbn in B; lia). reflexivity.
    + inversion T' as [| | | |? ? vr' r' ? F' I' T''| | | | | | | | | | |]; subst.
      rewrite F in F'. injection F' as <-.
      assert (Q : (vr', r') = (vr, r)).
      { pose proof (uv_by_name_In vs (vr', r') N1 I') as Q1. pose proof (uv_by_name_In vs (vr, r) N1 I) as Q2.
        cbn [fst] in *. congruence. }
      now injection Q as -> ->.
  - (* tuple *)
    destruct (is_rstring c sys fs) as [b|[]| |] eqn:RS; try discriminate. cbn [lift_unknown bind] in H.
    pose proof (is_rstring_inv _ _ _ _ _ W F RS) as RS'. destruct b.
    + destruct RS' as [a1 [a2 [mn [mx RS']]]].
      destruct (is_rstring_true c _ _ _ _ _ _ _ W F RS') as [_ [r E]]. rewrite E in H.
      cbn [lift_unknown bind expect snd] in H.
      apply read_ascii_inv in H as [s [-> [-> [A [L1 L2]]]]].
      eexists. split; [reflexivity|]. split.
      * eapply HT_rstring; eauto; [|discriminate]. repeat split; auto; discriminate.
      * intros _. cbn [write_val]. rewrite TO. cbn [expect bind].
        rewrite (proj1 (ascii_text_iff s) A).
        destruct (is_rstring_true ce _ _ _ _ _ _ _ W F RS') as [E1 [r' E2]].
        rewrite E1, E2. cbn [expect_ok bind expect snd]. rewrite no_assert. reflexivity.
    + apply bind_Ok in H as [[l d1] [H1 H2]]. injection H2 as <- <-.
      eapply (read_seq_inv repr) in H1 as [bss [-> [L1 [Q L2]]]]; [|intros; eapply IH; eauto].
      destruct (repr_tuple _ _ _ Q L2 L1) as [T R].
      exists (List.concat bss). split; [reflexivity|]. split; [econstructor; eauto|].
      intros T'. cbn [write_val]. rewrite TO. cbn [expect bind]. rewrite no_assert. cbn [bind].
      apply R. inversion T'; subst; same_type F; assumption.
  - (* structure *)
    apply bind_Ok in H as [[l d1] [H1 H2]]. injection H2 as <- <-.
    eapply (read_seq_inv (fun (f : string * semid) (e : string * sval) b => fst f = fst e /\ repr (snd f) (snd e) b)) in H1
      as [bss [-> [L1 [Q L2]]]].
    2:{ intros f d' e rest' R. apply bind_Ok in R as [[x d2] [R1 R2]]. injection R2 as <- <-.
        apply IH in R1 as [bs [-> R1]]. exists bs. auto. }
    destruct (repr_fields fs l bss) as [NM [T R]]; [|assumption|assumption|].
    { exact Q. }
    cbn in WT. assert (NDl : NoDup (map fst l)) by now rewrite NM.
    rewrite imap_collect by assumption.
    exists (List.concat bss). split; [reflexivity|]. split; [econstructor; eauto|].
    intros T'. rewrite (write_struct _ _ _ F). apply R; auto using incl_refl.
    inversion T'; subst; same_type F; assumption.
  - (* array *)
    destruct (is_byte_id r) eqn:BI.
    + apply bind_Ok in H as [[b d1] [H1 H2]]. injection H2 as <- <-.
      apply read_raw_inv in H1 as [-> [L1 L2]]. exists b. split; [reflexivity|]. split.
      * eapply HT_byte_array; eauto. now apply byte_item_iff.
      * intros _. cbn [write_val]. rewrite TO. cbn [expect bind]. now rewrite no_assert.
    + apply bind_Ok in H as [u [HA H]]. apply alloc_inv in HA.
      apply bind_Ok in H as [[l d1] [H1 H2]]. injection H2 as <- <-.
      eapply (read_n_inv (repr r)) in H1 as [L [bss [-> Q]]]; [|intros; eapply IH; eauto].
      apply repr_forall in Q as [T R].
      exists (List.concat bss). split; [reflexivity|]. split.
      * eapply HT_array; eauto; [now apply byte_item_false|]. unfold lenN. rewrite L. apply N2Nat.id.
      * intros T'. inversion T'; subst; [match goal with H : arrays _ = true |- _ => discriminate H end|same_type F].
  - (* list *)
    destruct (sys_find sys r) as [rt|] eqn:FR; [|discriminate]. cbn [ok_or bind] in H.
    rewrite char_enum_spec in H. destruct (chars_type rt) as [a|] eqn:CT.
    + apply read_ascii_inv in H as [x [-> [-> [A [L1 L2]]]]]. eexists. split; [reflexivity|]. split.
      * destruct s. eapply HT_chars; eauto; [|discriminate]. repeat split; auto; discriminate.
      * intros _. cbn [write_val]. rewrite TO. reflexivity.
    + destruct (is_byte_id r && (s_max s <=? u32_max)) eqn:BI.
      { apply andb_true_iff in BI as [BI M]. apply N.leb_le in M. unfold u32_max in M.
        apply read_blob_inv in H as [b [-> [-> [L1 L2]]]]. eexists. split; [reflexivity|]. split.
        - destruct s as [mn mx]. cbn in M. eapply HT_bytes; eauto; [now apply byte_item_iff|lia|].
          repeat split; auto; discriminate.
        - intros _. cbn [write_val]. rewrite TO. reflexivity. }
      destruct (is_unicode_id r && (s_max s <=? u32_max)) eqn:UI.
      { apply andb_true_iff in UI as [UI M]. rewrite M, andb_true_r in BI. apply N.leb_le in M. unfold u32_max in M.
        apply read_string_inv in H as [x [-> [-> [V [L1 L2]]]]]. eexists. split; [reflexivity|]. split.
        - destruct s as [mn mx]. cbn in M. eapply HT_text; eauto;
            [now apply byte_item_false|now apply unicode_item_iff|lia|]. repeat split; auto; discriminate.
        - intros _. cbn [write_val]. rewrite TO. reflexivity. }
      apply bind_Ok in H as [[len d1] [H1 H]]. apply read_len_inv in H1 as [-> L1].
      apply bind_Ok in H as [[l d2] [H2 H3]]. injection H3 as <- <-.
      unfold read_list in H2. apply bind_Ok in H2 as [u [HA H2]]. apply alloc_inv in HA.
      eapply (read_n_inv (repr r)) in H2 as [L [bss [-> Q]]]; [|intros; eapply IH; eauto].
      assert (L' : lenN l = len) by (unfold lenN; lia). subst len.
      apply repr_forall in Q as [T R].
      exists (enc_len s (lenN l) ++ List.concat bss). split; [now rewrite app_assoc|]. split.
      * destruct s as [mn mx]. cbn [s_max] in *.
        eapply HT_list; eauto; [|repeat split; auto; discriminate].
        intros M. assert (M' : mx <=? u32_max = true) by (apply N.leb_le; unfold u32_max; lia).
        rewrite M', andb_true_r in BI, UI. split; [apply byte_item_false|apply unicode_item_false]; assumption.
      * intros T'. cbn [write_val]. rewrite TO. cbn [expect bind]. rewrite R; [reflexivity|].
        inversion T'; subst; same_type F; assumption.
  - (* set *)
    apply bind_Ok in H as [[len d1] [H1 H]]. apply read_len_inv in H1 as [-> L1].
    apply bind_Ok in H as [[l d2] [H2 H3]]. injection H3 as <- <-.
    unfold read_list in H2. apply bind_Ok in H2 as [u [HA H2]]. apply alloc_inv in HA.
    eapply (read_n_inv (repr r)) in H2 as [L [bss [-> Q]]]; [|intros; eapply IH; eauto].
    assert (L' : lenN l = len) by (unfold lenN; lia). subst len.
    apply repr_forall in Q as [T R].
    exists (enc_len s (lenN l) ++ List.concat bss). split; [now rewrite app_assoc|]. split.
    + destruct s as [mn mx]. cbn [s_max] in *. eapply HT_set; eauto; [|discriminate]. repeat split; auto; discriminate.
    + intros T'. cbn [write_val]. rewrite TO. cbn [expect bind]. rewrite R; [reflexivity|].
      inversion T'; subst; same_type F; assumption.
  - (* map *)
    apply bind_Ok in H as [[len d1] [H1 H]]. apply read_len_inv in H1 as [-> L1].
    apply bind_Ok in H as [[l d2] [H2 H3]]. injection H3 as <- <-.
    unfold read_map in H2. apply bind_Ok in H2 as [u [HA H2]]. apply alloc_inv in HA.
    eapply (read_n_inv (fun e b => has_type lax c sys k (fst e) /\ has_type lax c sys r (snd e)
              /\ (has_type lax_na c sys k (fst e) -> has_type lax_na c sys r (snd e) ->
                  (let* a := write_val ce sys (fst e) k in let* b := write_val ce sys (snd e) r in Ok (a ++ b)) = Ok b)))
      in H2 as [L [bss [-> Q]]].
    2:{ intros d' e rest' R. apply bind_Ok in R as [[x d3] [R1 R2]]. apply bind_Ok in R2 as [[y d4] [R2 R3]].
        injection R3 as <- <-. apply IH in R1 as [b1 [-> [T1 R1]]]. apply IH in R2 as [b2 [-> [T2 R2]]].
        exists (b1 ++ b2). split; [now rewrite app_assoc|]. repeat split; auto.
        cbn [fst snd]. intros X Y. rewrite R1, R2 by assumption. reflexivity. }
    assert (L' : lenN l = len) by (unfold lenN; lia). subst len.
    exists (enc_len s (lenN l) ++ List.concat bss). split; [now rewrite app_assoc|]. split.
    + destruct s as [mn mx]. cbn [s_max] in *. eapply HT_map; eauto; [repeat split; auto; discriminate| | |discriminate].
      * clear -Q. induction Q as [|e b l bss [A [B C]] Q IHQ]; constructor; auto.
      * clear -Q. induction Q as [|e b l bss [A [B C]] Q IHQ]; constructor; auto.
    + intros T'. cbn [write_val]. rewrite TO. cbn [expect bind].
      assert (X : Forall (has_type lax_na c sys k) (map fst l) /\ Forall (has_type lax_na c sys r) (map snd l)).
      { inversion T'; subst; same_type F; split; assumption. }
      destruct X as [X Y].
      rewrite (enc_all_concat _ l bss); [reflexivity|].
      clear -Q X Y. induction Q as [|e b l bss [A [B C]] Q IHQ]; constructor; inversion X; inversion Y; subst; auto.
Qed.
End Sound.
