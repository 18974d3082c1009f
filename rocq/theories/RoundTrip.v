(** Serialization followed by deserialization. *)
From Coq Require Import NArith ZArith List Bool String Ascii Strings.Byte Lia.
From Verif Require Import Base Ty Ids Val TypeSys Encode Decode DecodeShort SpecUtf8 Utf8Proofs Spec CodecLemmas.
Import ListNotations.
Local Open Scope N_scope.

Lemma list_max_cons a l : list_max (a :: l) = Nat.max a (list_max l).
Proof. reflexivity. Qed.

Lemma Forall2_len {A B} (R : A -> B -> Prop) l m : Forall2 R l m -> List.length l = List.length m.
Proof. induction 1; cbn; auto. Qed.

Lemma enc_all_read {E A} (d : A -> nat) (w : A -> outcome E bytes) (rd : nat -> bytes -> reading A) l :
  Forall (fun x => exists bs, w x = Ok bs
            /\ forall fuel rest, (d x <= fuel)%nat -> rd fuel (bs ++ rest) = Ok (x, rest)) l ->
  exists bs, enc_all w l = Ok bs
    /\ forall fuel rest, (list_max (map d l) <= fuel)%nat ->
         read_n (rd fuel) (List.length l) (bs ++ rest) = Ok (l, rest).
Proof.
  induction 1 as [|x l [b [W R]] F [bs [IW IR]]].
  - exists []. split; [reflexivity|]. intros. reflexivity.
  - exists (b ++ bs). split.
    + cbn. rewrite W. cbn. rewrite IW. reflexivity.
    + intros fuel rest Hf. cbn [map] in Hf. rewrite list_max_cons in Hf. cbn [List.length read_n].
      rewrite <- app_assoc, R by lia. cbn [bind]. rewrite IR by lia. reflexivity.
Qed.

Lemma enc_zip_read {E A B} (d : B -> nat) (w : B -> A -> outcome E bytes)
    (rd : nat -> A -> bytes -> reading B) fs l :
  Forall2 (fun f x => exists bs, w x f = Ok bs
            /\ forall fuel rest, (d x <= fuel)%nat -> rd fuel f (bs ++ rest) = Ok (x, rest)) fs l ->
  exists bs, enc_zip w l fs = Ok bs
    /\ forall fuel rest, (list_max (map d l) <= fuel)%nat ->
         read_seq (rd fuel) fs (bs ++ rest) = Ok (l, rest).
Proof.
  induction 1 as [|f x fs l [b [W R]] F [bs [IW IR]]].
  - exists []. split; [reflexivity|]. intros. reflexivity.
  - exists (b ++ bs). split.
    + cbn. rewrite W. cbn. rewrite IW. reflexivity.
    + intros fuel rest Hf. cbn [map] in Hf. rewrite list_max_cons in Hf. cbn [read_seq].
      rewrite <- app_assoc, R by lia. cbn [bind]. rewrite IR by lia. reflexivity.
Qed.

Lemma enc_all_ext {E A} (f g : A -> outcome E bytes) l :
  Forall (fun x => f x = g x) l -> enc_all f l = enc_all g l.
Proof. induction 1 as [|x l H F IH]; [reflexivity|]. cbn. rewrite H. destruct (g x); auto. cbn. now rewrite IH. Qed.

Lemma write_val_eq sys id t : wf_sys sys -> sys_find sys id = Some t ->
  expect (type_of sys id) = @Ok enc_error _ t.
Proof. intros W H. now rewrite (type_of_find _ _ _ W H). Qed.

Lemma read_type_S fuel c sys id t d : sys_find sys id = Some t ->
  read_type (S fuel) c sys id d = short_ty (read_type fuel c sys) c sys id t d.
Proof. intros H. cbn [read_type]. rewrite H. cbn [ok_or bind]. apply short_read. Qed.

Lemma debug_assert_true {E} c b : b = true -> @debug_assert E c b = Ok tt.
Proof. intros ->. unfold debug_assert. now rewrite andb_false_r. Qed.

Lemma alloc_ok {E} c n : n <= cap c -> @alloc E c n = Ok tt.
Proof. intros H. unfold alloc. destruct (N.ltb_spec (cap c) n); [lia|reflexivity]. Qed.

(** Reading of a value with a unique way to choose the reader. *)
Lemma has_type_find m c sys id v :
  has_type m c sys id v ->
  match sys_find sys id with
  | Some (TList r _) => sys_find sys r <> None
  | Some _ => True
  | None => False
  end.
Proof. intros H. inversion H; subst; match goal with X : sys_find sys id = _ |- _ => rewrite X end; congruence || exact I. Qed.

Lemma uint_width_cases p w : uint_width p = Some w ->
  prim_size p = w /\ 1 <= w <= 8
  /\ forall d, read_prim p d = (let* (n, d) := read_uint (N.to_nat w) d in Ok (VNum (Uint n), d)).
Proof.
  unfold uint_width. intros H.
  destruct ((1 <=? p) && (p <=? 8)) eqn:E.
  - injection H as <-. apply andb_true_iff in E as [E1 E2]. apply N.leb_le in E1, E2.
    assert (C : p = 1 \/ p = 2 \/ p = 3 \/ p = 4 \/ p = 5 \/ p = 6 \/ p = 7 \/ p = 8) by lia.
    repeat (destruct C as [->|C]; [repeat split; try lia; reflexivity|]).
    subst p. repeat split; try lia; reflexivity.
  - destruct (N.eqb_spec p 0x40); [|discriminate]. injection H as <-. subst p.
    repeat split; try lia; reflexivity.
Qed.

Lemma int_width_cases p w : int_width p = Some w ->
  prim_size p = w /\ 1 <= w <= 8
  /\ forall d, read_prim p d = (let* (z, d) := read_int (N.to_nat w) d in Ok (VNum (Int z), d)).
Proof.
  unfold int_width. intros H.
  destruct (N.eqb_spec p 0x41) as [->|]; [injection H as <-; repeat split; try lia; reflexivity|].
  destruct (N.eqb_spec p 0x42) as [->|]; [injection H as <-; repeat split; try lia; reflexivity|].
  destruct (N.eqb_spec p 0x44) as [->|]; [injection H as <-; repeat split; try lia; reflexivity|].
  destruct (N.eqb_spec p 0x48) as [->|]; [injection H as <-; repeat split; try lia; reflexivity|].
  discriminate.
Qed.

Lemma twos_narrow k m z : (k <= m)%nat -> le k (twos m z) = le k (twos k z).
Proof.
  intros H. rewrite <- (le_mod k (twos m z)). f_equal. unfold twos.
  assert (P : (0 < 2 ^ (8 * Z.of_nat k))%Z) by (apply Z.pow_pos_nonneg; lia).
  assert (Q : (0 < 2 ^ (8 * Z.of_nat m))%Z) by (apply Z.pow_pos_nonneg; lia).
  apply N2Z.inj. rewrite N2Z.inj_mod.
  rewrite N2Z.inj_pow, N2Z.inj_mul, nat_N_Z. rewrite !Z2N.id by (apply Z.mod_pos_bound; lia).
  change (Z.of_N 2) with 2%Z. change (Z.of_N 8) with 8%Z.
  replace (8 * Z.of_nat m)%Z with (8 * Z.of_nat k + 8 * Z.of_nat (m - k))%Z by lia.
  rewrite Z.pow_add_r by lia.
  rewrite Z.rem_mul_r by (try apply Z.pow_nonzero; try apply Z.pow_pos_nonneg; lia).
  rewrite (Z.mul_comm _ ((z / _) mod _)), Z.mod_add by (apply Z.pow_nonzero; lia).
  apply Z.mod_mod. apply Z.pow_nonzero; lia.
Qed.

Section RT.
Variables (m : mode) (c ce : config) (sys : type_system).
Hypothesis W : wf_sys sys.
(** The profile of the serializing program: with debug assertions the value has to be strictly typed. *)
Hypothesis D : dbg ce = true -> strict m = true.
(** Arrays of other items than bytes can not be serialized. *)
Hypothesis NA : arrays m = false.

Lemma round_trip id v : has_type m c sys id v ->
  exists bs, write_val ce sys v id = Ok bs
    /\ forall fuel rest, (vdepth v <= fuel)%nat -> read_type fuel c sys id (bs ++ rest) = Ok (v, rest).
Proof.
  intros H. induction H using has_type_ind';
    match goal with X : sys_find sys id = Some ?t |- _ =>
      pose proof (type_of_find _ _ _ W X) as TO; rename X into F end.
  - (* unit *)
    exists []. cbn [write_val]. rewrite TO. cbn [expect bind]. split.
    + now rewrite debug_assert_true.
    + intros [|fuel] rest Hf; [cbn in Hf; lia|]. rewrite (read_type_S _ _ _ _ _ _ F). reflexivity.
  - (* uint *)
    match goal with X : uint_width p = Some w |- _ => destruct (uint_width_cases _ _ X) as [S [Lw R]] end.
    exists (le (N.to_nat w) n). cbn [write_val]. rewrite TO. cbn [expect bind]. split.
    + rewrite S, slice_le by lia. reflexivity.
    + intros [|fuel] rest Hf; [cbn in Hf; lia|]. rewrite (read_type_S _ _ _ _ _ _ F). cbn [short_ty].
      rewrite R, read_uint_le by (rewrite N2Nat.id; assumption). reflexivity.
  - (* int *)
    match goal with X : int_width p = Some w |- _ => destruct (int_width_cases _ _ X) as [S [Lw R]] end.
    exists (le (N.to_nat w) (twos (N.to_nat w) z)). cbn [write_val]. rewrite TO. cbn [expect bind]. split.
    + rewrite S, slice_le by lia. rewrite twos_narrow by lia. reflexivity.
    + intros [|fuel] rest Hf; [cbn in Hf; lia|]. rewrite (read_type_S _ _ _ _ _ _ F). cbn [short_ty].
      rewrite R. unfold read_int. rewrite read_uint_le by (apply twos_bound). cbn [bind].
      rewrite untwos_twos; [reflexivity|lia|]. rewrite N_nat_Z. assumption.
  - (* enum *)
    destruct (wf_types _ W _ _ F) as [N1 [N2 B]].
    exists [b8 (v_tag v)]. cbn [write_val]. rewrite TO. cbn [expect bind]. split.
    + unfold ev_tag_by_name. rewrite ev_by_name_In by assumption. reflexivity.
    + intros [|fuel] rest Hf; [cbn in Hf; lia|]. rewrite (read_type_S _ _ _ _ _ _ F). cbn [short_ty].
      assert (BV : v_tag v < 256) by (rewrite Forall_forall in B; auto).
      change [b8 (v_tag v)] with ([b8 (v_tag v)] ++ []). cbn [app].
      unfold read_uint. cbn [take ok_or bind unle]. rewrite b8_to_N by assumption.
      rewrite N.mul_0_r, N.add_0_r.
      unfold ev_name_by_tag. rewrite ev_by_tag_In by assumption. reflexivity.
  - (* union *)
    destruct (wf_types _ W _ _ F) as [N1 [N2 B]]. destruct IHhas_type as [bs [E R]].
    match goal with X : In (v, r) vs |- _ => rename X into I end.
    exists (b8 (v_tag v) :: bs). cbn [write_val]. rewrite TO. cbn [expect bind]. split.
    + change (v_name v) with (v_name (fst (v, r))). rewrite uv_by_name_In by assumption.
      cbn [expect bind snd fst]. rewrite E. reflexivity.
    + intros [|fuel] rest Hf; [cbn in Hf; lia|]. cbn [vdepth] in Hf.
      rewrite (read_type_S _ _ _ _ _ _ F). cbn [short_ty].
      assert (BV : v_tag v < 256) by (rewrite Forall_forall in B; apply (B _ I)).
      unfold read_uint. cbn [app take ok_or bind unle]. rewrite b8_to_N by assumption.
      rewrite N.mul_0_r, N.add_0_r.
      change (v_tag v) with (v_tag (fst (v, r))) at 1. rewrite uv_by_tag_In by assumption.
      cbn [ok_or bind snd fst]. rewrite R by lia. reflexivity.
  - (* tuple *)
    match goal with X : Forall2 (has_type _ _ _) _ _ |- _ => rename X into HT end.
    match goal with X : Forall2 _ _ _ |- _ => rename X into IH end.
    destruct (enc_zip_read vdepth (fun v id => write_val ce sys v id)
                (fun fuel id d => read_type fuel c sys id d) fs l IH) as [bs [E R]].
    exists bs. cbn [write_val]. rewrite TO. cbn [expect bind]. split.
    + rewrite debug_assert_true; [exact E|]. apply N.eqb_eq. unfold lenN.
      now rewrite (Forall2_len _ _ _ HT).
    + intros [|fuel] rest Hf; [cbn in Hf; lia|]. cbn [vdepth] in Hf.
      rewrite (read_type_S _ _ _ _ _ _ F). cbn [short_ty].
      rewrite (is_rstring_false c sys id fs); try assumption.
      * cbn [lift_unknown bind]. rewrite R by lia. reflexivity.
      * clear -HT. induction HT; constructor; auto. eapply has_type_find; eauto.
  - (* restricted string *)
    match goal with X : restricted_string _ _ _ _ _ _ |- _ => rename X into RS end.
    match goal with X : len_ok _ _ _ _ _ |- _ => destruct X as [L1 [L2 L3]] end.
    match goal with X : ascii_text s |- _ => rename X into A; pose proof (proj1 (ascii_text_iff s) A) as A' end.
    exists (enc_len (mkSizing (min + 1) (max + 1)) (slen s) ++ sbytes s).
    cbn [write_val]. rewrite TO. cbn [expect bind]. split.
    + rewrite A'. destruct (is_rstring_true ce _ _ _ _ _ _ _ W F RS) as [E1 [r E2]].
      rewrite E1, E2. cbn [expect_ok bind expect snd s_max].
      assert (DA : @debug_assert enc_error ce (slen s <=? max + 1) = Ok tt).
      { unfold debug_assert. destruct (dbg ce) eqn:Q; [|reflexivity].
        specialize (L3 (D eq_refl)). destruct (N.leb_spec (slen s) (max + 1)); [reflexivity|lia]. }
      rewrite DA. reflexivity.
    + intros [|fuel] rest Hf; [cbn in Hf; lia|]. rewrite (read_type_S _ _ _ _ _ _ F). cbn [short_ty].
      destruct (is_rstring_true c _ _ _ _ _ _ _ W F RS) as [E1 [r E2]].
      rewrite E1, E2. cbn [lift_unknown bind expect snd].
      unfold read_ascii. rewrite <- app_assoc, read_len_enc by exact L1. cbn [bind].
      rewrite slen_bytes in *. rewrite read_raw_app by assumption. cbn [bind].
      unfold is_ascii in A'. rewrite A', bstring_sbytes. reflexivity.
  - (* structure *)
    pose proof (wf_types _ W _ _ F) as ND. cbn in ND.
    match goal with X : map fst l = map fst fs |- _ => rename X into NM end.
    match goal with X : Forall2 (has_type _ _ _) _ _ |- _ => rename X into HT end.
    match goal with X : Forall2 _ _ _ |- _ => rename X into IH end.
    (* the pairs of fields *)
    assert (IH' : Forall2 (fun f e => fst f = fst e /\ exists bs, write_val ce sys (snd e) (snd f) = Ok bs
              /\ forall fuel rest, (vdepth (snd e) <= fuel)%nat ->
                   read_type fuel c sys (snd f) (bs ++ rest) = Ok (snd e, rest)) fs l).
    { clear -IH NM. revert l NM IH. induction fs as [|f fs IHf]; intros [|e l] NM IH; cbn in *;
        try discriminate; constructor; inversion IH; subst; injection NM as N1 N2; auto. }
    assert (NDl : NoDup (map fst l)) by (rewrite NM; assumption).
    set (w := fun f : string * semid =>
               match imap_get l (fst f) with None => Err (MissingField (fst f)) | Some v => write_val ce sys v (snd f) end).
    assert (G : forall l', incl l' l -> forall fs', Forall2 (fun f e => fst f = fst e /\
              exists bs, write_val ce sys (snd e) (snd f) = Ok bs
              /\ forall fuel rest, (vdepth (snd e) <= fuel)%nat ->
                   read_type fuel c sys (snd f) (bs ++ rest) = Ok (snd e, rest)) fs' l' ->
              exists bs, enc_all w fs' = Ok bs /\
              forall fuel rest, (list_max (map (fun e => vdepth (snd e)) l') <= fuel)%nat ->
              read_seq (fun f d => let* (v, d) := read_type fuel c sys (snd f) d in Ok ((fst f, v), d)) fs' (bs ++ rest)
              = Ok (l', rest)).
    { intros l' I fs' F2. induction F2 as [|[n i] [n' x] fs' l' [Q [b [Eb Rb]]] F2 IHF].
      - exists []. split; reflexivity.
      - cbn in Q, Eb, Rb. subst n'.
        destruct IHF as [bs [E R]]; [intros y Hy; apply I; now right|].
        exists (b ++ bs). split.
        + cbn. unfold w at 1. cbn [fst snd].
          rewrite (imap_get_In l n x NDl) by (apply I; now left).
          rewrite Eb. cbn. rewrite E. reflexivity.
        + intros fuel rest Hf. cbn [map] in Hf. rewrite list_max_cons in Hf. cbn [snd] in Hf.
          cbn [read_seq fst snd]. rewrite <- app_assoc, Rb by lia. cbn [bind]. rewrite R by lia. reflexivity. }
    destruct (G l (incl_refl l) fs IH') as [bs [E R]]. exists bs.
    cbn [write_val]. rewrite TO. cbn [expect bind]. split.
    + rewrite debug_assert_true.
      * cbn [bind]. erewrite enc_all_ext; [exact E|]. apply Forall_forall. intros f _.
        rewrite (imap_get_map (fun v id => write_val ce sys v id) l (fst f)).
        unfold w. destruct (imap_get l (fst f)); reflexivity.
      * apply N.eqb_eq. unfold lenN. rewrite <- (map_length fst l), NM, map_length. reflexivity.
    + intros [|fuel] rest Hf; [cbn in Hf; lia|]. cbn [vdepth] in Hf.
      rewrite (read_type_S _ _ _ _ _ _ F). cbn [short_ty].
      rewrite R by lia. cbn [bind]. rewrite imap_collect by assumption. reflexivity.
  - (* byte array *)
    exists b. cbn [write_val]. rewrite TO. cbn [expect bind]. split.
    + rewrite debug_assert_true; [reflexivity|]. apply N.eqb_eq. assumption.
    + intros [|fuel] rest Hf; [cbn in Hf; lia|]. rewrite (read_type_S _ _ _ _ _ _ F). cbn [short_ty].
      rewrite (proj1 (byte_item_iff r)) by assumption.
      match goal with X : lenN b = len |- _ => rewrite <- X in * end.
      rewrite read_raw_app by assumption. reflexivity.
  - (* array *)
    congruence.
  - (* characters *)
    match goal with X : len_ok _ _ _ _ _ |- _ => destruct X as [L1 [L2 L3]] end.
    match goal with X : ascii_text s |- _ => rename X into A; pose proof (proj1 (ascii_text_iff s) A) as A' end.
    exists (enc_len (mkSizing min max) (slen s) ++ sbytes s).
    cbn [write_val]. rewrite TO. cbn [expect bind]. split; [reflexivity|].
    intros [|fuel] rest Hf; [cbn in Hf; lia|]. rewrite (read_type_S _ _ _ _ _ _ F). cbn [short_ty].
    match goal with X : sys_find sys r = Some rt |- _ => rewrite X end. cbn [ok_or bind].
    rewrite char_enum_spec. match goal with X : chars_type rt = _ |- _ => rewrite X end.
    unfold read_ascii. rewrite <- app_assoc, read_len_enc by exact L1. cbn [bind].
    rewrite slen_bytes in *. rewrite read_raw_app by assumption. cbn [bind].
    unfold is_ascii in A'. rewrite A', bstring_sbytes. reflexivity.
  - (* bytes *)
    match goal with X : len_ok _ _ _ _ _ |- _ => destruct X as [L1 [L2 L3]] end.
    exists (enc_len (mkSizing min max) (lenN b) ++ b).
    cbn [write_val]. rewrite TO. cbn [expect bind]. split; [reflexivity|].
    intros [|fuel] rest Hf; [cbn in Hf; lia|]. rewrite (read_type_S _ _ _ _ _ _ F). cbn [short_ty].
    match goal with X : sys_find sys r = Some rt |- _ => rewrite X end. cbn [ok_or bind].
    rewrite char_enum_spec. match goal with X : chars_type rt = _ |- _ => rewrite X end.
    rewrite (proj1 (byte_item_iff r)) by assumption. cbn [s_max].
    replace (max <=? u32_max) with true by (symmetry; apply N.leb_le; unfold u32_max; lia).
    cbn [andb]. unfold read_blob. rewrite <- app_assoc, read_len_enc by exact L1. cbn [bind].
    rewrite read_raw_app by assumption. reflexivity.
  - (* text *)
    match goal with X : len_ok _ _ _ _ _ |- _ => destruct X as [L1 [L2 L3]] end.
    exists (enc_len (mkSizing min max) (slen s) ++ sbytes s).
    cbn [write_val]. rewrite TO. cbn [expect bind]. split; [reflexivity|].
    intros [|fuel] rest Hf; [cbn in Hf; lia|]. rewrite (read_type_S _ _ _ _ _ _ F). cbn [short_ty].
    match goal with X : sys_find sys r = Some rt |- _ => rewrite X end. cbn [ok_or bind].
    rewrite char_enum_spec. match goal with X : chars_type rt = _ |- _ => rewrite X end.
    rewrite (proj1 (byte_item_false r)), (proj1 (unicode_item_iff r)) by assumption. cbn [s_max].
    replace (max <=? u32_max) with true by (symmetry; apply N.leb_le; unfold u32_max; lia).
    cbn [andb]. unfold read_string. rewrite <- app_assoc, read_len_enc by exact L1. cbn [bind].
    rewrite slen_bytes in *. rewrite read_raw_app by assumption. cbn [bind].
    match goal with X : is_text _ |- _ => rewrite (proj2 (utf8_spec _) X) end. now rewrite bstring_sbytes.
  - (* list *)
    match goal with X : len_ok _ _ _ _ _ |- _ => destruct X as [L1 [L2 L3]] end.
    match goal with X : Forall (fun _ => exists _, _) l |- _ => rename X into IH end.
    destruct (enc_all_read vdepth (fun v => write_val ce sys v r)
                (fun fuel d => read_type fuel c sys r d) l IH) as [bs [E R]].
    exists (enc_len (mkSizing min max) (lenN l) ++ bs).
    cbn [write_val]. rewrite TO. cbn [expect bind]. split; [rewrite E; reflexivity|].
    intros [|fuel] rest Hf; [cbn in Hf; lia|]. cbn [vdepth] in Hf.
    rewrite (read_type_S _ _ _ _ _ _ F). cbn [short_ty].
    match goal with X : sys_find sys r = Some rt |- _ => rewrite X end. cbn [ok_or bind].
    rewrite char_enum_spec. match goal with X : chars_type rt = _ |- _ => rewrite X end.
    match goal with X : max < _ -> _ |- _ => rename X into NB end.
    replace (is_byte_id r && (s_max (mkSizing min max) <=? u32_max)) with false.
    2:{ cbn [s_max]. destruct (N.leb_spec max u32_max) as [Lm|]; [|now rewrite andb_false_r].
        destruct NB as [NB1 NB2]; [unfold u32_max in Lm; lia|]. apply byte_item_false in NB1. now rewrite NB1. }
    replace (is_unicode_id r && (s_max (mkSizing min max) <=? u32_max)) with false.
    2:{ cbn [s_max]. destruct (N.leb_spec max u32_max) as [Lm|]; [|now rewrite andb_false_r].
        destruct NB as [NB1 NB2]; [unfold u32_max in Lm; lia|]. apply unicode_item_false in NB2. now rewrite NB2. }
    rewrite <- app_assoc, read_len_enc by exact L1. cbn [bind].
    unfold read_list. rewrite alloc_ok by assumption. cbn [bind].
    replace (N.to_nat (lenN l)) with (List.length l) by (unfold lenN; lia).
    rewrite R by lia. reflexivity.
  - (* set *)
    match goal with X : len_ok _ _ _ _ _ |- _ => destruct X as [L1 [L2 L3]] end.
    match goal with X : Forall (fun _ => exists _, _) l |- _ => rename X into IH end.
    destruct (enc_all_read vdepth (fun v => write_val ce sys v r)
                (fun fuel d => read_type fuel c sys r d) l IH) as [bs [E R]].
    exists (enc_len (mkSizing min max) (lenN l) ++ bs).
    cbn [write_val]. rewrite TO. cbn [expect bind]. split; [rewrite E; reflexivity|].
    intros [|fuel] rest Hf; [cbn in Hf; lia|]. cbn [vdepth] in Hf.
    rewrite (read_type_S _ _ _ _ _ _ F). cbn [short_ty].
    rewrite <- app_assoc, read_len_enc by exact L1. cbn [bind].
    unfold read_list. rewrite alloc_ok by assumption. cbn [bind].
    replace (N.to_nat (lenN l)) with (List.length l) by (unfold lenN; lia).
    rewrite R by lia. reflexivity.
  - (* map *)
    match goal with X : len_ok _ _ _ _ _ |- _ => destruct X as [L1 [L2 L3]] end.
    match goal with X : Forall (fun _ => exists _, _) (map fst l) |- _ => rename X into IHk end.
    match goal with X : Forall (fun _ => exists _, _) (map snd l) |- _ => rename X into IHv end.
    destruct (enc_all_read (fun e => Nat.max (vdepth (fst e)) (vdepth (snd e)))
                (fun e => let* a := write_val ce sys (fst e) k in
                          let* b := write_val ce sys (snd e) r in Ok (a ++ b))
                (fun fuel d => let* (k, d) := read_type fuel c sys k d in
                               let* (v, d) := read_type fuel c sys r d in Ok ((k, v), d)) l) as [bs [E R]].
    { clear -IHk IHv. induction l as [|[a b] l IH]; constructor; cbn in *.
      - inversion IHk as [|? ? [b1 [E1 R1]] _]; subst. inversion IHv as [|? ? [b2 [E2 R2]] _]; subst.
        exists (b1 ++ b2). rewrite E1. cbn. rewrite E2. split; [reflexivity|].
        intros fuel rest Hf. rewrite <- app_assoc, R1 by lia. cbn [bind]. rewrite R2 by lia. reflexivity.
      - inversion IHk; inversion IHv; auto. }
    exists (enc_len (mkSizing min max) (lenN l) ++ bs).
    cbn [write_val]. rewrite TO. cbn [expect bind]. split; [rewrite E; reflexivity|].
    intros [|fuel] rest Hf; [cbn in Hf; lia|]. cbn [vdepth] in Hf.
    rewrite (read_type_S _ _ _ _ _ _ F). cbn [short_ty].
    rewrite <- app_assoc, read_len_enc by exact L1. cbn [bind].
    unfold read_map. rewrite alloc_ok by assumption. cbn [bind].
    replace (N.to_nat (lenN l)) with (List.length l) by (unfold lenN; lia).
    rewrite R by lia. reflexivity.
Qed.
End RT.
