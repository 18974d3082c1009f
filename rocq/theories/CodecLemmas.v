(** Lemmas on value serialization and deserialization. *)
From Coq Require Import NArith ZArith List Bool String Ascii Strings.Byte Lia.
From Verif Require Import Base Ty Ids Val TypeSys Encode Decode DecodeShort SpecUtf8 Utf8Proofs Spec.
Import ListNotations.
Local Open Scope N_scope.

(** ** Induction over typing *)
Section Ind.
Variables (m : mode) (c : config) (sys : type_system).
Local Notation HT := (has_type m c sys).
Variable P : semid -> sval -> Prop.
Hypothesis H_unit : forall id, sys_find sys id = Some (TPrim P_UNIT) -> P id VUnit.
Hypothesis H_uint : forall id p w n,
  sys_find sys id = Some (TPrim p) -> uint_width p = Some w -> n < 2 ^ (8 * w) -> P id (VNum (Uint n)).
Hypothesis H_int : forall id p w z,
  sys_find sys id = Some (TPrim p) -> int_width p = Some w ->
  (- 2 ^ (8 * Z.of_N w - 1) <= z < 2 ^ (8 * Z.of_N w - 1))%Z -> P id (VNum (Int z)).
Hypothesis H_enum : forall id vs v,
  sys_find sys id = Some (TEnum vs) -> In v vs -> P id (VEnum (Name (v_name v))).
Hypothesis H_union : forall id vs v r w,
  sys_find sys id = Some (TUnion vs) -> In (v, r) vs -> HT r w -> P r w ->
  P id (VUnion (Name (v_name v)) w).
Hypothesis H_tuple : forall id fs l,
  sys_find sys id = Some (TTuple fs) ->
  (forall a1 a2 min max, ~ restricted_string sys fs a1 a2 min max) ->
  Forall2 HT fs l -> Forall2 P fs l -> P id (VTuple l).
Hypothesis H_rstring : forall id fs a1 a2 min max s,
  sys_find sys id = Some (TTuple fs) -> restricted_string sys fs a1 a2 min max ->
  ascii_text s -> len_ok m c (min + 1) (max + 1) (slen s) ->
  (strict m = true -> in_alphabet a1 (firstn 1 (sbytes s)) /\ in_alphabet a2 (skipn 1 (sbytes s))) ->
  P id (VStr s).
Hypothesis H_struct : forall id fs l,
  sys_find sys id = Some (TStruct fs) -> map fst l = map fst fs ->
  Forall2 HT (map snd fs) (map snd l) -> Forall2 P (map snd fs) (map snd l) -> P id (VStruct l).
Hypothesis H_byte_array : forall id r len b,
  sys_find sys id = Some (TArray r len) -> byte_item r -> lenN b = len -> len <= cap c ->
  P id (VBytes b).
Hypothesis H_array : forall id r len l,
  arrays m = true -> sys_find sys id = Some (TArray r len) -> ~ byte_item r -> lenN l = len -> len <= cap c ->
  Forall (HT r) l -> Forall (P r) l -> P id (VList l).
Hypothesis H_chars : forall id r rt a min max s,
  sys_find sys id = Some (TList r (mkSizing min max)) -> sys_find sys r = Some rt ->
  chars_type rt = Some a -> ascii_text s -> len_ok m c min max (slen s) ->
  (strict m = true -> in_alphabet a (sbytes s)) -> P id (VStr s).
Hypothesis H_bytes : forall id r rt min max b,
  sys_find sys id = Some (TList r (mkSizing min max)) -> sys_find sys r = Some rt ->
  chars_type rt = None -> byte_item r -> max < 2 ^ 32 -> len_ok m c min max (lenN b) ->
  P id (VBytes b).
Hypothesis H_text : forall id r rt min max s,
  sys_find sys id = Some (TList r (mkSizing min max)) -> sys_find sys r = Some rt ->
  chars_type rt = None -> ~ byte_item r -> unicode_item r -> max < 2 ^ 32 ->
  is_text (sbytes s) -> len_ok m c min max (slen s) -> P id (VStr s).
Hypothesis H_list : forall id r rt min max l,
  sys_find sys id = Some (TList r (mkSizing min max)) -> sys_find sys r = Some rt ->
  chars_type rt = None -> (max < 2 ^ 32 -> ~ byte_item r /\ ~ unicode_item r) ->
  len_ok m c min max (lenN l) -> Forall (HT r) l -> Forall (P r) l -> P id (VList l).
Hypothesis H_set : forall id r min max l,
  sys_find sys id = Some (TSet r (mkSizing min max)) -> len_ok m c min max (lenN l) ->
  Forall (HT r) l -> Forall (P r) l -> (strict m = true -> NoDup l) -> P id (VSet l).
Hypothesis H_map : forall id k r min max l,
  sys_find sys id = Some (TMap k r (mkSizing min max)) -> len_ok m c min max (lenN l) ->
  Forall (HT k) (map fst l) -> Forall (P k) (map fst l) ->
  Forall (HT r) (map snd l) -> Forall (P r) (map snd l) ->
  (strict m = true -> NoDup (map fst l)) -> P id (VMap l).

Fixpoint has_type_ind' id v (h : HT id v) {struct h} : P id v.
Proof.
  assert (F2 : forall fs l, Forall2 HT fs l -> Forall2 P fs l).
  { fix go 3. intros fs l h2. destruct h2; constructor; [apply has_type_ind'; assumption|apply go; assumption]. }
  assert (F1 : forall r l, Forall (HT r) l -> Forall (P r) l).
  { intros r. fix go 2. intros l h1. destruct h1; constructor; [apply has_type_ind'; assumption|apply go; assumption]. }
  destruct h.
  - now apply H_unit.
  - eapply H_uint; eauto.
  - eapply H_int; eauto.
  - eapply H_enum; eauto.
  - eapply H_union; eauto.
  - eapply H_tuple; eauto.
  - eapply H_rstring; eauto.
  - eapply H_struct; eauto.
  - eapply H_byte_array; eauto.
  - eapply H_array; eauto.
  - eapply H_chars; eauto.
  - eapply H_bytes; eauto.
  - eapply H_text; eauto.
  - eapply H_list; eauto.
  - eapply H_set; eauto.
  - eapply H_map; eauto.
Qed.
End Ind.

(** ** Small facts *)

Lemma len_width_byte_size s : len_width (s_max s) = byte_size s.
Proof.
  unfold len_width, byte_size, u8_max, u16_max, u24_max, u32_max.
  destruct (N.leb_spec (s_max s) 255), (N.leb_spec (s_max s) 65535),
    (N.leb_spec (s_max s) 16777215), (N.leb_spec (s_max s) 4294967295);
  destruct (N.ltb_spec (s_max s) (2^8)), (N.ltb_spec (s_max s) (2^16)),
    (N.ltb_spec (s_max s) (2^24)), (N.ltb_spec (s_max s) (2^32)); try reflexivity; lia.
Qed.

Lemma read_uint_le k n r : n < 2 ^ (8 * N.of_nat k) -> read_uint k (le k n ++ r) = Ok (n, r).
Proof.
  intros H. unfold read_uint. rewrite take_app' by apply le_length. cbn. now rewrite unle_le.
Qed.

Lemma read_len_enc sz n r : n < 2 ^ (8 * len_width (s_max sz)) -> read_len sz (enc_len sz n ++ r) = Ok (n, r).
Proof.
  intros H. unfold read_len, enc_len. apply read_uint_le.
  rewrite N2Nat.id. now rewrite <- len_width_byte_size.
Qed.

Lemma read_raw_app c b r : lenN b <= cap c -> read_raw c (lenN b) (b ++ r) = Ok (b, r).
Proof.
  intros H. unfold read_raw, alloc. destruct (N.ltb_spec (cap c) (lenN b)); [lia|]. cbn.
  unfold lenN. rewrite Nat2N.id, take_app. reflexivity.
Qed.

Lemma slen_bytes s : slen s = lenN (sbytes s).
Proof. unfold slen, lenN. now rewrite sbytes_length. Qed.

Lemma ascii_text_iff s : ascii_text s <-> is_ascii s = true.
Proof.
  unfold ascii_text, is_ascii, ascii_bytes. rewrite forallb_forall, Forall_forall.
  split; intros H x Hx; [apply N.ltb_lt|apply N.ltb_lt]; auto.
Qed.

Lemma byte_item_iff r : byte_item r <-> is_byte_id r = true.
Proof.
  unfold byte_item, is_byte_id. rewrite orb_true_iff, !N.eqb_eq. intuition.
Qed.

Lemma unicode_item_iff r : unicode_item r <-> is_unicode_id r = true.
Proof. unfold unicode_item, is_unicode_id. rewrite N.eqb_eq. intuition. Qed.

Lemma byte_item_false r : ~ byte_item r <-> is_byte_id r = false.
Proof. rewrite byte_item_iff. destruct (is_byte_id r); intuition congruence. Qed.

Lemma unicode_item_false r : ~ unicode_item r <-> is_unicode_id r = false.
Proof. rewrite unicode_item_iff. destruct (is_unicode_id r); intuition congruence. Qed.

Lemma char_enum_spec t : char_enum t = match chars_type t with Some _ => true | None => false end.
Proof.
  destruct t; try reflexivity.
  - unfold char_enum, chars_type, is_char_enum. destruct forallb; reflexivity.
  - destruct fs; reflexivity.
Qed.

Lemma u64_incr_ok {E} c n : n < u64_max -> @u64_incr E c n = Ok (n + 1).
Proof. intros H. unfold u64_incr. destruct (N.eqb_spec n u64_max); [lia|reflexivity]. Qed.

Lemma wf_rest_rstring sys id first rest r sz :
  wf_sys sys -> sys_find sys id = Some (TTuple [first; rest]) ->
  sys_find sys rest = Some (TList r sz) -> s_max sz < u64_max /\ s_min sz <= s_max sz.
Proof.
  intros W H1 H2. pose proof (wf_rests _ W _ _ H1) as W1. cbn in W1. rewrite H2 in W1.
  pose proof (wf_types _ W _ _ H2) as [W2 _]. unfold u64_max in *. lia.
Qed.

(** [is_rstring] agrees with the specification. *)
Lemma is_rstring_true c sys id fs a1 a2 min max :
  wf_sys sys -> sys_find sys id = Some (TTuple fs) -> restricted_string sys fs a1 a2 min max ->
  is_rstring c sys fs = Ok true
  /\ exists r, rstring_sizing c sys fs = Ok (Some (r, mkSizing (min + 1) (max + 1))).
Proof.
  intros W H0 H. destruct H as [first rest r t1 t2 -> H1 C1 H2 H3 C2].
  destruct (wf_rest_rstring _ _ _ _ _ _ W H0 H2) as [L1 L2]. cbn in L1, L2.
  assert (E : rstring_sizing c sys [first; rest] = Ok (Some (r, mkSizing (min + 1) (max + 1)))).
  { unfold rstring_sizing. cbn [nth_error expect bind]. rewrite H2. cbn [ok_or bind s_min s_max].
    rewrite !u64_incr_ok by lia. reflexivity. }
  split; [|eauto].
  unfold is_rstring. rewrite E. cbn [lenN List.length N.of_nat nth_error expect bind].
  change (negb _) with false. cbn iota.
  rewrite H1, H3. cbn [ok_or bind]. rewrite !char_enum_spec, C1, C2. reflexivity.
Qed.

(** For a tuple whose fields are known it gives false when it is not a restricted string. *)
Lemma is_rstring_false c sys id fs :
  wf_sys sys -> sys_find sys id = Some (TTuple fs) ->
  (forall a1 a2 min max, ~ restricted_string sys fs a1 a2 min max) ->
  Forall (fun f => match sys_find sys f with
                   | Some (TList r _) => sys_find sys r <> None
                   | Some _ => True
                   | None => False
                   end) fs ->
  is_rstring c sys fs = Ok false.
Proof.
  intros W H0 N F. unfold is_rstring.
  destruct fs as [|first [|rest [|? ?]]]; try reflexivity.
  - change (negb _) with false. cbn iota. cbn [nth_error expect bind].
    inversion F as [|? ? F1 F']; subst. inversion F' as [|? ? F2 _]; subst.
    unfold rstring_sizing. cbn [nth_error expect bind].
    destruct (sys_find sys rest) as [t2|] eqn:E2; [|easy]. cbn [ok_or bind].
    destruct t2; try reflexivity.
    destruct (wf_rest_rstring _ _ _ _ _ _ W H0 E2) as [L1 L2].
    rewrite !u64_incr_ok by lia. cbn [bind].
    destruct (sys_find sys first) as [t1|] eqn:E1; [|easy]. cbn [ok_or bind].
    destruct (char_enum t1) eqn:C1; [|reflexivity].
    destruct (sys_find sys r) as [t3|] eqn:E3; [|easy]. cbn [ok_or bind].
    destruct (char_enum t3) eqn:C3; [|reflexivity]. exfalso.
    rewrite char_enum_spec in C1, C3.
    destruct (chars_type t1) as [a1|] eqn:D1; [|easy].
    destruct (chars_type t3) as [a3|] eqn:D3; [|easy].
    destruct s as [mn mx].
    eapply N. econstructor; eauto.
  - replace (lenN (first :: rest :: s :: l) =? 2) with false; [reflexivity|].
    symmetry. apply N.eqb_neq. unfold lenN. cbn. lia.
Qed.

(** If it gives a result, then the result is right. *)
Lemma is_rstring_inv c sys id fs b :
  wf_sys sys -> sys_find sys id = Some (TTuple fs) -> is_rstring c sys fs = Ok b ->
  if b then exists a1 a2 min max, restricted_string sys fs a1 a2 min max
  else forall a1 a2 min max, ~ restricted_string sys fs a1 a2 min max.
Proof.
  intros W H0 H. destruct b.
  - unfold is_rstring in H. destruct (negb (lenN fs =? 2)) eqn:L; [discriminate|].
    apply negb_false_iff, N.eqb_eq in L. unfold lenN in L.
    destruct fs as [|first [|rest [|? ?]]]; cbn in L; try lia.
    cbn [nth_error expect bind] in H. unfold rstring_sizing in H. cbn [nth_error expect bind] in H.
    destruct (sys_find sys rest) as [t2|] eqn:E2; [|discriminate]. cbn [ok_or bind] in H.
    destruct t2; try discriminate.
    destruct (wf_rest_rstring _ _ _ _ _ _ W H0 E2) as [L1 L2].
    rewrite !u64_incr_ok in H by lia. cbn [bind] in H.
    destruct (sys_find sys first) as [t1|] eqn:E1; [|discriminate]. cbn [ok_or bind] in H.
    rewrite !char_enum_spec in H.
    destruct (chars_type t1) as [a1|] eqn:D1; [|discriminate].
    destruct (sys_find sys r) as [t3|] eqn:E3; [|discriminate]. cbn [ok_or bind] in H.
    rewrite !char_enum_spec in H. destruct (chars_type t3) as [a3|] eqn:D3; [|discriminate].
    destruct s as [mn mx]. exists a1, a3, mn, mx. econstructor; eauto.
  - intros a1 a2 mn mx R. destruct (is_rstring_true c _ _ _ _ _ _ _ W H0 R) as [E _]. congruence.
Qed.

Lemma type_of_find sys id t : wf_sys sys -> sys_find sys id = Some t -> type_of sys id = Some t.
Proof.
  intros W H. unfold type_of. destruct (N.eqb_spec id unit_id); [|exact H].
  subst. now rewrite (wf_unit _ W _ H).
Qed.

(** ** Lookups by name and tag *)

Lemma find_NoDup {A B} (f : A -> B) (eqb : B -> B -> bool) (l : list A) (x : A) :
  (forall a b, eqb a b = true <-> a = b) -> NoDup (map f l) -> In x l ->
  find (fun y => eqb (f y) (f x)) l = Some x.
Proof.
  intros E. induction l as [|y l IH]; cbn; intros ND I; [easy|].
  inversion ND as [|? ? NI ND']; subst.
  destruct I as [->|I].
  - now rewrite (proj2 (E _ _) eq_refl).
  - destruct (eqb (f y) (f x)) eqn:Q; [|auto].
    apply E in Q. exfalso. apply NI. rewrite Q. now apply in_map.
Qed.

Lemma ev_by_name_In vs v : NoDup (map v_name vs) -> In v vs -> ev_by_name vs (v_name v) = Some v.
Proof. intros. unfold ev_by_name. apply (find_NoDup v_name String.eqb); auto. intros; apply String.eqb_eq. Qed.

Lemma ev_by_tag_In vs v : NoDup (map v_tag vs) -> In v vs -> ev_by_tag vs (v_tag v) = Some v.
Proof. intros. unfold ev_by_tag. apply (find_NoDup v_tag N.eqb); auto. intros; apply N.eqb_eq. Qed.

Lemma uv_by_name_In {R} (vs : list (variant * R)) e :
  NoDup (map (fun e => v_name (fst e)) vs) -> In e vs -> uv_by_name vs (v_name (fst e)) = Some e.
Proof.
  intros. unfold uv_by_name. apply (find_NoDup (fun e : variant * R => v_name (fst e)) String.eqb); auto.
  intros; apply String.eqb_eq.
Qed.

Lemma uv_by_tag_In {R} (vs : list (variant * R)) e :
  NoDup (map (fun e => v_tag (fst e)) vs) -> In e vs -> uv_by_tag vs (v_tag (fst e)) = Some e.
Proof.
  intros. unfold uv_by_tag. apply (find_NoDup (fun e : variant * R => v_tag (fst e)) N.eqb); auto.
  intros; apply N.eqb_eq.
Qed.

(** ** Insertion-ordered maps *)

Lemma imap_insert_new {V} k (v : V) m : ~ In k (map fst m) -> imap_insert k v m = m ++ [(k, v)].
Proof.
  induction m as [|[k' v'] m IH]; cbn; intros H; [reflexivity|].
  destruct (String.eqb_spec k' k); [subst; exfalso; auto|]. rewrite IH; auto.
Qed.

Lemma imap_fold_new {V} (l m : list (string * V)) :
  NoDup (map fst m ++ map fst l) ->
  fold_left (fun m e => imap_insert (fst e) (snd e) m) l m = m ++ l.
Proof.
  revert m; induction l as [|[k v] l IH]; cbn; intros m ND; [now rewrite app_nil_r|].
  rewrite imap_insert_new.
  - rewrite IH; [now rewrite <- app_assoc|]. rewrite map_app, <- app_assoc. exact ND.
  - intros I. apply NoDup_remove_2 in ND. apply ND. apply in_or_app. auto.
Qed.

Lemma imap_collect {V} (l : list (string * V)) :
  NoDup (map fst l) -> fold_left (fun m e => imap_insert (fst e) (snd e) m) l [] = l.
Proof. intros H. now rewrite imap_fold_new. Qed.

Lemma imap_get_In {V} (m : list (string * V)) k v :
  NoDup (map fst m) -> In (k, v) m -> imap_get m k = Some v.
Proof.
  intros ND I. unfold imap_get.
  change k with (fst (k, v)).
  rewrite (find_NoDup fst String.eqb m (k, v)); auto. intros; apply String.eqb_eq.
Qed.

Lemma imap_get_map {V W} (f : V -> W) (m : list (string * V)) k :
  imap_get (map (fun e => (fst e, f (snd e))) m) k = option_map f (imap_get m k).
Proof.
  unfold imap_get. induction m as [|[k' v] m IH]; cbn; [reflexivity|].
  destruct (k' =? k)%string; [reflexivity|]. exact IH.
Qed.
