(** Properties of serialization and deserialization of values: C01-C07, C16-C18. *)
From Coq Require Import NArith ZArith List Bool String Ascii Strings.Byte Lia.
From Verif Require Import Base Ty Ids Val TypeSys Encode Decode DecodeShort Spec CodecProofs ReadLemmas RoundTrip Sound ExampleSys.
Import ListNotations.
Local Open Scope N_scope.

(** ** C01: serialize, then deserialize *)

(** Proved for values without non-byte fixed-size arrays inside. In a release build the value may even break
    the restrictions (bounds, alphabets, uniqueness) as long as its lengths fit into the length prefixes. *)
Theorem C01_round_trip_partial : forall m c ce sys id v,
  wf_sys sys -> (dbg ce = true -> strict m = true) -> arrays m = false ->
  has_type m c sys id v ->
  exists bs,
    (forall max_len, lenN bs <= max_len -> strict_serialize_value max_len ce sys (mkTyped id v) = Ok bs)
    /\ (lenN bs <= u32_max ->
        returns (fun fuel => strict_deserialize_type fuel c sys id bs) (Ok (mkTyped id v))).
Proof. intros m c ce sys id v W D NA T. exact (rt_serialize m c ce sys W D NA id v T). Qed.
Print Assumptions C01_round_trip_partial.

Example C01_case : exists bs,
  strict_serialize_value 65535 ex_config ex_sys (mkTyped i_root ex_value) = Ok bs
  /\ returns (fun fuel => strict_deserialize_type fuel ex_config ex_sys i_root bs) (Ok (mkTyped i_root ex_value)).
Proof.
  destruct (C01_round_trip_partial (mkMode true false) ex_config ex_config ex_sys i_root ex_value
    ex_sys_wf (fun _ => eq_refl) eq_refl ex_value_typed) as [bs [A B]].
  assert (S : strict_serialize_value 65535 ex_config ex_sys (mkTyped i_root ex_value)
    = Ok ([xfb] ++ [x04] ++ sbytes "abac" ++ [x03] ++ sbytes "cab" ++ [x02; xff; x00] ++ [x06; x00] ++ sbytes "no: <>"
          ++ [x01; x02; x03; x04] ++ [x02; x00; xe8; x03; x00; x00; x00; x01; xff; xff] ++ [x02; x07; x00; x03; x00]
          ++ [x01; x05; x00; x00])).
  { vm_compute. reflexivity. }
  assert (E : bs = [xfb] ++ [x04] ++ sbytes "abac" ++ [x03] ++ sbytes "cab" ++ [x02; xff; x00] ++ [x06; x00] ++ sbytes "no: <>"
          ++ [x01; x02; x03; x04] ++ [x02; x00; xe8; x03; x00; x00; x00; x01; xff; xff] ++ [x02; x07; x00; x03; x00]
          ++ [x01; x05; x00; x00]).
  { pose proof (A (lenN bs + 65535) ltac:(lia)) as Q. apply serialize_inv in Q as [Q _].
    apply serialize_inv in S as [S _]. congruence. }
  exists bs. rewrite E in *. split; [exact S|]. apply B. vm_compute. discriminate.
Qed.

(** The full statement fails: a value of an array type whose items are not bytes can not be serialized at
    all, in any build. *)
Theorem C01_refuted : exists sys id v,
  wf_sys sys /\ has_type (mkMode true true) ex_config sys id v
  /\ forall ce max_len, strict_serialize_value max_len ce sys (mkTyped id v) = Panic.
Proof.
  exists ex_sys_arr, i_array, ex_array. split; [exact ex_sys_arr_wf|]. split; [exact ex_array_typed|].
  intros ce max_len. unfold strict_serialize_value, strict_write_value, ex_array. cbn [tv_val tv_id write_val].
  replace (type_of ex_sys_arr i_array) with (Some (TArray i_u16 2)) by (vm_compute; reflexivity). reflexivity.
Qed.
Print Assumptions C01_refuted.

(** ** C02: deserialize, then serialize *)

(** Proved for systems in which fixed-size arrays are arrays of bytes, for release builds ... *)
Theorem C02_reencode_partial : forall c ce sys fuel id data tv max_len,
  wf_sys sys -> byte_arrays_only sys -> dbg ce = false ->
  strict_deserialize_type fuel c sys id data = Ok tv -> lenN data <= max_len ->
  strict_serialize_value max_len ce sys tv = Ok data.
Proof. intros c ce sys fuel id data tv max_len W B D. exact (reencode c ce sys fuel id data tv max_len W D B). Qed.
Print Assumptions C02_reencode_partial.

(** ... and for debug builds when the value meets the restrictions of its type. *)
Theorem C02_reencode_debug_partial : forall c ce sys fuel id data tv max_len,
  wf_sys sys -> byte_arrays_only sys ->
  strict_deserialize_type fuel c sys id data = Ok tv -> has_type (mkMode true true) c sys id (tv_val tv) ->
  lenN data <= max_len ->
  strict_serialize_value max_len ce sys tv = Ok data.
Proof. exact reencode_debug. Qed.
Print Assumptions C02_reencode_debug_partial.

(** Consequently the accepted encoding of a value is unique. *)
Theorem C02_unique_partial : forall c sys fuel fuel' id data data' tv,
  wf_sys sys -> byte_arrays_only sys ->
  strict_deserialize_type fuel c sys id data = Ok tv -> strict_deserialize_type fuel' c sys id data' = Ok tv ->
  data = data'.
Proof.
  intros c sys fuel fuel' id data data' tv W B H H'.
  pose proof (reencode c (mkConfig false 0) sys _ _ _ _ (lenN data + lenN data') W eq_refl B H ltac:(lia)) as R.
  pose proof (reencode c (mkConfig false 0) sys _ _ _ _ (lenN data + lenN data') W eq_refl B H' ltac:(lia)) as R'.
  congruence.
Qed.
Print Assumptions C02_unique_partial.

Lemma ex_sys_byte_arrays : byte_arrays_only ex_sys.
Proof.
  intros id r len H. unfold sys_find in H.
  destruct (find (fun e => fst e =? id) ex_sys) as [e|] eqn:F; [|discriminate].
  apply find_some in F as [F _]. cbn in H. unfold ex_sys in F. cbn [In] in F.
  repeat destruct F as [F|F]; try (subst e; cbn [snd] in H; discriminate H); [|easy].
  subst e. injection H as <- <-. left. rewrite byte_id_val. reflexivity.
Qed.

Example C02_case :
  strict_deserialize_type 9 ex_config ex_sys i_list [x01; x00; xe8; x03; x01; xff; xff]
  = Ok (mkTyped i_list (VList [VTuple [VNum (Uint 1000); VUnion (Name "some") (VNum (Uint 65535))]])).
Proof. vm_compute. reflexivity. Qed.

(** The full statement fails for arrays of items other than bytes (any build) ... *)
Theorem C02_refuted : exists sys id data tv,
  wf_sys sys /\ strict_deserialize_type 9 ex_config sys id data = Ok tv
  /\ forall ce max_len, strict_serialize_value max_len ce sys tv = Panic.
Proof.
  exists ex_sys_arr, i_array, [x01; x00; x02; x00], (mkTyped i_array ex_array).
  split; [exact ex_sys_arr_wf|]. split; [vm_compute; reflexivity|].
  intros ce max_len. unfold strict_serialize_value, strict_write_value, ex_array. cbn [tv_val tv_id write_val].
  replace (type_of ex_sys_arr i_array) with (Some (TArray i_u16 2)) by (vm_compute; reflexivity). reflexivity.
Qed.
Print Assumptions C02_refuted.

(** ... and, in debug builds, for restricted strings longer than allowed. *)
Theorem C02_debug_refuted : exists sys id data tv,
  wf_sys sys /\ byte_arrays_only sys /\ strict_deserialize_type 9 ex_config sys id data = Ok tv
  /\ forall max_len, strict_serialize_value max_len ex_config sys tv = Panic.
Proof.
  exists ex_sys, i_word, (x06 :: sbytes "aaaaaa"), (mkTyped i_word (VStr "aaaaaa")).
  split; [exact ex_sys_wf|]. split; [exact ex_sys_byte_arrays|]. split; [vm_compute; reflexivity|].
  intros max_len. unfold strict_serialize_value.
  replace (strict_write_value ex_config ex_sys (mkTyped i_word (VStr "aaaaaa"))) with (@Panic enc_error bytes)
    by (vm_compute; reflexivity). reflexivity.
Qed.
Print Assumptions C02_debug_refuted.

(** ** C03: encodings are unambiguous and prefix free *)

Theorem C03_prefix_free : forall m c ce sys id v1 v2 max_len b1 b2 suffix,
  wf_sys sys -> (dbg ce = true -> strict m = true) -> arrays m = false ->
  has_type m c sys id v1 -> has_type m c sys id v2 ->
  strict_serialize_value max_len ce sys (mkTyped id v1) = Ok b1 ->
  strict_serialize_value max_len ce sys (mkTyped id v2) = Ok b2 ->
  b2 = b1 ++ suffix -> v1 = v2 /\ suffix = [].
Proof.
  intros m c ce sys id v1 v2 max_len b1 b2 suffix W D NA T1 T2 H1 H2.
  apply serialize_inv in H1 as [H1 _]. apply serialize_inv in H2 as [H2 _].
  exact (rt_prefix_free m c ce sys W D NA id v1 v2 b1 b2 suffix T1 T2 H1 H2).
Qed.
Print Assumptions C03_prefix_free.

Example C03_case :
  has_type (mkMode true false) ex_config ex_sys i_u16 (VNum (Uint 7))
  /\ has_type (mkMode true false) ex_config ex_sys i_u16 (VNum (Uint 8))
  /\ strict_serialize_value 9 ex_config ex_sys (mkTyped i_u16 (VNum (Uint 7))) = Ok [x07; x00]
  /\ strict_serialize_value 9 ex_config ex_sys (mkTyped i_u16 (VNum (Uint 8))) = Ok [x08; x00].
Proof.
  repeat split; try (vm_compute; reflexivity); (eapply HT_uint; [vm_compute; reflexivity|reflexivity|reflexivity]).
Qed.

(** ** C04: truncated or extended data are rejected *)

Theorem C04_truncated : forall m c ce sys id v max_len kept cut,
  wf_sys sys -> (dbg ce = true -> strict m = true) -> arrays m = false ->
  has_type m c sys id v ->
  strict_serialize_value max_len ce sys (mkTyped id v) = Ok (kept ++ cut) ->
  cut <> [] -> lenN (kept ++ cut) <= u32_max ->
  returns (fun fuel => strict_deserialize_type fuel c sys id kept) (Err DEof).
Proof.
  intros m c ce sys id v max_len kept cut W D NA T H. apply serialize_inv in H as [H _].
  exact (rt_truncated m c ce sys W D NA id v kept cut T H).
Qed.
Print Assumptions C04_truncated.

Theorem C04_extended : forall m c ce sys id v max_len bs extra,
  wf_sys sys -> (dbg ce = true -> strict m = true) -> arrays m = false ->
  has_type m c sys id v ->
  strict_serialize_value max_len ce sys (mkTyped id v) = Ok bs ->
  extra <> [] -> lenN bs <= u32_max ->
  returns (fun fuel => strict_deserialize_type fuel c sys id (bs ++ extra)) (Err DNotEntirelyConsumed).
Proof.
  intros m c ce sys id v max_len bs extra W D NA T H. apply serialize_inv in H as [H _].
  exact (rt_extended m c ce sys W D NA id v bs extra T H).
Qed.
Print Assumptions C04_extended.

Example C04_case :
  strict_serialize_value 9 ex_config ex_sys (mkTyped i_word (VStr "abc")) = Ok ([x03; x61] ++ [x62; x63])
  /\ strict_deserialize_type 9 ex_config ex_sys i_word [x03; x61] = Err DEof
  /\ strict_deserialize_type 9 ex_config ex_sys i_word [x03; x61; x62; x63; x00] = Err DNotEntirelyConsumed.
Proof. repeat split; vm_compute; reflexivity. Qed.

(** ** C05: reading consumes exactly the bytes of the value *)

Theorem C05_framing : forall m c ce sys id v max_len bs,
  wf_sys sys -> (dbg ce = true -> strict m = true) -> arrays m = false ->
  has_type m c sys id v ->
  strict_serialize_value max_len ce sys (mkTyped id v) = Ok bs ->
  exists depth, forall fuel rest, (depth <= fuel)%nat ->
    strict_read_type fuel c sys id (bs ++ rest) = Ok (mkTyped id v, rest).
Proof.
  intros m c ce sys id v max_len bs W D NA T H. apply serialize_inv in H as [H _].
  destruct (round_trip m c ce sys W D NA id v T) as [b [E R]]. rewrite H in E. injection E as <-.
  exists (vdepth v). intros fuel rest L. unfold strict_read_type. rewrite R by assumption. reflexivity.
Qed.
Print Assumptions C05_framing.

(** Any successful read consumes a definite part of the data; the result is the same whatever follows that
    part, and no shorter part of it suffices. *)
Theorem C05_locality : forall fuel c sys id data tv rest,
  strict_read_type fuel c sys id data = Ok (tv, rest) ->
  exists used, data = used ++ rest
    /\ (forall other, strict_read_type fuel c sys id (used ++ other) = Ok (tv, other))
    /\ (forall p q, used = p ++ q -> q <> [] -> strict_read_type fuel c sys id p = Err DEof).
Proof.
  intros fuel c sys id data tv rest H. unfold strict_read_type in *.
  apply bind_Ok in H as [[v r] [H E]]. injection E as <- <-.
  destruct (local_read_type _ _ _ _ _ _ _ H) as [bs [-> [A B]]]. exists bs. split; [reflexivity|]. split.
  - intros other. rewrite A. reflexivity.
  - intros p q E N. rewrite (B p q E N). reflexivity.
Qed.
Print Assumptions C05_locality.

Example C05_case : strict_read_type 9 ex_config ex_sys i_word [x02; x61; x62; xde; xad]
  = Ok (mkTyped i_word (VStr "ab"), [xde; xad]).
Proof. vm_compute. reflexivity. Qed.

(** ** C06: what decoded values satisfy *)

(** Deserialization checks neither size bounds nor alphabets: a list of 1..4 characters from "abc" is read
    as nine characters "z". *)
Theorem C06_refuted : exists sys id r min max alphabet data s,
  wf_sys sys /\ sys_find sys id = Some (TList r (mkSizing min max))
  /\ option_map chars_type (sys_find sys r) = Some (Some alphabet)
  /\ strict_deserialize_type 9 ex_config sys id data = Ok (mkTyped id (VStr s))
  /\ max < slen s /\ ~ in_alphabet alphabet (sbytes s).
Proof.
  exists ex_sys, i_rest, i_letter, 1, 4, [97; 98; 99], (x09 :: sbytes "zzzzzzzzz"), "zzzzzzzzz"%string.
  split; [exact ex_sys_wf|]. repeat split; try (vm_compute; reflexivity).
  intros H. vm_compute in H. inversion H as [|? ? H1]; subst. clear -H1. cbn in H1. intuition discriminate.
Qed.
Print Assumptions C06_refuted.

(** The same for a set below its minimal size... an empty map for a type of 1..2 entries. *)
Theorem C06_minimum_refuted : exists sys id k r min max data l,
  wf_sys sys /\ sys_find sys id = Some (TMap k r (mkSizing min max))
  /\ strict_deserialize_type 9 ex_config sys id data = Ok (mkTyped id (VMap l)) /\ lenN l < min.
Proof.
  exists ex_sys, i_map, i_color, i_text, 1, 2, [x00], [].
  split; [exact ex_sys_wf|]. repeat split; vm_compute; reflexivity.
Qed.
Print Assumptions C06_minimum_refuted.

(** What holds: the value has the shape of its type and each length fits into its length prefix ... *)
Theorem C06_shape_partial : forall c sys fuel id data tv,
  wf_sys sys -> strict_deserialize_type fuel c sys id data = Ok tv ->
  tv_id tv = id /\ has_type (mkMode false true) c sys id (tv_val tv).
Proof. exact decode_typed. Qed.
Print Assumptions C06_shape_partial.

(** ... and nothing more is guaranteed: these are precisely the values which can be obtained (when their
    encoding is within the limit of 2^32-1 bytes). *)
Theorem C06_image_partial : forall c sys id v,
  wf_sys sys -> byte_arrays_only sys ->
  (exists fuel data, strict_deserialize_type fuel c sys id data = Ok (mkTyped id v)) <->
  (has_type (mkMode false true) c sys id v
   /\ exists bs, strict_write_value (mkConfig false 0) sys (mkTyped id v) = Ok bs /\ lenN bs <= u32_max).
Proof. exact decode_image. Qed.
Print Assumptions C06_image_partial.

Example C06_case : wf_sys ex_sys /\ byte_arrays_only ex_sys
  /\ strict_deserialize_type 9 ex_config ex_sys i_rest [x05; x7a; x7a; x7a; x7a; x7a]
     = Ok (mkTyped i_rest (VStr "zzzzz")).
Proof. split; [exact ex_sys_wf|]. split; [exact ex_sys_byte_arrays|]. vm_compute. reflexivity. Qed.

(** ** C07: decoded sets and maps may have repeated elements and keys *)

Theorem C07_set_refuted : exists sys id data x,
  wf_sys sys /\ strict_deserialize_type 9 ex_config sys id data = Ok (mkTyped id (VSet [x; x])).
Proof.
  exists ex_sys, i_set, [x02; x07; x00; x07; x00], (VNum (Uint 7)).
  split; [exact ex_sys_wf|]. vm_compute. reflexivity.
Qed.
Print Assumptions C07_set_refuted.

Theorem C07_map_refuted : exists sys id data k v1 v2,
  wf_sys sys /\ v1 <> v2
  /\ strict_deserialize_type 9 ex_config sys id data = Ok (mkTyped id (VMap [(k, v1); (k, v2)])).
Proof.
  exists ex_sys, i_map, [x02; x05; x00; x00; x05; x01; x00; x61], (VEnum (Name "green")), (VStr ""), (VStr "a").
  split; [exact ex_sys_wf|]. split; [discriminate|]. vm_compute. reflexivity.
Qed.
Print Assumptions C07_map_refuted.

(** ** C16: panics of deserialization *)

(** Proved for well-formed systems which use Unicode characters only in text and when memory suffices for
    the lengths which the length prefixes can express. *)
Theorem C16_no_panic_partial : forall c sys id,
  wf_sys sys -> unicode_in_text_only sys -> memory_suffices c sys -> sys_find sys id <> Some TUnicode ->
  forall fuel data, strict_deserialize_type fuel c sys id data <> Panic.
Proof. intros c sys id W U M N fuel data. exact (deserialize_no_panic c sys W U M fuel id data N). Qed.
Print Assumptions C16_no_panic_partial.

Lemma ex_entry id t : sys_find ex_sys id = Some t -> In (id, t) ex_sys.
Proof.
  unfold sys_find. destruct (find (fun e => fst e =? id) ex_sys) as [[i t']|] eqn:F; [|discriminate].
  apply find_some in F as [F E]. apply N.eqb_eq in E. cbn in E. subst i. intros H. injection H as <-. exact F.
Qed.

Example C16_case :
  wf_sys ex_sys /\ unicode_in_text_only ex_sys /\ memory_suffices ex_config ex_sys
  /\ sys_find ex_sys i_root <> Some TUnicode.
Proof.
  split; [exact ex_sys_wf|]. split; [|split].
  - intros id t r F I U. apply ex_entry in F. apply ex_entry in U.
    assert (R : r = i_unicode).
    { unfold ex_sys in U. cbn [In] in U. repeat destruct U as [U|U]; try discriminate U; [|easy].
      injection U as <-. reflexivity. }
    subst r. split; [symmetry; apply unicode_id_val|].
    unfold ex_sys in F. cbn [In] in F.
    repeat destruct F as [F|F]; try easy; injection F as <- <-; cbn in I; try easy;
      repeat destruct I as [I|I]; try discriminate I; try easy.
    eexists. split; [reflexivity|reflexivity].
  - intros id t F. apply ex_entry in F. unfold ex_sys in F. cbn [In] in F.
    repeat destruct F as [F|F]; try easy; injection F as <- <-; try exact I; vm_compute; discriminate.
  - vm_compute. discriminate.
Qed.

(** The full statement fails: reading a Unicode character is not implemented ... *)
Theorem C16_unicode_refuted : exists sys id, wf_sys sys /\
  forall fuel c data, strict_deserialize_type (S fuel) c sys id data = Panic.
Proof.
  exists ex_sys, i_unicode. split; [exact ex_sys_wf|]. intros. unfold strict_deserialize_type, strict_read_type.
  cbn [read_type]. replace (sys_find ex_sys i_unicode) with (Some (@TUnicode semid)) by (vm_compute; reflexivity).
  reflexivity.
Qed.
Print Assumptions C16_unicode_refuted.

(** ... eight bytes of data request 2^64-1 items, more than any memory has ... *)
Definition huge_sys : type_system := [(1, TPrim P_U16); (2, TList 1 (mkSizing 0 18446744073709551615))].
Theorem C16_memory_refuted : exists id data, wf_sys huge_sys /\ lenN data = 8 /\
  forall fuel c, cap c < 2 ^ 64 - 1 -> strict_deserialize_type (S fuel) c huge_sys id data = Panic.
Proof.
  exists 2, [xff; xff; xff; xff; xff; xff; xff; xff]. split; [|split; [reflexivity|]].
  - apply wf_sys_entries.
    + repeat (apply Forall_cons; [wf_entry|]). constructor.
    + repeat (apply Forall_cons; [exact I|]). constructor.
    + rewrite unit_id_val. intros t H. vm_compute in H. discriminate.
  - intros fuel c H. unfold strict_deserialize_type, strict_read_type. cbn [read_type].
    replace (sys_find huge_sys 2) with (Some (TList 1 (mkSizing 0 18446744073709551615))) by (vm_compute; reflexivity).
    cbn [ok_or bind]. rewrite short_read. cbn [short_ty]. replace (sys_find huge_sys 1) with (Some (@TPrim semid P_U16)) by (vm_compute; reflexivity).
    cbn [ok_or bind].
    replace (char_enum (TPrim P_U16)) with false by reflexivity.
    replace (is_byte_id 1 && (s_max (mkSizing 0 18446744073709551615) <=? u32_max)) with false
      by (vm_compute; reflexivity).
    replace (is_unicode_id 1 && (s_max (mkSizing 0 18446744073709551615) <=? u32_max)) with false
      by (vm_compute; reflexivity).
    replace (read_len (mkSizing 0 18446744073709551615) (limit32 [xff; xff; xff; xff; xff; xff; xff; xff]))
      with (@Ok dec_error _ (18446744073709551615, @nil byte)) by (vm_compute; reflexivity).
    cbn [bind]. unfold read_list, alloc.
    destruct (N.ltb_spec (cap c) 18446744073709551615) as [L|L]; [reflexivity|].
    change (2 ^ 64 - 1) with 18446744073709551615 in H. lia.
Qed.
Print Assumptions C16_memory_refuted.

(** ... and in debug builds a pair with a list of unbounded size overflows (here the pair is not even a
    restricted string). *)
Definition overflow_sys : type_system :=
  [(1, TPrim P_U16); (2, TList 1 (mkSizing 0 18446744073709551615)); (3, TTuple [1; 2])].
Theorem C16_overflow_refuted : exists id,
  (forall i t, sys_find overflow_sys i = Some t -> wf_ty t)
  /\ forall fuel c data, dbg c = true -> strict_deserialize_type (S fuel) c overflow_sys id data = Panic.
Proof.
  exists 3. split.
  - intros i t H. unfold sys_find, overflow_sys in H. cbn [find fst] in H.
    destruct (1 =? i); [injection H as <-; reflexivity|].
    destruct (2 =? i); [injection H as <-; split; vm_compute; [discriminate|reflexivity]|].
    destruct (3 =? i); [injection H as <-; exact I|discriminate].
  - intros fuel c data D. unfold strict_deserialize_type, strict_read_type. cbn [read_type].
    replace (sys_find overflow_sys 3) with (Some (TTuple [1; 2])) by (vm_compute; reflexivity).
    cbn [ok_or bind read_ty]. unfold is_rstring, rstring_sizing. cbn [nth_error expect bind].
    replace (sys_find overflow_sys 2) with (Some (TList 1 (mkSizing 0 18446744073709551615))) by (vm_compute; reflexivity).
    unfold u64_incr. cbn. rewrite D. reflexivity.
Qed.
Print Assumptions C16_overflow_refuted.

(** ** C17: the size limit of serialization *)

Theorem C17_limit : forall max_len c sys tv,
  match strict_write_value c sys tv with
  | Ok bs =>
      (lenN bs <= max_len -> strict_serialize_value max_len c sys tv = Ok bs)
      /\ (max_len < lenN bs -> strict_serialize_value max_len c sys tv = Err ResultOversize)
  | Err e => strict_serialize_value max_len c sys tv = Err e
  | Panic => strict_serialize_value max_len c sys tv = Panic
  | Diverge => strict_serialize_value max_len c sys tv = Diverge
  end.
Proof.
  intros max_len c sys tv. unfold strict_serialize_value. destruct (strict_write_value c sys tv); try reflexivity.
  cbn [bind]. split; intros H.
  - apply N.leb_le in H. now rewrite H.
  - apply N.leb_gt in H. now rewrite H.
Qed.
Print Assumptions C17_limit.

Theorem C17_bound : forall max_len c sys tv bs,
  strict_serialize_value max_len c sys tv = Ok bs ->
  lenN bs <= max_len /\ strict_write_value c sys tv = Ok bs.
Proof.
  intros max_len c sys [id v] bs H. apply serialize_inv in H as [A B]. split; assumption.
Qed.
Print Assumptions C17_bound.

Example C17_case :
  strict_serialize_value 2 ex_config ex_sys (mkTyped i_u16 (VNum (Uint 7))) = Ok [x07; x00]
  /\ strict_serialize_value 1 ex_config ex_sys (mkTyped i_u16 (VNum (Uint 7))) = Err ResultOversize.
Proof. split; vm_compute; reflexivity. Qed.

(** ** C18: tags *)

Theorem C18_enum : forall fuel c sys id vs b rest,
  wf_sys sys -> sys_find sys id = Some (TEnum vs) ->
  (~ In (Byte.to_N b) (map v_tag vs) ->
     strict_read_type (S fuel) c sys id (b :: rest) = Err (DTagNotKnown id (Byte.to_N b)))
  /\ (forall v, In v vs -> v_tag v = Byte.to_N b ->
     strict_read_type (S fuel) c sys id (b :: rest) = Ok (mkTyped id (VEnum (Name (v_name v))), rest)).
Proof.
  intros fuel c sys id vs b rest W F. split.
  - exact (enum_unknown fuel c sys id vs b rest F).
  - intros v. exact (enum_known fuel c sys id vs v b rest W F).
Qed.
Print Assumptions C18_enum.

Theorem C18_union : forall fuel c sys id vs b data,
  wf_sys sys -> sys_find sys id = Some (TUnion vs) ->
  (~ In (Byte.to_N b) (map (fun e => v_tag (fst e)) vs) ->
     strict_read_type (S fuel) c sys id (b :: data) = Err (DTagNotKnown id (Byte.to_N b)))
  /\ (forall v r w rest, In (v, r) vs -> v_tag v = Byte.to_N b ->
     strict_read_type fuel c sys r data = Ok (w, rest) ->
     strict_read_type (S fuel) c sys id (b :: data)
     = Ok (mkTyped id (VUnion (Name (v_name v)) (tv_val w)), rest)).
Proof.
  intros fuel c sys id vs b data W F. split.
  - exact (union_unknown fuel c sys id vs b data F).
  - intros v r w rest. exact (union_known fuel c sys id vs v r b data w rest W F).
Qed.
Print Assumptions C18_union.

Example C18_case :
  sys_find ex_sys i_color = Some (TEnum [mkVariant "red" 0; mkVariant "green" 5])
  /\ strict_read_type 3 ex_config ex_sys i_color [x01; x02] = Err (DTagNotKnown i_color 1)
  /\ strict_read_type 3 ex_config ex_sys i_option [x02; x00; x00] = Err (DTagNotKnown i_option 2).
Proof. repeat split; vm_compute; reflexivity. Qed.
