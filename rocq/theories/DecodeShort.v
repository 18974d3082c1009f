(** A shorter form of the decoder: the arms which differ in the size of the length prefix together. *)
From Coq Require Import NArith ZArith List Bool String Ascii Strings.Byte.
From Verif Require Import Base Ty Ids Val TypeSys Encode Decode.
Import ListNotations.
Local Open Scope N_scope.

Definition read_len (sz : sizing) (d : bytes) : reading N := read_uint (N.to_nat (byte_size sz)) d.
Definition read_ascii (c : config) (sz : sizing) (d : bytes) : reading sval :=
  let* (len, d) := read_len sz d in
  let* (b, d) := read_raw c len d in
  if ascii_bytes b then Ok (VStr (bstring b), d) else Err DInvalidString.
Definition read_blob (c : config) (sz : sizing) (d : bytes) : reading sval :=
  let* (len, d) := read_len sz d in
  let* (b, d) := read_raw c len d in
  Ok (VBytes b, d).
Definition read_string (c : config) (sz : sizing) (d : bytes) : reading sval :=
  let* (len, d) := read_len sz d in
  let* (b, d) := read_raw c len d in
  if utf8_valid b then Ok (VStr (bstring b), d) else Err DInvalidString.

Definition short_ty (rec : semid -> bytes -> reading sval) (c : config) (sys : type_system) (id : semid)
    (t : ty semid) (d : bytes) : reading sval :=
  match t with
  | TPrim p => read_prim p d
  | TUnicode => Panic
  | TList r sz =>
      let* rt := ok_or (sys_find sys r) (DTypeAbsent id) in
      if char_enum rt then read_ascii c sz d
      else if is_byte_id r && (s_max sz <=? u32_max) then read_blob c sz d
      else if is_unicode_id r && (s_max sz <=? u32_max) then read_string c sz d
      else
        let* (len, d) := read_len sz d in
        let* (l, d) := read_list rec c len r d in
        Ok (VList l, d)
  | TTuple fs =>
      let* rs := lift_unknown (is_rstring c sys fs) in
      if rs then
        let* o := lift_unknown (rstring_sizing c sys fs) in
        let* p := expect o in
        read_ascii c (snd p) d
      else
        let* (l, d) := read_seq rec fs d in
        Ok (VTuple l, d)
  | TEnum vs =>
      let* (tag, d) := read_uint 1 d in
      let* name := ok_or (ev_name_by_tag vs tag) (DTagNotKnown id tag) in
      Ok (VEnum (Name name), d)
  | TUnion vs =>
      let* (tag, d) := read_uint 1 d in
      let* e := ok_or (uv_by_tag vs tag) (DTagNotKnown id tag) in
      let* (v, d) := rec (snd e) d in
      Ok (VUnion (Name (v_name (fst e))) v, d)
  | TStruct fs =>
      let* (l, d) := read_seq (fun f d => let* (v, d) := rec (snd f) d in Ok ((fst f, v), d)) fs d in
      Ok (VStruct (fold_left (fun m e => imap_insert (fst e) (snd e) m) l []), d)
  | TArray r len =>
      if is_byte_id r then
        let* (b, d) := read_raw c len d in Ok (VBytes b, d)
      else
        let* _ := alloc c len in
        let* (l, d) := read_n (rec r) (N.to_nat len) d in
        Ok (VList l, d)
  | TSet r sz =>
      let* (len, d) := read_len sz d in
      let* (l, d) := read_list rec c len r d in
      Ok (VSet l, d)
  | TMap k r sz =>
      let* (len, d) := read_len sz d in
      let* (l, d) := read_map rec c len k r d in
      Ok (VMap l, d)
  end.

Lemma ascii_short c sz d : read_ascii_list c sz d = read_ascii c sz d.
Proof.
  unfold read_ascii_list, read_ascii, read_len, byte_size, decode_ascii.
  repeat match goal with |- context [if ?b then _ else _] => destruct b; [reflexivity|] end. reflexivity.
Qed.
Lemma rstring_short c sz d : read_rstring c sz d = read_ascii c sz d.
Proof.
  unfold read_rstring, read_ascii, read_len, byte_size, decode_ascii.
  repeat match goal with |- context [if ?b then _ else _] => destruct b; [reflexivity|] end. reflexivity.
Qed.
Lemma short_read rec c sys id t d : read_ty rec c sys id t d = short_ty rec c sys id t d.
Proof.
  destruct t; try reflexivity; cbn [read_ty short_ty].
  - destruct (lift_unknown (is_rstring c sys fs)) as [[|]|e| |]; cbn [bind]; try reflexivity.
    destruct (lift_unknown (rstring_sizing c sys fs)) as [o|e| |]; cbn [bind]; try reflexivity.
    destruct o as [p|]; cbn [expect bind]; [apply rstring_short|reflexivity].
  - destruct (ok_or (sys_find sys r) (DTypeAbsent id)) as [rt|e| |]; cbn [bind]; try reflexivity.
    rewrite ascii_short. destruct (char_enum rt); [reflexivity|].
    unfold read_blob, read_string, read_len, byte_size, decode_blob, decode_string, read_list_arm.
    assert (A : forall m n x, m <= n -> x <=? m = true -> x <=? n = true).
    { intros m n x L H. apply N.leb_le in H. apply N.leb_le. eapply N.le_trans; eassumption. }
    assert (L1 : u8_max <= u32_max) by discriminate. assert (L2 : u16_max <= u32_max) by discriminate.
    assert (L3 : u24_max <= u32_max) by discriminate.
    destruct (s_max s <=? u8_max) eqn:E1.
    { rewrite (A _ u32_max _ L1 E1), !andb_true_r. destruct (is_byte_id r); [reflexivity|].
      destruct (is_unicode_id r); reflexivity. }
    destruct (s_max s <=? u16_max) eqn:E2.
    { rewrite (A _ u32_max _ L2 E2), !andb_true_r, !andb_false_r. destruct (is_byte_id r); [reflexivity|].
      destruct (is_unicode_id r); reflexivity. }
    destruct (s_max s <=? u24_max) eqn:E3.
    { rewrite (A _ u32_max _ L3 E3), !andb_true_r, !andb_false_r. destruct (is_byte_id r); [reflexivity|].
      destruct (is_unicode_id r); reflexivity. }
    destruct (s_max s <=? u32_max) eqn:E4.
    { rewrite !andb_true_r, !andb_false_r. destruct (is_byte_id r); [reflexivity|].
      destruct (is_unicode_id r); reflexivity. }
    rewrite !andb_false_r. reflexivity.
  - unfold read_set_arm, read_len, byte_size.
    repeat match goal with |- context [if ?b then _ else _] => destruct b; [reflexivity|] end. reflexivity.
  - unfold read_map_arm, read_len, byte_size.
    repeat match goal with |- context [if ?b then _ else _] => destruct b; [reflexivity|] end. reflexivity.
Qed.
