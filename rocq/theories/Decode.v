(** Model of value deserialization: src/value/decode.rs. Only definitions. *)
From Coq Require Import NArith ZArith List Bool String Ascii Strings.Byte.
From Verif Require Import Base Ty Ids Val TypeSys Encode.
Import ListNotations.
Local Open Scope N_scope.

(** src/value/decode.rs:43-62 [Error]. The ones of [DecodeError] (external) which arise here: the end of
    data, an invalid string, an unknown tag. *)
Inductive dec_error : Type :=
| DTypeAbsent (id : semid)
| DUnknownType (id : semid)
| DNotImplemented (code : N)
| DEof
| DInvalidString
| DTagNotKnown (id : semid) (tag : N)
| DNotEntirelyConsumed.

(** The [From<UnknownType>] conversion, src/value/decode.rs:47-49. *)
Definition lift_unknown {A} (o : outcome unknown_type A) : outcome dec_error A :=
  match o with
  | Ok a => Ok a
  | Err (UnknownType id) => Err (DUnknownType id)
  | Panic => Panic
  | Diverge => Diverge
  end.

(** A reader: the bytes not read yet; reading returns the remaining ones. *)
Definition reading A := outcome dec_error (A * bytes).

(** [read_raw(len)] of [strict_encoding::StreamReader] (external): allocates the buffer and reads it. *)
Definition read_raw (c : config) (len : N) (d : bytes) : reading bytes :=
  let* _ := alloc c len in ok_or (take (N.to_nat len) d) DEof.

(** [uN::strict_decode] (external): [k] bytes, little-endian. *)
Definition read_uint (k : nat) (d : bytes) : reading N :=
  let* (b, d) := ok_or (take k d) DEof in Ok (unle b, d).

(** [iN::strict_decode] (external). *)
Definition read_int (k : nat) (d : bytes) : reading Z :=
  let* (n, d) := read_uint k d in Ok (untwos k n, d).

(** [Confined<AsciiString, ..>::strict_decode] (external) followed by [to_string]; [k] is the size of the
    length prefix in bytes. *)
Definition decode_ascii (c : config) (k : nat) (d : bytes) : reading sval :=
  let* (len, d) := read_uint k d in
  let* (b, d) := read_raw c len d in
  if ascii_bytes b then Ok (VStr (bstring b), d) else Err DInvalidString.

(** [Confined<Vec<u8>, ..>::strict_decode] (external). *)
Definition decode_blob (c : config) (k : nat) (d : bytes) : reading sval :=
  let* (len, d) := read_uint k d in
  let* (b, d) := read_raw c len d in
  Ok (VBytes b, d).

(** [Confined<String, ..>::strict_decode] (external). *)
Definition decode_string (c : config) (k : nat) (d : bytes) : reading sval :=
  let* (len, d) := read_uint k d in
  let* (b, d) := read_raw c len d in
  if utf8_valid b then Ok (VStr (bstring b), d) else Err DInvalidString.

(** src/value/decode.rs:135-160: primitives. *)
Definition read_prim (p : N) (d : bytes) : reading sval :=
  let uint k := let* (n, d) := read_uint k d in Ok (VNum (Uint n), d) in
  let int k := let* (z, d) := read_int k d in Ok (VNum (Int z), d) in
  if p =? P_UNIT then Ok (VUnit, d)
  else if p =? P_BYTE then uint 1%nat
  else if p =? P_U8 then uint 1%nat
  else if p =? P_U16 then uint 2%nat
  else if p =? P_U24 then uint 3%nat
  else if p =? P_U32 then uint 4%nat
  else if p =? P_U40 then uint 5%nat
  else if p =? P_U48 then uint 6%nat
  else if p =? P_U56 then uint 7%nat
  else if p =? P_U64 then uint 8%nat
  else if p =? P_I8 then int 1%nat
  else if p =? P_I16 then int 2%nat
  else if p =? P_I32 then int 4%nat
  else if p =? P_I64 then int 8%nat
  else Err (DNotImplemented p).

(** The loop [for _ in 0..len] of src/value/decode.rs:92-95, 107-111, 253-256. *)
Fixpoint read_n {A} (rd : bytes -> reading A) (n : nat) (d : bytes) : reading (list A) :=
  match n with
  | O => Ok ([], d)
  | S n =>
      let* (x, d) := rd d in
      let* (xs, d) := read_n rd n d in
      Ok (x :: xs, d)
  end.

(** The loop over field types in src/value/decode.rs:228-231, 237-240. *)
Fixpoint read_seq {A B} (rd : A -> bytes -> reading B) (l : list A) (d : bytes) : reading (list B) :=
  match l with
  | [] => Ok ([], d)
  | x :: r =>
      let* (y, d) := rd x d in
      let* (ys, d) := read_seq rd r d in
      Ok (y :: ys, d)
  end.

(** src/value/decode.rs:85-97 [strict_read_list]. *)
Definition read_list (rec : semid -> bytes -> reading sval) (c : config) (len : N) (id : semid) (d : bytes)
  : reading (list sval) :=
  let* _ := alloc c len in read_n (rec id) (N.to_nat len) d.

(** src/value/decode.rs:99-113 [strict_read_map]. *)
Definition read_map (rec : semid -> bytes -> reading sval) (c : config) (len : N) (kid id : semid) (d : bytes)
  : reading (list (sval * sval)) :=
  let* _ := alloc c len in
  read_n (fun d => let* (k, d) := rec kid d in let* (v, d) := rec id d in Ok ((k, v), d))
    (N.to_nat len) d.

(** src/value/decode.rs:172-186: ASCII strings. *)
Definition read_ascii_list (c : config) (sz : sizing) (d : bytes) : reading sval :=
  if s_max sz <=? u8_max then decode_ascii c 1 d
  else if s_max sz <=? u16_max then decode_ascii c 2 d
  else if s_max sz <=? u24_max then decode_ascii c 3 d
  else if s_max sz <=? u32_max then decode_ascii c 4 d
  else decode_ascii c 8 d.

(** src/value/decode.rs:191-206: restricted strings. *)
Definition read_rstring (c : config) (sz : sizing) (d : bytes) : reading sval :=
  if s_max sz <=? u8_max then decode_ascii c 1 d
  else if s_max sz <=? u16_max then decode_ascii c 2 d
  else if s_max sz <=? u24_max then decode_ascii c 3 d
  else if s_max sz <=? u32_max then decode_ascii c 4 d
  else decode_ascii c 8 d.

(** The body of the arms at src/value/decode.rs:297-326: other lists. *)
Definition read_list_arm (rec : semid -> bytes -> reading sval) (c : config) (k : nat) (r : semid) (d : bytes)
  : reading sval :=
  let* (len, d) := read_uint k d in
  let* (l, d) := read_list rec c len r d in
  Ok (VList l, d).
(** The body of the arms at src/value/decode.rs:328-357: sets. *)
Definition read_set_arm (rec : semid -> bytes -> reading sval) (c : config) (k : nat) (r : semid) (d : bytes)
  : reading sval :=
  let* (len, d) := read_uint k d in
  let* (l, d) := read_list rec c len r d in
  Ok (VSet l, d).
(** The body of the arms at src/value/decode.rs:358-387: maps. *)
Definition read_map_arm (rec : semid -> bytes -> reading sval) (c : config) (k : nat) (kid id : semid) (d : bytes)
  : reading sval :=
  let* (len, d) := read_uint k d in
  let* (l, d) := read_map rec c len kid id d in
  Ok (VMap l, d).

(** src/value/decode.rs:124-395 [strict_read_type], the match by type; [rec] is the recursive call.
    [UnicodeChar] is [todo!()]. *)
Definition read_ty (rec : semid -> bytes -> reading sval) (c : config) (sys : type_system) (id : semid)
    (t : ty semid) (d : bytes) : reading sval :=
  match t with
  | TPrim p => read_prim p d
  | TUnicode => Panic
  | TList r sz =>
      let* rt := ok_or (sys_find sys r) (DTypeAbsent id) in
      if char_enum rt then read_ascii_list c sz d
      else if is_byte_id r && (s_max sz <=? u8_max) then decode_blob c 1 d
      else if is_byte_id r && (s_max sz <=? u16_max) then decode_blob c 2 d
      else if is_byte_id r && (s_max sz <=? u24_max) then decode_blob c 3 d
      else if is_byte_id r && (s_max sz <=? u32_max) then decode_blob c 4 d
      else if is_unicode_id r && (s_max sz <=? u8_max) then decode_string c 1 d
      else if is_unicode_id r && (s_max sz <=? u16_max) then decode_string c 2 d
      else if is_unicode_id r && (s_max sz <=? u24_max) then decode_string c 3 d
      else if is_unicode_id r && (s_max sz <=? u32_max) then decode_string c 4 d
      else if s_max sz <=? u8_max then read_list_arm rec c 1 r d
      else if s_max sz <=? u16_max then read_list_arm rec c 2 r d
      else if s_max sz <=? u24_max then read_list_arm rec c 3 r d
      else if s_max sz <=? u32_max then read_list_arm rec c 4 r d
      else read_list_arm rec c 8 r d
  | TTuple fs =>
      let* rs := lift_unknown (is_rstring c sys fs) in
      if rs then
        let* o := lift_unknown (rstring_sizing c sys fs) in
        let* p := expect o in
        read_rstring c (snd p) d
      else
        let* (l, d) := read_seq rec fs d in
        Ok (VTuple l, d)
  | TEnum vs =>
      let* (tag, d) := read_uint 1 d in
      let* name := ok_or (ev_name_by_tag vs tag) (DTagNotKnown id tag) in
      Ok (VEnum (Name name), d)
  | TUnion vs =>
      let* (tag, d) := read_uint 1 d in
      let* e := ok_or (uv_by_tag vs tag) (DTagNotKnown id tag) in
      let* (v, d) := rec (snd e) d in
      Ok (VUnion (Name (v_name (fst e))) v, d)
  | TStruct fs =>
      let* (l, d) := read_seq (fun f d => let* (v, d) := rec (snd f) d in Ok ((fst f, v), d)) fs d in
      Ok (VStruct (fold_left (fun m e => imap_insert (fst e) (snd e) m) l []), d)
  | TArray r len =>
      if is_byte_id r then
        let* (b, d) := read_raw c len d in Ok (VBytes b, d)
      else
        let* _ := alloc c len in
        let* (l, d) := read_n (rec r) (N.to_nat len) d in
        Ok (VList l, d)
  | TSet r sz =>
      if s_max sz <=? u8_max then read_set_arm rec c 1 r d
      else if s_max sz <=? u16_max then read_set_arm rec c 2 r d
      else if s_max sz <=? u24_max then read_set_arm rec c 3 r d
      else if s_max sz <=? u32_max then read_set_arm rec c 4 r d
      else read_set_arm rec c 8 r d
  | TMap k r sz =>
      if s_max sz <=? u8_max then read_map_arm rec c 1 k r d
      else if s_max sz <=? u16_max then read_map_arm rec c 2 k r d
      else if s_max sz <=? u24_max then read_map_arm rec c 3 k r d
      else if s_max sz <=? u32_max then read_map_arm rec c 4 k r d
      else read_map_arm rec c 8 k r d
  end.

(** src/value/decode.rs:124-395 [strict_read_type]; [fuel] bounds the depth of the recursion. *)
Fixpoint read_type (fuel : nat) (c : config) (sys : type_system) (id : semid) (d : bytes) : reading sval :=
  match fuel with
  | O => Diverge
  | S fuel =>
      let* t := ok_or (sys_find sys id) (DTypeAbsent id) in
      read_ty (read_type fuel c sys) c sys id t d
  end.

(** src/value/decode.rs:124-395 [strict_read_type] with its result type. *)
Definition strict_read_type (fuel : nat) (c : config) (sys : type_system) (id : semid) (d : bytes)
  : reading typed_val :=
  let* (v, d) := read_type fuel c sys id d in Ok (mkTyped id v, d).

(** [StreamReader::cursor::<MAX32>(data)] (external): reading past 2^32-1 bytes is an error, as if the data
    ended there. *)
Definition limit32 (data : bytes) : bytes :=
  if lenN data <=? u32_max then data else firstn (N.to_nat u32_max) data.

(** src/value/decode.rs:115-122 [strict_deserialize_type]. *)
Definition strict_deserialize_type (fuel : nat) (c : config) (sys : type_system) (id : semid) (data : bytes)
  : outcome dec_error typed_val :=
  let* (tv, rest) := strict_read_type fuel c sys id (limit32 data) in
  if lenN (limit32 data) - lenN rest =? lenN data then Ok tv else Err DNotEntirelyConsumed.
