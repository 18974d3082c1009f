(** Model of value serialization: src/value/encode.rs. Only definitions. *)
From Coq Require Import NArith ZArith List Bool String Ascii Strings.Byte.
From Verif Require Import Base Ty Ids Val TypeSys.
Import ListNotations.
Local Open Scope N_scope.

(** src/value/encode.rs:244-254 [Sizing::byte_size]. *)
Definition byte_size (s : sizing) : N :=
  if s_max s <=? u8_max then 1
  else if s_max s <=? u16_max then 2
  else if s_max s <=? u24_max then 3
  else if s_max s <=? u32_max then 4
  else 8.

(** Errors of serialization: the only own [io::Error] (src/value/encode.rs:161-166) and the confinement
    error of the result (61). *)
Inductive enc_error : Type :=
| MissingField (name : string)
| ResultOversize.

(** [expect] on the result of a type system query. *)
Definition expect_ok {E E' A} (o : outcome E A) : outcome E' A :=
  match o with
  | Ok a => Ok a
  | Err _ => Panic
  | Panic => Panic
  | Diverge => Diverge
  end.

(** Number of Unicode characters of valid UTF-8 text ([chars().count()]): bytes which are not
    continuation bytes. *)
Definition chars_count (s : string) : N :=
  lenN (filter (fun b => negb ((0x80 <=? Byte.to_N b) && (Byte.to_N b <=? 0xBF))) (sbytes s)).

(** The length prefix: [&len.to_le_bytes()[0..bytes_count]] with a 64-bit [usize]. *)
Definition enc_len (s : sizing) (len : N) : bytes := le (N.to_nat (byte_size s)) len.

(** src/value/encode.rs:97-101: the type for a semantic id. *)
Definition type_of (sys : type_system) (id : semid) : option (ty semid) :=
  if id =? unit_id then Some (TPrim P_UNIT) else sys_find sys id.

(** Writing the items of a [zip]: stops at the end of the shorter list. *)
Definition enc_zip {E A B} (f : A -> B -> outcome E bytes) :=
  fix go (l : list A) (m : list B) : outcome E bytes :=
    match l, m with
    | x :: l, y :: m => let* b := f x y in let* bs := go l m in Ok (b ++ bs)
    | _, _ => Ok []
    end.

(** Writing the items of a list one after another. *)
Definition enc_all {E A} (f : A -> outcome E bytes) :=
  fix go (l : list A) : outcome E bytes :=
    match l with
    | [] => Ok []
    | x :: l => let* b := f x in let* bs := go l in Ok (b ++ bs)
    end.

(** src/value/encode.rs:91-237 [strict_write_val] with [strict_write_ty]: the bytes written. Bytes
    written before an error or a panic are not part of the result. The recursion goes over the value;
    for a structure the writers of all the fields are prepared first and then looked up by name. *)
Fixpoint write_val (c : config) (sys : type_system) (v : sval) (id : semid) {struct v}
  : outcome enc_error bytes :=
  let* t := expect (type_of sys id) in
  match v, t with
  | VUnit, TPrim p => let* _ := debug_assert c (p =? P_UNIT) in Ok []
  | VNum (Uint n), TPrim p => expect (slice_to (N.to_nat (prim_size p)) (le 8 n))
  | VNum (BigUint n), TPrim p => expect (slice_to (N.to_nat (prim_size p)) (le 128 n))
  | VNum (Int z), TPrim p => expect (slice_to (N.to_nat (prim_size p)) (le 8 (twos 8 z)))
  | VNum (BigInt z), TPrim p => expect (slice_to (N.to_nat (prim_size p)) (le 128 (twos 128 z)))
  | VStr s, TUnicode => let* _ := debug_assert c (chars_count s =? 1) in Ok (sbytes s)
  | VBytes b, TArray _ len => let* _ := debug_assert c (lenN b =? len) in Ok b
  | VStr s, TArray _ len => let* _ := debug_assert c (slen s =? len) in Ok (sbytes s)
  | VTuple vs, TTuple fs =>
      let* _ := debug_assert c (lenN vs =? lenN fs) in
      enc_zip (fun v id => write_val c sys v id) vs fs
  | VStruct vs, TStruct fs =>
      let* _ := debug_assert c (lenN vs =? lenN fs) in
      let writers := map (fun e => (fst e, fun id => write_val c sys (snd e) id)) vs in
      enc_all (fun f =>
                 match imap_get writers (fst f) with
                 | None => Err (MissingField (fst f))
                 | Some w => w (snd f)
                 end) fs
  | VEnum (Ord tag), TEnum vs => let* _ := debug_assert c (ev_has_tag vs tag) in Ok [b8 tag]
  | VEnum (Name n), TEnum vs => let* tag := expect (ev_tag_by_name vs n) in Ok [b8 tag]
  | VUnion (Ord tag) w, TUnion vs =>
      let* id := expect (uv_ty_by_tag vs tag) in
      let* bs := write_val c sys w id in
      Ok (b8 tag :: bs)
  | VUnion (Name n) w, TUnion vs =>
      let* e := expect (uv_by_name vs n) in
      let* bs := write_val c sys w (snd e) in
      Ok (b8 (v_tag (fst e)) :: bs)
  | VStr s, TList _ sz => Ok (enc_len sz (slen s) ++ sbytes s)
  | VBytes b, TList _ sz => Ok (enc_len sz (lenN b) ++ b)
  | VList l, TList r sz
  | VSet l, TSet r sz =>
      let* bs := enc_all (fun v => write_val c sys v r) l in
      Ok (enc_len sz (lenN l) ++ bs)
  | VMap l, TMap k r sz =>
      let* bs := enc_all (fun e => let* a := write_val c sys (fst e) k in
                                   let* b := write_val c sys (snd e) r in Ok (a ++ b)) l in
      Ok (enc_len sz (lenN l) ++ bs)
  | VStr s, TTuple fs =>
      if is_ascii s then
        let* r := expect_ok (is_rstring c sys fs) in
        if r then
          let* o := expect_ok (rstring_sizing c sys fs) in
          let* p := expect o in
          let* _ := debug_assert c (slen s <=? s_max (snd p)) in
          Ok (enc_len (snd p) (slen s) ++ sbytes s)
        else Panic
      else Panic
  | _, _ => Panic
  end.

(** src/value/typify.rs:52-55 [TypedVal]: the origin is always [TypeSymbol::unnamed], i.e. the id. *)
Record typed_val := mkTyped { tv_id : semid; tv_val : sval }.

(** src/value/encode.rs:74-80 [strict_write_value]. *)
Definition strict_write_value (c : config) (sys : type_system) (tv : typed_val) : outcome enc_error bytes :=
  write_val c sys (tv_val tv) (tv_id tv).

(** src/value/encode.rs:55-62 [strict_serialize_value]. *)
Definition strict_serialize_value (max_len : N) (c : config) (sys : type_system) (tv : typed_val)
  : outcome enc_error bytes :=
  let* b := strict_write_value c sys tv in
  if lenN b <=? max_len then Ok b else Err ResultOversize.
