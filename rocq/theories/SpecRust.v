(** Specification of the encoding of Rust values: which bytes are written for a value of a Rust type by the implementations
    of [StrictEncode] of the crate strict_encoding and by its derive macros (external), and which value of this crate it
    is. Values of floating point types are left out: this crate has no values for them. *)
From Coq Require Import NArith ZArith List Bool String Strings.Byte.
From Verif Require Import Base Ty Ids Val TypeSys SpecUtf8 Spec SpecIds SpecWire Transpile SpecTranspile.
Import ListNotations.
Local Open Scope N_scope.

(** The number of bytes of a number: the lower six bits of the code of a primitive are this number, or count units of 16
    bytes, from 32 bytes on. *)
Definition number_bytes (n : N) : N := if n <? 32 then n else 16 * (n - 30).

(** Bytes, and characters of restricted strings. *)
Definition byte_type (t : rust) : bool := match t with RuPrim p => (p =? P_U8) || (p =? P_BYTE) | _ => false end.
Definition character (t : rust) : bool :=
  match t with RuEnum _ _ vs => forallb (fun v => (32 <=? v_tag v) && (v_tag v <=? 127)) vs | _ => false end.

Section Written.
(** The number of items which fit into memory. *)
Variable mem : N.

(** A list of characters is a text, one of bytes is a byte string. Products without fields are shown as unit. *)
Inductive written : rust -> sval -> bytes -> Prop :=
| R_unit : written (RuPrim P_UNIT) VUnit []
| R_byte b : written (RuPrim P_BYTE) (VNum (Uint (Byte.to_N b))) [b]
| R_uint p bs : 0 < p < 0x40 -> lenN bs = number_bytes p -> written (RuPrim p) (VNum (Uint (le_number bs))) bs
| R_int p bs : 0x40 < p < 0x80 -> lenN bs = number_bytes (p - 0x40) -> written (RuPrim p) (VNum (Int (le_signed bs))) bs
| R_nonzero p bs : 0x80 < p < 0xC0 -> lenN bs = number_bytes (p - 0x80) -> le_number bs <> 0 ->
    written (RuPrim p) (VNum (Uint (le_number bs))) bs
| R_nothing lib name : written (RuNothing lib name) VUnit []
| R_text s x p bs : len_prefix (s_max s) (lenN bs) p -> lenN bs <= mem -> text x bs -> is_text bs ->
    written (RuUnicode s) (VStr x) (p ++ bs)
| R_string c c1 s x p bs : len_prefix (s_max s) (lenN bs) p -> lenN bs <= mem -> text x bs -> ascii_text x ->
    written (RuString c c1 s) (VStr x) (p ++ bs)
| R_byte_array t bs : byte_type t = true -> lenN bs <= mem -> written (RuArray t (lenN bs)) (VBytes bs) bs
| R_array t l bs : byte_type t = false -> lenN l <= mem -> writtens (repeat t (List.length l)) l bs ->
    written (RuArray t (lenN l)) (VList l) bs
| R_chars t s x p bs : character t = true -> len_prefix (s_max s) (lenN bs) p -> lenN bs <= mem -> text x bs -> ascii_text x ->
    written (RuList t s) (VStr x) (p ++ bs)
| R_bytes t s p bs : byte_type t = true -> s_max s < 2 ^ 32 -> len_prefix (s_max s) (lenN bs) p -> lenN bs <= mem ->
    written (RuList t s) (VBytes bs) (p ++ bs)
| R_list t s l p bs : character t = false -> (s_max s < 2 ^ 32 -> byte_type t = false) ->
    len_prefix (s_max s) (lenN l) p -> lenN l <= mem -> writtens (repeat t (List.length l)) l bs ->
    written (RuList t s) (VList l) (p ++ bs)
| R_set t s l p bs : len_prefix (s_max s) (lenN l) p -> lenN l <= mem -> writtens (repeat t (List.length l)) l bs ->
    written (RuSet t s) (VSet l) (p ++ bs)
| R_map k t s l p bs : len_prefix (s_max s) (lenN l) p -> lenN l <= mem ->
    writtens (in_turn (repeat (k, t) (List.length l))) (in_turn l) bs ->
    written (RuMap k t s) (VMap l) (p ++ bs)
| R_enum lib name vs v b : In v vs -> Byte.to_N b = v_tag v -> written (RuEnum lib name vs) (VEnum (Name (v_name v))) [b]
| R_union_unit lib name vs n v fs b : In (v, (KUnit, fs)) vs -> Byte.to_N b = v_tag v ->
    written (RuUnion lib name vs n) (VUnion (Name (v_name v)) VUnit) [b]
| R_union lib name vs n v tuple fs w b bs : In (v, (KFields tuple, fs)) vs -> Byte.to_N b = v_tag v -> fields_written tuple fs w bs ->
    written (RuUnion lib name vs n) (VUnion (Name (v_name v)) w) (b :: bs)
| R_product lib name tuple fs w bs : fields_written tuple fs w bs -> written (RuProduct lib name tuple fs) w bs
(** Values one after another. *)
with writtens : list rust -> list sval -> bytes -> Prop :=
| R_end : writtens [] [] []
| R_item t v b ts l bs : written t v b -> writtens ts l bs -> writtens (t :: ts) (v :: l) (b ++ bs)
(** The fields of structures, tuples and variants. *)
with fields_written : bool -> list (string * rust) -> sval -> bytes -> Prop :=
| R_no_fields tuple : fields_written tuple [] VUnit []
| R_tuple fs l bs : fs <> [] -> writtens (map snd fs) l bs -> fields_written true fs (VTuple l) bs
| R_struct fs l bs : fs <> [] -> map fst l = map fst fs -> writtens (map snd fs) (map snd l) bs ->
    fields_written false fs (VStruct l) bs.
End Written.

(** Types with values which can be read: with no other numbers than of 1 to 8 bytes, signed ones of 1, 2, 4, 8, with a
    length of texts of at most 32 bits, strings of characters, and no tuple which looks like a restricted string. *)
Definition like_string (ts : list rust) : bool :=
  match ts with [a; RuList b _] => character a && character b | _ => false end.
Fixpoint readable (t : rust) : Prop :=
  match t with
  | RuPrim p => p = P_UNIT \/ uint_width p <> None \/ int_width p <> None
  | RuNothing _ _ | RuEnum _ _ _ => True
  | RuUnicode s => s_max s < 2 ^ 32
  | RuString c c1 s => character c = true /\ character c1 = true /\ 1 <= s_max s
  | RuArray t _ | RuList t _ | RuSet t _ => readable t
  | RuMap k t _ => readable k /\ readable t
  | RuUnion _ _ vs _ =>
      all (fun v => (fst (snd v) = KFields true -> like_string (map snd (snd (snd v))) = false)
                    /\ all (fun f => readable (snd f)) (snd (snd v))) vs
  | RuProduct _ _ tuple fs => (tuple = true -> like_string (map snd fs) = false) /\ all (fun f => readable (snd f)) fs
  end.

(** A type system describes a Rust type: it has the types of all its parts under their ids. *)
Definition describes (sys : type_system) (t : rust) : Prop :=
  forall p, part p (meaning t) -> sys_find sys (st_id p) = Some (map_ty st_id (st_body p)).
