(** Specification of the binary format of values: which bytes encode which value of which type. *)
From Coq Require Import NArith ZArith List Bool String Ascii Strings.Byte.
From Verif Require Import Base Ty Ids Val TypeSys SpecUtf8 Utf8Proofs Spec.
Import ListNotations.
Local Open Scope N_scope.

(** The number written by the bytes, the least significant first. *)
Fixpoint le_number (bs : bytes) : N :=
  match bs with
  | [] => 0
  | b :: r => Byte.to_N b + 256 * le_number r
  end.

(** The signed number: the bytes of numbers from the upper half of the range stand for negative numbers. *)
Definition le_signed (bs : bytes) : Z :=
  let n := le_number bs in
  let all := 2 ^ (8 * lenN bs) in
  if 2 * n <? all then Z.of_N n else (Z.of_N n - Z.of_N all)%Z.

(** The length prefix of a collection of [n] items of at most [max]. *)
Definition len_prefix (max n : N) (bs : bytes) : Prop :=
  lenN bs = len_width max /\ le_number bs = n.

(** The text of the bytes. *)
Definition text (s : string) (bs : bytes) : Prop := s = bstring bs.

(** A list of pairs as keys and values in turn. *)
Definition in_turn {A} (l : list (A * A)) : list A := flat_map (fun e => [fst e; snd e]) l.

Section Wire.
(** [mem] is the number of items which fit into memory. *)
Variables (mem : N) (sys : type_system).

Inductive wire : semid -> sval -> bytes -> Prop :=
| W_unit id :
    sys_find sys id = Some (TPrim P_UNIT) ->
    wire id VUnit []
| W_uint id p w bs :
    sys_find sys id = Some (TPrim p) -> uint_width p = Some w -> lenN bs = w ->
    wire id (VNum (Uint (le_number bs))) bs
| W_int id p w bs :
    sys_find sys id = Some (TPrim p) -> int_width p = Some w -> lenN bs = w ->
    wire id (VNum (Int (le_signed bs))) bs
| W_enum id vs v b :
    sys_find sys id = Some (TEnum vs) -> In v vs -> Byte.to_N b = v_tag v ->
    wire id (VEnum (Name (v_name v))) [b]
| W_union id vs v r w b bs :
    sys_find sys id = Some (TUnion vs) -> In (v, r) vs -> Byte.to_N b = v_tag v -> wire r w bs ->
    wire id (VUnion (Name (v_name v)) w) (b :: bs)
| W_tuple id fs l bs :
    sys_find sys id = Some (TTuple fs) ->
    (forall a1 a2 min max, ~ restricted_string sys fs a1 a2 min max) ->
    wires fs l bs ->
    wire id (VTuple l) bs
| W_rstring id fs a1 a2 min max s p bs :
    sys_find sys id = Some (TTuple fs) -> restricted_string sys fs a1 a2 min max ->
    len_prefix (max + 1) (lenN bs) p -> lenN bs <= mem -> text s bs -> ascii_text s ->
    wire id (VStr s) (p ++ bs)
| W_struct id fs l bs :
    sys_find sys id = Some (TStruct fs) ->
    map fst l = map fst fs -> wires (map snd fs) (map snd l) bs ->
    wire id (VStruct l) bs
| W_byte_array id r bs :
    sys_find sys id = Some (TArray r (lenN bs)) -> byte_item r -> lenN bs <= mem ->
    wire id (VBytes bs) bs
| W_array id r l bs :
    sys_find sys id = Some (TArray r (lenN l)) -> ~ byte_item r -> lenN l <= mem ->
    wires (repeat r (List.length l)) l bs ->
    wire id (VList l) bs
| W_chars id r rt a min max s p bs :
    sys_find sys id = Some (TList r (mkSizing min max)) -> sys_find sys r = Some rt ->
    chars_type rt = Some a ->
    len_prefix max (lenN bs) p -> lenN bs <= mem -> text s bs -> ascii_text s ->
    wire id (VStr s) (p ++ bs)
| W_bytes id r rt min max p bs :
    sys_find sys id = Some (TList r (mkSizing min max)) -> sys_find sys r = Some rt ->
    chars_type rt = None -> byte_item r -> max < 2 ^ 32 ->
    len_prefix max (lenN bs) p -> lenN bs <= mem ->
    wire id (VBytes bs) (p ++ bs)
| W_text id r rt min max s p bs :
    sys_find sys id = Some (TList r (mkSizing min max)) -> sys_find sys r = Some rt ->
    chars_type rt = None -> ~ byte_item r -> unicode_item r -> max < 2 ^ 32 ->
    len_prefix max (lenN bs) p -> lenN bs <= mem -> text s bs -> is_text bs ->
    wire id (VStr s) (p ++ bs)
| W_list id r rt min max l p bs :
    sys_find sys id = Some (TList r (mkSizing min max)) -> sys_find sys r = Some rt ->
    chars_type rt = None -> (max < 2 ^ 32 -> ~ byte_item r /\ ~ unicode_item r) ->
    len_prefix max (lenN l) p -> lenN l <= mem -> wires (repeat r (List.length l)) l bs ->
    wire id (VList l) (p ++ bs)
| W_set id r min max l p bs :
    sys_find sys id = Some (TSet r (mkSizing min max)) ->
    len_prefix max (lenN l) p -> lenN l <= mem -> wires (repeat r (List.length l)) l bs ->
    wire id (VSet l) (p ++ bs)
| W_map id k r min max l p bs :
    sys_find sys id = Some (TMap k r (mkSizing min max)) ->
    len_prefix max (lenN l) p -> lenN l <= mem ->
    wires (in_turn (repeat (k, r) (List.length l))) (in_turn l) bs ->
    wire id (VMap l) (p ++ bs)
(** Values one after another. *)
with wires : list semid -> list sval -> bytes -> Prop :=
| W_end : wires [] [] []
| W_item id v b ids l bs : wire id v b -> wires ids l bs -> wires (id :: ids) (v :: l) (b ++ bs).

End Wire.
