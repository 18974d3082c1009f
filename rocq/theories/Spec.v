(** Specification of typed values, independent of the serialization code.

    [has_type m c sys id v] states that [v] is a value of the type with id [id] of the type system
    [sys], in the representation chosen by deserialization (structures with fields in the order of the
    type, variants by name, byte strings as bytes, character strings as text).
    The mode [m] tells what is required of the value besides that.
    With [strict m = true] the value also meets the restrictions expressed by the type: the size bounds of
    collections and strings, the alphabets of restricted strings, distinct elements of sets and distinct
    keys of maps. With [strict m = false] only what the encoding can represent is required: the length of a
    collection fits into its length prefix and into memory.
    With [arrays m = false] there are no fixed-size arrays of items other than bytes inside the value. *)
From Coq Require Import NArith ZArith List Bool String Ascii Strings.Byte.
From Verif Require Import Base Ty Ids Val TypeSys SpecUtf8.
Import ListNotations.
Local Open Scope N_scope.

Record mode := mkMode { strict : bool; arrays : bool }.

(** Number of bytes of unsigned integers: U8 .. U64 and BYTE. *)
Definition uint_width (p : N) : option N :=
  if (1 <=? p) && (p <=? 8) then Some p else if p =? 0x40 then Some 1 else None.

(** Number of bytes of signed integers: I8, I16, I32, I64. *)
Definition int_width (p : N) : option N :=
  if p =? 0x41 then Some 1 else if p =? 0x42 then Some 2
  else if p =? 0x44 then Some 4 else if p =? 0x48 then Some 8 else None.

(** Number of bytes of the length prefix of a collection with the maximal size [max]. *)
Definition len_width (max : N) : N :=
  if max <? 2 ^ 8 then 1 else if max <? 2 ^ 16 then 2 else if max <? 2 ^ 24 then 3
  else if max <? 2 ^ 32 then 4 else 8.

(** The length [n] of a collection with size bounds [min..max]. *)
Definition len_ok (m : mode) (c : config) (min max n : N) : Prop :=
  n < 2 ^ (8 * len_width max) /\ n <= cap c /\ (strict m = true -> min <= n <= max).

(** A type of characters: an enumeration whose tags are the codes 32..127. *)
Definition chars_type (t : ty semid) : option (list N) :=
  match t with
  | TEnum vs =>
      if forallb (fun v => (32 <=? v_tag v) && (v_tag v <=? 127)) vs then Some (map v_tag vs) else None
  | _ => None
  end.

(** All characters of the string are in the alphabet. *)
Definition in_alphabet (alphabet : list N) (b : bytes) : Prop :=
  Forall (fun x => In (Byte.to_N x) alphabet) b.

(** Text representable by ASCII. *)
Definition ascii_text (s : string) : Prop := Forall (fun x => Byte.to_N x < 128) (sbytes s).

(** A restricted string type: a pair of a character type (alphabet [a1] of the first character) and of a
    list of characters (alphabet [a2] of the rest) of [min..max] items. *)
Inductive restricted_string (sys : type_system) (fs : list semid) (a1 a2 : list N) (min max : N) : Prop :=
| Restricted first rest r t1 t2 :
    fs = [first; rest] ->
    sys_find sys first = Some t1 -> chars_type t1 = Some a1 ->
    sys_find sys rest = Some (TList r (mkSizing min max)) ->
    sys_find sys r = Some t2 -> chars_type t2 = Some a2 ->
    restricted_string sys fs a1 a2 min max.

(** The ids which stand for a byte and for a character of Unicode text. *)
Definition byte_item (r : semid) : Prop := r = byte_id \/ r = u8_id.
Definition unicode_item (r : semid) : Prop := r = unicode_id.

Section Typing.
Variables (m : mode) (c : config) (sys : type_system).

Inductive has_type : semid -> sval -> Prop :=
| HT_unit id :
    sys_find sys id = Some (TPrim P_UNIT) ->
    has_type id VUnit
| HT_uint id p w n :
    sys_find sys id = Some (TPrim p) -> uint_width p = Some w -> n < 2 ^ (8 * w) ->
    has_type id (VNum (Uint n))
| HT_int id p w z :
    sys_find sys id = Some (TPrim p) -> int_width p = Some w ->
    (- 2 ^ (8 * Z.of_N w - 1) <= z < 2 ^ (8 * Z.of_N w - 1))%Z ->
    has_type id (VNum (Int z))
| HT_enum id vs v :
    sys_find sys id = Some (TEnum vs) -> In v vs ->
    has_type id (VEnum (Name (v_name v)))
| HT_union id vs v r w :
    sys_find sys id = Some (TUnion vs) -> In (v, r) vs -> has_type r w ->
    has_type id (VUnion (Name (v_name v)) w)
| HT_tuple id fs l :
    sys_find sys id = Some (TTuple fs) ->
    (forall a1 a2 min max, ~ restricted_string sys fs a1 a2 min max) ->
    Forall2 has_type fs l ->
    has_type id (VTuple l)
| HT_rstring id fs a1 a2 min max s :
    sys_find sys id = Some (TTuple fs) -> restricted_string sys fs a1 a2 min max ->
    ascii_text s -> len_ok m c (min + 1) (max + 1) (slen s) ->
    (strict m = true -> in_alphabet a1 (firstn 1 (sbytes s)) /\ in_alphabet a2 (skipn 1 (sbytes s))) ->
    has_type id (VStr s)
| HT_struct id fs l :
    sys_find sys id = Some (TStruct fs) ->
    map fst l = map fst fs -> Forall2 has_type (map snd fs) (map snd l) ->
    has_type id (VStruct l)
| HT_byte_array id r len b :
    sys_find sys id = Some (TArray r len) -> byte_item r ->
    lenN b = len -> len <= cap c ->
    has_type id (VBytes b)
| HT_array id r len l :
    arrays m = true -> sys_find sys id = Some (TArray r len) -> ~ byte_item r ->
    lenN l = len -> len <= cap c -> Forall (has_type r) l ->
    has_type id (VList l)
| HT_chars id r rt a min max s :
    sys_find sys id = Some (TList r (mkSizing min max)) -> sys_find sys r = Some rt ->
    chars_type rt = Some a ->
    ascii_text s -> len_ok m c min max (slen s) ->
    (strict m = true -> in_alphabet a (sbytes s)) ->
    has_type id (VStr s)
| HT_bytes id r rt min max b :
    sys_find sys id = Some (TList r (mkSizing min max)) -> sys_find sys r = Some rt ->
    chars_type rt = None -> byte_item r -> max < 2 ^ 32 ->
    len_ok m c min max (lenN b) ->
    has_type id (VBytes b)
| HT_text id r rt min max s :
    sys_find sys id = Some (TList r (mkSizing min max)) -> sys_find sys r = Some rt ->
    chars_type rt = None -> ~ byte_item r -> unicode_item r -> max < 2 ^ 32 ->
    is_text (sbytes s) -> len_ok m c min max (slen s) ->
    has_type id (VStr s)
| HT_list id r rt min max l :
    sys_find sys id = Some (TList r (mkSizing min max)) -> sys_find sys r = Some rt ->
    chars_type rt = None -> (max < 2 ^ 32 -> ~ byte_item r /\ ~ unicode_item r) ->
    len_ok m c min max (lenN l) -> Forall (has_type r) l ->
    has_type id (VList l)
| HT_set id r min max l :
    sys_find sys id = Some (TSet r (mkSizing min max)) ->
    len_ok m c min max (lenN l) -> Forall (has_type r) l ->
    (strict m = true -> NoDup l) ->
    has_type id (VSet l)
| HT_map id k r min max l :
    sys_find sys id = Some (TMap k r (mkSizing min max)) ->
    len_ok m c min max (lenN l) ->
    Forall (has_type k) (map fst l) -> Forall (has_type r) (map snd l) ->
    (strict m = true -> NoDup (map fst l)) ->
    has_type id (VMap l).

End Typing.

(** ** Well-formed type systems: what every system made of types with consistent definitions satisfies *)

(** Definitions of a type are consistent: tags are bytes, variants differ both in names and in tags,
    structure fields differ in names, sizes are 64-bit numbers. *)
Definition wf_sizing (s : sizing) : Prop := s_min s <= s_max s /\ s_max s < 2 ^ 64.

Definition wf_ty (t : ty semid) : Prop :=
  match t with
  | TPrim p => p < 256
  | TUnicode => True
  | TEnum vs => NoDup (map v_name vs) /\ NoDup (map v_tag vs) /\ Forall (fun v => v_tag v < 256) vs
  | TUnion vs =>
      NoDup (map (fun e => v_name (fst e)) vs) /\ NoDup (map (fun e => v_tag (fst e)) vs)
      /\ Forall (fun e => v_tag (fst e) < 256) vs
  | TTuple _ => True
  | TStruct fs => NoDup (map fst fs)
  | TArray _ len => len < 2 ^ 16
  | TList _ s | TSet _ s | TMap _ _ s => wf_sizing s
  end.

(** A list which is the rest of a restricted string has room for one more character. *)
Definition wf_rest (sys : type_system) (t : ty semid) : Prop :=
  match t with
  | TTuple [_; rest] =>
      match sys_find sys rest with
      | Some (TList _ s) => s_max s < 2 ^ 64 - 1
      | _ => True
      end
  | _ => True
  end.

Record wf_sys (sys : type_system) : Prop := mkWf {
  wf_types : forall id t, sys_find sys id = Some t -> wf_ty t;
  wf_rests : forall id t, sys_find sys id = Some t -> wf_rest sys t;
  (** the unit type is the type under the id of the unit type *)
  wf_unit : forall t, sys_find sys unit_id = Some t -> t = TPrim P_UNIT
}.

(** Depth of a value: the number of nested calls needed to process it. *)
Fixpoint vdepth (v : sval) : nat :=
  match v with
  | VStruct fs => S (list_max (map (fun e => vdepth (snd e)) fs))
  | VUnion _ w => S (vdepth w)
  | VList l | VSet l | VTuple l => S (list_max (map vdepth l))
  | VMap l => S (list_max (map (fun e => Nat.max (vdepth (fst e)) (vdepth (snd e))) l))
  | _ => 1
  end.

(** The result of a computation which is run with a bound on the depth of recursion (or on the number of
    loop rounds) and does not reach the bound: the same result for any sufficiently great bound. *)
Definition returns {A} (run : nat -> A) (r : A) : Prop :=
  exists n, forall fuel, (n <= fuel)%nat -> run fuel = r.

(** ** Classes of type systems *)

(** The references to other types in a type. *)
Definition refs {R} (t : ty R) : list R :=
  match t with
  | TPrim _ | TUnicode | TEnum _ => []
  | TUnion vs => map snd vs
  | TTuple fs => fs
  | TStruct fs => map snd fs
  | TArray r _ | TList r _ | TSet r _ => [r]
  | TMap k r _ => [k; r]
  end.

(** All fixed-size arrays are arrays of bytes. *)
Definition byte_arrays_only (sys : type_system) : Prop :=
  forall id r len, sys_find sys id = Some (TArray r len) -> byte_item r.

(** The type references of the system form no cycle: they go from a greater rank to a lower one. *)
Definition ranked (sys : type_system) (rank : semid -> nat) : Prop :=
  forall id t r, sys_find sys id = Some t -> In r (refs t) -> (rank r < rank id)%nat.
Definition acyclic (sys : type_system) : Prop := exists rank, ranked sys rank.

(** Unicode characters are used only as items of text with a 32-bit length. *)
Definition unicode_in_text_only (sys : type_system) : Prop :=
  forall id t r, sys_find sys id = Some t -> In r (refs t) -> sys_find sys r = Some TUnicode ->
    r = unicode_id /\ exists s, t = TList r s /\ s_max s < 2 ^ 32.

(** Memory suffices for any length which can be given by the length prefix of a collection. *)
Definition memory_suffices (c : config) (sys : type_system) : Prop :=
  forall id t, sys_find sys id = Some t ->
    match t with
    | TArray _ len => len <= cap c
    | TList _ s | TSet _ s | TMap _ _ s => 2 ^ (8 * len_width (s_max s + 1)) <= cap c + 1
    | _ => True
    end.
