(** Specification for the exchange of values with self-describing formats. *)
From Coq Require Import NArith ZArith List Bool String Ascii Strings.Byte Permutation.
From Verif Require Import Base Ty Ids Val TypeSys Spec SpecTypify Serde.
Import ListNotations.
Local Open Scope N_scope.

(** Names in types are identifiers. *)
Definition names_valid (sys : type_system) : Prop :=
  forall id t, sys_find sys id = Some t ->
    match t with
    | TStruct fs => Forall (fun f => identifier (fst f)) fs
    | TEnum vs => Forall (fun v => identifier (v_name v)) vs
    | TUnion vs => Forall (fun v => identifier (v_name (fst v))) vs
    | _ => True
    end.
Definition no_empty_arrays (sys : type_system) : Prop := forall id r, sys_find sys id <> Some (TArray r 0).

(** What looks like the tag of a variant: an enum, text which is an identifier, a number of one byte. *)
Definition tag_like (v : sval) : Prop :=
  match v with
  | VNum (Uint n) => n < 256
  | VNum (Int z) => (0 <= z < 256)%Z
  | VStr s => identifier s
  | VEnum _ => True
  | _ => False
  end.

(** Values which can be written and read back: without sets, maps and bytes, without lists and tuples of two
    items of which the first looks like a tag, without enums of one letter. [read_big s = None]: the text is
    not the form of a number of 1024 bits. *)
Fixpoint documentable (read_big : string -> option snum) (v : sval) : Prop :=
  let all := fix all l := match l with [] => True | x :: l => documentable read_big x /\ all l end in
  match v with
  | VUnit | VNum (Uint _) | VNum (Int _) => True
  | VNum _ | VSet _ | VMap _ => False
  | VStr s => read_big s = None
  | VBytes b => b = []
  | VStruct fs => (fix all l := match l with [] => True | f :: l => documentable read_big (snd f) /\ all l end) fs
  | VEnum (Name s) => slen s <> 1
  | VEnum (Ord _) => False
  | VUnion _ w => documentable read_big w
  | VList l | VTuple l => all l /\ forall a b, l = [a; b] -> ~ tag_like a
  end.

(** ** Documents for values

    [natural toml c sys id d w]: the document [d] describes in a natural way the value [w] of the type [id]: numbers by
    numbers, enums by name, by tag or as booleans, optionals by null or the content, structures by maps with
    fields in any order, tuples and lists by sequences, one-field tuples by the content, text and bytes by text,
    maps by maps. [toml = true]: in a TOML document; there is no null in TOML, and integers are only for signed
    numbers. *)
(** The conversion of a document into a value. *)
Definition convert (toml : bool) : doc -> outcome Empty_set sval := if toml then from_toml else from_doc.

Section Natural.
Variables (toml : bool) (c : config) (sys : type_system).
Local Notation canonical := (mkMode true false).

Inductive natural : semid -> doc -> sval -> Prop :=
| ND_unit id :
    toml = false -> sys_find sys id = Some (TPrim P_UNIT) -> natural id DNull VUnit
| ND_uint id p w n :
    toml = false -> sys_find sys id = Some (TPrim p) -> uint_width p = Some w -> n < 2 ^ (8 * w) ->
    natural id (DNum (Z.of_N n)) (VNum (Uint n))
| ND_int id p w z :
    sys_find sys id = Some (TPrim p) -> int_width p = Some w ->
    (- 2 ^ (8 * Z.of_N w - 1) <= z < 2 ^ (8 * Z.of_N w - 1))%Z ->
    natural id (DNum z) (VNum (Int z))
| ND_enum id vs x :
    sys_find sys id = Some (TEnum vs) -> In x vs -> identifier (v_name x) ->
    (forall b, sbytes (v_name x) = [b] -> ~ In (Byte.to_N b) (map v_tag vs)) ->
    natural id (DStr (v_name x)) (VEnum (Name (v_name x)))
| ND_enum_tag id vs x :
    toml = false -> sys_find sys id = Some (TEnum vs) -> In x vs ->
    natural id (DNum (Z.of_N (v_tag x))) (VEnum (Name (v_name x)))
| ND_bool id vs x b :
    sys_find sys id = Some (TEnum vs) -> In x vs -> v_tag x = (if b : bool then 1 else 0) ->
    natural id (DBool b) (VEnum (Name (v_name x)))
| ND_none id r u :
    toml = false -> sys_find sys id = Some (TUnion [(mkVariant "none" 0, u); (mkVariant "some" 1, r)]) ->
    sys_find sys u = Some (TPrim P_UNIT) ->
    natural id DNull (VUnion (Name "none") VUnit)
| ND_some id r u d w :
    sys_find sys id = Some (TUnion [(mkVariant "none" 0, u); (mkVariant "some" 1, r)]) ->
    d <> DNull -> natural r d w ->
    natural id d (VUnion (Name "some") w)
| ND_tuple id fs ps :
    sys_find sys id = Some (TTuple fs) ->
    (forall a1 a2 min max, ~ restricted_string sys fs a1 a2 min max) ->
    Forall2 (fun r p => natural r (fst p) (snd p)) fs ps ->
    natural id (DSeq (map fst ps)) (VTuple (map snd ps))
| ND_newtype id r d w :
    sys_find sys id = Some (TTuple [r]) -> (forall l, d <> DSeq l) -> natural r d w ->
    natural id d (VTuple [w])
| ND_text id s :
    has_type canonical c sys id (VStr s) -> natural id (DStr s) (VStr s)
| ND_bytes id r rt min max b :
    sys_find sys id = Some (TList r (mkSizing min max)) -> sys_find sys r = Some rt ->
    chars_type rt = None -> byte_item r -> max < 2 ^ 32 -> len_ok canonical c min max (lenN b) ->
    natural id (DStr (bstring b)) (VBytes b)
| ND_byte_array id r len b :
    sys_find sys id = Some (TArray r len) -> byte_item r -> lenN b = len -> len <= cap c -> ascii_text (bstring b) ->
    natural id (DStr (bstring b)) (VBytes b)
| ND_struct id fs l qs :
    sys_find sys id = Some (TStruct fs) -> map fst qs = map fst fs -> Forall (fun f => identifier (fst f)) fs ->
    Forall2 (fun r p => natural r (fst p) (snd p)) (map snd fs) (map snd qs) ->
    Permutation l (map (fun q => (DStr (fst q), fst (snd q))) qs) ->
    natural id (DMap l) (VStruct (map (fun q => (fst q, snd (snd q))) qs))
| ND_list id r rt min max ps :
    sys_find sys id = Some (TList r (mkSizing min max)) -> sys_find sys r = Some rt ->
    chars_type rt = None -> (max < 2 ^ 32 -> ~ byte_item r /\ ~ unicode_item r) ->
    len_ok canonical c min max (lenN ps) -> Forall (fun p => natural r (fst p) (snd p)) ps ->
    natural id (DSeq (map fst ps)) (VList (map snd ps))
| ND_map id k r min max ks ps :
    sys_find sys id = Some (TMap k r (mkSizing min max)) ->
    len_ok canonical c min max (lenN ps) -> List.length ks = List.length ps ->
    Forall (fun p => natural k (fst p) (snd p)) ks -> Forall (fun p => natural r (fst p) (snd p)) ps ->
    NoDup (map snd ks) ->
    natural id (DMap (combine (map fst ks) (map fst ps))) (VMap (combine (map snd ks) (map snd ps))).
End Natural.
