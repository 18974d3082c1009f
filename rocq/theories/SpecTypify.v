(** Specification notions for typification of values. *)
From Coq Require Import NArith ZArith List Bool String Ascii Strings.Byte Permutation.
From Verif Require Import Base Ty Ids Val TypeSys Spec.
Import ListNotations.
Local Open Scope N_scope.

(** The ids of the byte and character types stand for these types. *)
Definition known_ids (sys : type_system) : Prop :=
  (forall t, sys_find sys byte_id = Some t -> t = TPrim P_BYTE)
  /\ (forall t, sys_find sys u8_id = Some t -> t = TPrim P_U8)
  /\ (forall t, sys_find sys unicode_id = Some t -> t = TUnicode).

(** The type Byte is used only as the item of byte strings: of arrays, and of lists with a 32-bit length. *)
Definition byte_in_strings_only (sys : type_system) : Prop :=
  forall id t r, sys_find sys id = Some t -> In r (refs t) -> sys_find sys r = Some (TPrim P_BYTE) ->
    byte_item r
    /\ ((exists len, t = TArray r len) \/ (exists s, t = TList r s /\ s_max s < 2 ^ 32)).

(** Number of elements of a collection value (bytes for text). *)
Definition vsize (v : sval) : option N :=
  match v with
  | VStr s => Some (slen s)
  | VBytes b => Some (lenN b)
  | VList l | VSet l => Some (lenN l)
  | VMap l => Some (lenN l)
  | _ => None
  end.

(** Names of fields and variants: a small letter or the underscore followed by letters, digits and underscores,
    at most 100 characters together. *)
Definition identifier (s : string) : Prop :=
  exists x r, map Byte.to_N (sbytes s) = x :: r
    /\ (97 <= x <= 122 \/ x = 95)
    /\ Forall (fun y => 48 <= y <= 57 \/ 65 <= y <= 90 \/ 97 <= y <= 122 \/ y = 95) r
    /\ lenN (x :: r) <= 100.

(** ** Notations of values

    Besides its canonical form, a value may be given to typification in other notations: natural numbers for
    signed ones, variants by their tags, a structure as a map or with fields in another order, a tuple as a
    list, an optional by its content, a newtype by its content, a byte string as text.
    [denotes c sys id v w]: [v] is a notation for the value [w] (in the canonical form) of the type [id]. *)
Section Notations.
Variables (c : config) (sys : type_system).
Local Notation canonical := (mkMode true false).

Inductive denotes : semid -> sval -> sval -> Prop :=
| DN_unit id v :
    sys_find sys id = Some (TPrim P_UNIT) -> In v [VUnit; VTuple []; VStruct []; VList []; VMap []] ->
    denotes id v VUnit
| DN_uint id p w n :
    sys_find sys id = Some (TPrim p) -> uint_width p = Some w -> n < 2 ^ (8 * w) ->
    denotes id (VNum (Uint n)) (VNum (Uint n))
| DN_int id p w z :
    sys_find sys id = Some (TPrim p) -> int_width p = Some w ->
    (- 2 ^ (8 * Z.of_N w - 1) <= z < 2 ^ (8 * Z.of_N w - 1))%Z ->
    denotes id (VNum (Int z)) (VNum (Int z))
| DN_natural id p w n :
    sys_find sys id = Some (TPrim p) -> int_width p = Some w -> n < 2 ^ (8 * w - 1) ->
    denotes id (VNum (Uint n)) (VNum (Int (Z.of_N n)))
| DN_enum id vs x t :
    sys_find sys id = Some (TEnum vs) -> In x vs ->
    In t [VEnum (Name (v_name x)); VEnum (Ord (v_tag x)); VNum (Uint (v_tag x))] ->
    denotes id t (VEnum (Name (v_name x)))
| DN_enum_text id vs x :
    sys_find sys id = Some (TEnum vs) -> In x vs ->
    (* a name of one character does not give the code which is a tag *)
    (forall b, sbytes (v_name x) = [b] -> ~ In (Byte.to_N b) (map v_tag vs)) ->
    identifier (v_name x) ->
    denotes id (VStr (v_name x)) (VEnum (Name (v_name x)))
| DN_union id vs x r t v w :
    sys_find sys id = Some (TUnion vs) -> In (x, r) vs -> t = Name (v_name x) \/ t = Ord (v_tag x) ->
    denotes r v w -> denotes id (VUnion t v) (VUnion (Name (v_name x)) w)
| DN_none id r u v :
    sys_find sys id = Some (TUnion [(mkVariant "none" 0, u); (mkVariant "some" 1, r)]) ->
    sys_find sys u = Some (TPrim P_UNIT) ->
    In v [VUnit; VTuple [VStr "none"; VUnit]] ->
    denotes id v (VUnion (Name "none") VUnit)
| DN_some id r u v w :
    sys_find sys id = Some (TUnion [(mkVariant "none" 0, u); (mkVariant "some" 1, r)]) ->
    denotes r v w ->
    denotes id (VTuple [VStr "some"; v]) (VUnion (Name "some") w)
| DN_content id r u v w :
    sys_find sys id = Some (TUnion [(mkVariant "none" 0, u); (mkVariant "some" 1, r)]) ->
    (v <> VUnit /\ (forall t x, v <> VUnion t x) /\ (forall x y, v <> VTuple [x; y])) ->
    denotes r v w ->
    denotes id v (VUnion (Name "some") w)
| DN_tuple id fs ps v :
    sys_find sys id = Some (TTuple fs) ->
    (forall a1 a2 min max, ~ restricted_string sys fs a1 a2 min max) ->
    Forall2 (fun r p => denotes r (fst p) (snd p)) fs ps ->
    v = VTuple (map fst ps) \/ v = VList (map fst ps) ->
    denotes id v (VTuple (map snd ps))
| DN_newtype id r v w :
    sys_find sys id = Some (TTuple [r]) -> (forall l, v <> VTuple l) -> (forall l, v <> VList l) ->
    denotes r v w ->
    denotes id v (VTuple [w])
| DN_text id s :
    has_type canonical c sys id (VStr s) ->
    denotes id (VStr s) (VStr s)
| DN_struct id fs l qs :
    sys_find sys id = Some (TStruct fs) -> map fst qs = map fst fs ->
    Forall2 (fun r p => denotes r (fst p) (snd p)) (map snd fs) (map snd qs) ->
    Permutation l (map (fun q => (fst q, fst (snd q))) qs) ->
    denotes id (VStruct l) (VStruct (map (fun q => (fst q, snd (snd q))) qs))
| DN_struct_map id fs l qs :
    sys_find sys id = Some (TStruct fs) -> map fst qs = map fst fs ->
    Forall2 (fun r p => denotes r (fst p) (snd p)) (map snd fs) (map snd qs) ->
    Permutation l (map (fun q => (VStr (fst q), fst (snd q))) qs) ->
    Forall (fun f => identifier (fst f)) fs ->
    denotes id (VMap l) (VStruct (map (fun q => (fst q, snd (snd q))) qs))
| DN_byte_array id r len b v :
    sys_find sys id = Some (TArray r len) -> r = byte_id \/ r = u8_id -> lenN b = len -> len <= cap c ->
    v = VBytes b \/ (exists s, v = VStr s /\ sbytes s = b /\ ascii_text s) ->
    denotes id v (VBytes b)
| DN_bytes id r rt min max b v :
    sys_find sys id = Some (TList r (mkSizing min max)) -> sys_find sys r = Some rt ->
    chars_type rt = None -> byte_item r -> max < 2 ^ 32 -> len_ok canonical c min max (lenN b) ->
    v = VBytes b \/ (exists s, v = VStr s /\ sbytes s = b) ->
    denotes id v (VBytes b)
| DN_list id r rt min max ps :
    sys_find sys id = Some (TList r (mkSizing min max)) -> sys_find sys r = Some rt ->
    chars_type rt = None -> (max < 2 ^ 32 -> ~ byte_item r /\ ~ unicode_item r) ->
    len_ok canonical c min max (lenN ps) -> Forall (fun p => denotes r (fst p) (snd p)) ps ->
    denotes id (VList (map fst ps)) (VList (map snd ps))
| DN_set id r min max ps :
    sys_find sys id = Some (TSet r (mkSizing min max)) ->
    len_ok canonical c min max (lenN ps) -> Forall (fun p => denotes r (fst p) (snd p)) ps ->
    NoDup (map snd ps) ->
    denotes id (VSet (map fst ps)) (VSet (map snd ps))
| DN_map id k r min max ks ps :
    sys_find sys id = Some (TMap k r (mkSizing min max)) ->
    len_ok canonical c min max (lenN ps) -> List.length ks = List.length ps ->
    Forall (fun p => denotes k (fst p) (snd p)) ks -> Forall (fun p => denotes r (fst p) (snd p)) ps ->
    NoDup (map snd ks) ->
    denotes id (VMap (combine (map fst ks) (map fst ps))) (VMap (combine (map snd ks) (map snd ps))).
End Notations.
