(** Model of the binary format of types, libraries, symbolic libraries, type systems and symbol tables:
    src/ast/encoding.rs and the derived [StrictEncode]/[StrictDecode] of src/ast/ty.rs,
    src/typelib/type_lib.rs, src/typelib/symbolic.rs, src/typesys/type_sys.rs, src/typesys/symbols.rs,
    src/typesys/translate.rs. Only definitions.

    The derive macros and the codecs of the primitive and collection types are external
    ([strict_encoding]); a struct is the sequence of its fields, an enum is the tag byte followed by the
    fields of the variant, a collection is its length (little-endian, with as many bytes as its largest
    allowed length takes) followed by its items. All decoding errors are [None]. The limit on the total
    size of the data is not modelled. *)
From Coq Require Import NArith List Bool String Strings.Byte.
From Verif Require Import Base Sha256 Ty Ids TypeSys Typify.
Import ListNotations.
Local Open Scope N_scope.

(** Reading from the bytes not read yet, the remaining ones are returned; [?] operator. *)
Definition obind {A B} (o : option A) (f : A -> option B) : option B :=
  match o with Some a => f a | None => None end.
Notation "'let?' x ':=' o 'in' f" := (obind o (fun x => f))
  (at level 200, x pattern, o at level 100, f at level 200).

(** [StrictDeserialize::from_strict_serialized] (external): all data must be consumed. *)
Definition deserialize {A} (dec : bytes -> option (A * bytes)) (b : bytes) : option A :=
  let? (a, r) := dec b in match r with [] => Some a | _ => None end.

(** ** External codecs *)

(** Unsigned integers of [k] bytes. *)
Definition enc_uint (k : nat) (n : N) : bytes := le k n.
Definition dec_uint (k : nat) (b : bytes) : option (N * bytes) :=
  let? (x, b) := take k b in Some (unle x, b).

(** 32-byte ids ([Bytes32]); used by [SemId] (src/ast/id.rs:45-49), [TypeLibId] (src/typelib/id.rs:45-49). *)
Definition enc_id (id : N) : bytes := id_bytes id.
Definition dec_id (b : bytes) : option (N * bytes) := let? (x, b) := take 32 b in Some (id_of_bytes x, b).

(** [RString]: [LibName], [TypeName] with [valid] = [tname_ok], [FieldName], [VariantName] with [valid]
    = [name_ok]. *)
Definition enc_name (s : string) : bytes := b8 (slen s) :: sbytes s.
Definition dec_name (valid : string -> bool) (b : bytes) : option (string * bytes) :=
  let? (len, b) := dec_uint 1 b in
  let? (x, b) := take (N.to_nat len) b in
  if valid (bstring x) then Some (bstring x, b) else None.

(** [Option]. *)
Definition enc_option {A} (enc : A -> bytes) (o : option A) : bytes :=
  match o with None => [b8 0] | Some a => b8 1 :: enc a end.
Definition dec_option {A} (dec : bytes -> option (A * bytes)) (b : bytes) : option (option A * bytes) :=
  let? (tag, b) := dec_uint 1 b in
  if tag =? 0 then Some (None, b)
  else if tag =? 1 then let? (a, b) := dec b in Some (Some a, b)
  else None.

(** [Confined<Vec<_>, MIN, MAX>] with [k] bytes of length. *)
Definition enc_list {A} (k : nat) (enc : A -> bytes) (l : list A) : bytes :=
  enc_uint k (lenN l) ++ flat_map enc l.
Fixpoint dec_items {A} (dec : bytes -> option (A * bytes)) (n : nat) (b : bytes) : option (list A * bytes) :=
  match n with
  | O => Some ([], b)
  | S n =>
      let? (a, b) := dec b in
      let? (l, b) := dec_items dec n b in
      Some (a :: l, b)
  end.
Definition within (min max len : N) : bool := (min <=? len) && (len <=? max).
Definition dec_list {A} (k : nat) (min max : N) (dec : bytes -> option (A * bytes)) (b : bytes)
  : option (list A * bytes) :=
  let? (n, b) := dec_uint k b in
  let? (l, b) := dec_items dec (N.to_nat n) b in
  if within min max (lenN l) then Some (l, b) else None.

(** [Confined<BTreeMap<_, _>, MIN, MAX>] with [k] bytes of length: each key must be greater than the
    last one of the collection read so far. *)
Definition enc_entry {K V} (ek : K -> bytes) (ev : V -> bytes) (e : K * V) : bytes := ek (fst e) ++ ev (snd e).
Definition dec_entry {K V} (dk : bytes -> option (K * bytes)) (dv : bytes -> option (V * bytes)) (b : bytes)
  : option (K * V * bytes) :=
  let? (x, b) := dk b in
  let? (v, b) := dv b in
  Some ((x, v), b).
Fixpoint last_key {K V} (m : list (K * V)) : option K :=
  match m with
  | [] => None
  | [e] => Some (fst e)
  | _ :: m => last_key m
  end.
Fixpoint dec_sorted {K V} (cmp : K -> K -> comparison) (dec : bytes -> option (K * V * bytes)) (n : nat)
  (m : list (K * V)) (b : bytes) : option (list (K * V) * bytes) :=
  match n with
  | O => Some (m, b)
  | S n =>
      let? (e, b) := dec b in
      match last_key m with
      | Some k => match cmp (fst e) k with
                  | Gt => dec_sorted cmp dec n (om_insert cmp (fst e) (snd e) m) b
                  | _ => None
                  end
      | None => dec_sorted cmp dec n (om_insert cmp (fst e) (snd e) m) b
      end
  end.
Definition enc_map {K V} (k : nat) (ek : K -> bytes) (ev : V -> bytes) (m : list (K * V)) : bytes :=
  enc_list k (enc_entry ek ev) m.
Definition dec_map {K V} (k : nat) (min max : N) (cmp : K -> K -> comparison)
  (dk : bytes -> option (K * bytes)) (dv : bytes -> option (V * bytes)) (b : bytes)
  : option (list (K * V) * bytes) :=
  let? (n, b) := dec_uint k b in
  let? (m, b) := dec_sorted cmp (dec_entry dk dv) (N.to_nat n) [] b in
  if within min max (lenN m) then Some (m, b) else None.

(** [Confined<BTreeSet<_>, MIN, MAX>]: as a map to the unit type. *)
Definition enc_set {K} (k : nat) (ek : K -> bytes) (s : list K) : bytes := enc_list k ek s.
Definition dec_unit (b : bytes) : option (unit * bytes) := Some (tt, b).
Definition dec_set {K} (k : nat) (min max : N) (cmp : K -> K -> comparison)
  (dk : bytes -> option (K * bytes)) (b : bytes) : option (list K * bytes) :=
  let? (m, b) := dec_map k min max cmp dk dec_unit b in Some (map fst m, b).

(** [Variant]: derived codec; two variants are equal when their tags or their names are equal,
    otherwise they are in the order of tags. *)
Definition enc_variant (v : variant) : bytes := enc_name (v_name v) ++ enc_uint 1 (v_tag v).
Definition dec_variant (b : bytes) : option (variant * bytes) :=
  let? (n, b) := dec_name name_ok b in
  let? (t, b) := dec_uint 1 b in
  Some (mkVariant n t, b).
Definition variant_cmp (a b : variant) : comparison :=
  if (v_tag a =? v_tag b) || (v_name a =? v_name b)%string then Eq else v_tag a ?= v_tag b.

(** Rust [BTreeMap] (std, nodes of at most 11 keys), for keys which come in ascending order. The order of
    variants is not transitive, so that the keys looked at matter: the search for a key compares it with the keys
    of the root from left to right, then of its last child, and so on (keys which are not equal are smaller).
    Nodes on this way are kept: [bt_leaf] is the last leaf, [bt_up] has the nodes above it from the bottom to the
    root, as lists of a closed subtree (its entries only) and the key after it. *)
Record btree (E : Type) : Type := mkTree { bt_up : list (list (list E * E)); bt_leaf : list E }.
Arguments mkTree {E} _ _. Arguments bt_up {E} _. Arguments bt_leaf {E} _.
Definition bt_empty {E} : btree E := mkTree [] [].
Definition node_items {E} (n : list (list E * E)) : list E := flat_map (fun s => fst s ++ [snd s]) n.
(** The entries in order. *)
Definition bt_items {E} (t : btree E) : list E := flat_map node_items (rev (bt_up t)) ++ bt_leaf t.
(** [BTreeMap::insert] of an equal key: the value is replaced, the key is kept. *)
Fixpoint leaf_set {K V} (cmp : K -> K -> comparison) (k : K) (v : V) (l : list (K * V)) : option (list (K * V)) :=
  match l with
  | [] => None
  | e :: l => match cmp k (fst e) with
              | Eq => Some ((fst e, v) :: l)
              | _ => option_map (cons e) (leaf_set cmp k v l)
              end
  end.
Fixpoint node_set {K V} (cmp : K -> K -> comparison) (k : K) (v : V) (n : list (list (K * V) * (K * V)))
  : option (list (list (K * V) * (K * V))) :=
  match n with
  | [] => None
  | s :: n => match cmp k (fst (snd s)) with
              | Eq => Some ((fst s, (fst (snd s), v)) :: n)
              | _ => option_map (cons s) (node_set cmp k v n)
              end
  end.
Fixpoint up_set {K V} (cmp : K -> K -> comparison) (k : K) (v : V) (up : list (list (list (K * V) * (K * V))))
  : option (list (list (list (K * V) * (K * V)))) :=
  match up with
  | [] => None
  | n :: up => match up_set cmp k v up with
               | Some up' => Some (n :: up')
               | None => option_map (fun n' => n' :: up) (node_set cmp k v n)
               end
  end.
(** Insertion at the end of a full node splits it: 6 keys stay, the next one goes to the node above, and the new key is
    put after the other 4. *)
Fixpoint up_push {E} (s : list E * E) (up : list (list (list E * E))) : list (list (list E * E)) :=
  match up with
  | [] => [[s]]
  | n :: up =>
      if Nat.ltb (List.length n) 11 then (n ++ [s]) :: up
      else match skipn 6 n with
           | m :: r => (r ++ [s]) :: up_push (node_items (firstn 6 n) ++ fst m, snd m) up
           | [] => (n ++ [s]) :: up
           end
  end.
Definition bt_push {E} (e : E) (t : btree E) : btree E :=
  if Nat.ltb (List.length (bt_leaf t)) 11 then mkTree (bt_up t) (bt_leaf t ++ [e])
  else match skipn 6 (bt_leaf t) with
       | m :: r => mkTree (up_push (firstn 6 (bt_leaf t), m) (bt_up t)) (r ++ [e])
       | [] => mkTree (bt_up t) (bt_leaf t ++ [e])
       end.
Definition bt_insert {K V} (cmp : K -> K -> comparison) (k : K) (v : V) (t : btree (K * V)) : btree (K * V) :=
  match up_set cmp k v (bt_up t) with
  | Some up => mkTree up (bt_leaf t)
  | None => match leaf_set cmp k v (bt_leaf t) with
            | Some l => mkTree (bt_up t) l
            | None => bt_push (k, v) t
            end
  end.

(** [Confined<BTreeSet<Variant>, MIN, MAX>]: as [dec_set] above, with the search of the tree. *)
Fixpoint dec_tree {K V} (cmp : K -> K -> comparison) (dec : bytes -> option (K * V * bytes)) (n : nat)
  (t : btree (K * V)) (b : bytes) : option (btree (K * V) * bytes) :=
  match n with
  | O => Some (t, b)
  | S n =>
      let? (e, b) := dec b in
      match last_key (bt_items t) with
      | Some k => match cmp (fst e) k with
                  | Gt => dec_tree cmp dec n (bt_insert cmp (fst e) (snd e) t) b
                  | _ => None
                  end
      | None => dec_tree cmp dec n (bt_insert cmp (fst e) (snd e) t) b
      end
  end.
Definition dec_variants (b : bytes) : option (list variant * bytes) :=
  let? (n, b) := dec_uint 1 b in
  let? (t, b) := dec_tree variant_cmp (dec_entry dec_variant dec_unit) (N.to_nat n) bt_empty b in
  let m := map fst (bt_items t) in
  if within 1 u8_max (lenN m) then Some (m, b) else None.

(** [Sizing]: derived codec. *)
Definition enc_sizing (s : sizing) : bytes := enc_uint 8 (s_min s) ++ enc_uint 8 (s_max s).
Definition dec_sizing (b : bytes) : option (sizing * bytes) :=
  let? (x, b) := dec_uint 8 b in
  let? (y, b) := dec_uint 8 b in
  Some (mkSizing x y, b).

(** ** Types *)

(** src/ast/encoding.rs:44-56 [UnionVariants::strict_encode], with 38-42 [VariantInfo]. The map from tags
    built there is in the order of the variants, which are ordered by tags. *)
Definition enc_union_variant {R} (er : R -> bytes) (e : variant * R) : bytes :=
  enc_uint 1 (v_tag (fst e)) ++ enc_name (v_name (fst e)) ++ er (snd e).
Definition enc_union {R} (er : R -> bytes) (vs : list (variant * R)) : bytes := enc_list 1 (enc_union_variant er) vs.

(** src/ast/encoding.rs:57-72 [UnionVariants::strict_decode]. *)
Definition dec_union {R} (dr : bytes -> option (R * bytes)) (b : bytes) : option (list (variant * R) * bytes) :=
  let? (read, b) := dec_map 1 0 u8_max N.compare (dec_uint 1) (dec_entry (dec_name name_ok) dr) b in
  let inner := bt_items (fold_left (fun t e => bt_insert variant_cmp (mkVariant (fst (snd e)) (fst e)) (snd (snd e)) t) read bt_empty) in
  if within 1 u8_max (lenN inner) then Some (inner, b) else None.

(** src/ast/ty.rs:112-150 [Ty] (derived, custom tags), with the codecs of its parts:
    src/ast/ty.rs:347-354 [Field], 366-370 [NamedFields], 441-445 [UnnamedFields], 642-646 [EnumVariants]. *)
Definition enc_ty {R} (er : R -> bytes) (t : ty R) : bytes :=
  match t with
  | TPrim c => b8 0 :: enc_uint 1 c
  | TUnicode => [b8 1]
  | TEnum vs => b8 3 :: enc_set 1 enc_variant vs
  | TUnion vs => b8 4 :: enc_union er vs
  | TTuple fs => b8 5 :: enc_list 1 er fs
  | TStruct fs => b8 6 :: enc_list 1 (enc_entry enc_name er) fs
  | TArray r len => b8 7 :: er r ++ enc_uint 2 len
  | TList r s => b8 8 :: er r ++ enc_sizing s
  | TSet r s => b8 9 :: er r ++ enc_sizing s
  | TMap k r s => b8 10 :: er k ++ er r ++ enc_sizing s
  end.
Definition dec_ty {R} (dr : bytes -> option (R * bytes)) (b : bytes) : option (ty R * bytes) :=
  let? (tag, b) := dec_uint 1 b in
  if tag =? 0 then let? (c, b) := dec_uint 1 b in Some (TPrim c, b)
  else if tag =? 1 then Some (TUnicode, b)
  else if tag =? 3 then let? (vs, b) := dec_variants b in Some (TEnum vs, b)
  else if tag =? 4 then let? (vs, b) := dec_union dr b in Some (TUnion vs, b)
  else if tag =? 5 then let? (fs, b) := dec_list 1 1 u8_max dr b in Some (TTuple fs, b)
  else if tag =? 6 then
    let? (fs, b) := dec_list 1 1 u8_max (dec_entry (dec_name name_ok) dr) b in Some (TStruct fs, b)
  else if tag =? 7 then
    let? (r, b) := dr b in let? (len, b) := dec_uint 2 b in Some (TArray r len, b)
  else if tag =? 8 then
    let? (r, b) := dr b in let? (s, b) := dec_sizing b in Some (TList r s, b)
  else if tag =? 9 then
    let? (r, b) := dr b in let? (s, b) := dec_sizing b in Some (TSet r s, b)
  else if tag =? 10 then
    let? (k, b) := dr b in let? (r, b) := dr b in let? (s, b) := dec_sizing b in Some (TMap k r s, b)
  else None.

(** ** References *)

(** src/typelib/type_lib.rs:46-53 [ExternRef]. *)
Definition enc_extern (e : extern_ref) : bytes := enc_id (er_lib e) ++ enc_id (er_id e).
Definition dec_extern (b : bytes) : option (extern_ref * bytes) :=
  let? (l, b) := dec_id b in
  let? (i, b) := dec_id b in
  Some (mkExtern l i, b).

(** src/typelib/type_lib.rs:144-151 [InlineRef2] (tags = order). *)
Definition enc_ref2 (r : inline_ref2) : bytes :=
  match r with
  | RInline e => match e with end
  | RNamed id => b8 0 :: enc_id id
  | RExtern e => b8 1 :: enc_extern e
  end.
Definition dec_ref2 (b : bytes) : option (inline_ref2 * bytes) :=
  let? (tag, b) := dec_uint 1 b in
  if tag =? 0 then let? (id, b) := dec_id b in Some (RNamed id, b)
  else if tag =? 1 then let? (e, b) := dec_extern b in Some (RExtern e, b)
  else None.

(** The derived codec (tags = order) shared by [InlineRef1], [InlineRef], [LibRef]. *)
Definition enc_gref {I} (ei : I -> bytes) (r : gref I) : bytes :=
  match r with
  | RInline t => b8 0 :: ei t
  | RNamed id => b8 1 :: enc_id id
  | RExtern e => b8 2 :: enc_extern e
  end.
Definition dec_gref {I} (di : bytes -> option (I * bytes)) (b : bytes) : option (gref I * bytes) :=
  let? (tag, b) := dec_uint 1 b in
  if tag =? 0 then let? (t, b) := di b in Some (RInline t, b)
  else if tag =? 1 then let? (id, b) := dec_id b in Some (RNamed id, b)
  else if tag =? 2 then let? (e, b) := dec_extern b in Some (RExtern e, b)
  else None.

(** src/typelib/type_lib.rs:102-111 [InlineRef1]. *)
Definition enc_ref1 : inline_ref1 -> bytes := enc_gref (enc_ty enc_ref2).
Definition dec_ref1 : bytes -> option (inline_ref1 * bytes) := dec_gref (dec_ty dec_ref2).
(** src/typelib/type_lib.rs:59-69 [InlineRef]. *)
Definition enc_ref0 : inline_ref -> bytes := enc_gref (enc_ty enc_ref1).
Definition dec_ref0 : bytes -> option (inline_ref * bytes) := dec_gref (dec_ty dec_ref1).
(** src/typelib/type_lib.rs:169-179 [LibRef]. *)
Definition enc_libref : lib_ref -> bytes := enc_gref (enc_ty enc_ref0).
Definition dec_libref : bytes -> option (lib_ref * bytes) := dec_gref (dec_ty dec_ref0).

(** src/typelib/symbolic.rs:61-72 [SymbolRef]. *)
Definition enc_symref (r : symbol_ref) : bytes :=
  enc_name (sr_lib r) ++ enc_name (sr_name r) ++ enc_id (sr_libid r) ++ enc_id (sr_id r).
Definition dec_symref (b : bytes) : option (symbol_ref * bytes) :=
  let? (l, b) := dec_name tname_ok b in
  let? (n, b) := dec_name tname_ok b in
  let? (li, b) := dec_id b in
  let? (i, b) := dec_id b in
  Some (mkSymRef l n li i, b).

(** src/typelib/symbolic.rs:94-104 [TranspileRef] (tags = order). The recursion depth of decoding is
    given as [fuel]; the limit of the call stack is not modelled. *)
Fixpoint enc_tref (r : tref) : bytes :=
  match r with
  | TrEmbedded t => b8 0 :: enc_ty enc_tref t
  | TrNamed n => b8 1 :: enc_name n
  | TrExtern s => b8 2 :: enc_symref s
  end.
Fixpoint dec_tref (fuel : nat) (b : bytes) : option (tref * bytes) :=
  match fuel with
  | O => None
  | S fuel =>
      let? (tag, b) := dec_uint 1 b in
      if tag =? 0 then let? (t, b) := dec_ty (dec_tref fuel) b in Some (TrEmbedded t, b)
      else if tag =? 1 then let? (n, b) := dec_name tname_ok b in Some (TrNamed n, b)
      else if tag =? 2 then let? (s, b) := dec_symref b in Some (TrExtern s, b)
      else None
  end.

(** ** Libraries *)

(** src/typelib/type_lib.rs:211-218 [Dependency], 228-238 its order. *)
Definition enc_dep (d : dependency) : bytes := enc_id (d_id d) ++ enc_name (d_name d).
Definition dec_dep (b : bytes) : option (dependency * bytes) :=
  let? (i, b) := dec_id b in
  let? (n, b) := dec_name tname_ok b in
  Some (mkDep i n, b).
Definition dep_cmp (a b : dependency) : comparison := d_id a ?= d_id b.

(** src/typelib/symbolic.rs:38 [ExternTypes]. *)
Definition enc_extern_types (m : extern_types) : bytes := enc_map 1 enc_name (enc_map 2 enc_id enc_name) m.
Definition dec_extern_types : bytes -> option (extern_types * bytes) :=
  dec_map 1 0 u8_max String.compare (dec_name tname_ok) (dec_map 2 0 u16_max N.compare dec_id (dec_name tname_ok)).

(** src/typelib/type_lib.rs:255-266 [TypeMap], [TypeLib]. *)
Definition enc_lib (l : type_lib) : bytes :=
  enc_name (l_name l) ++ enc_set 1 enc_dep (l_deps l) ++ enc_extern_types (l_extern l)
  ++ enc_map 2 enc_name (enc_ty enc_libref) (l_types l).
Definition dec_lib (b : bytes) : option (type_lib * bytes) :=
  let? (n, b) := dec_name tname_ok b in
  let? (d, b) := dec_set 1 0 u8_max dep_cmp dec_dep b in
  let? (e, b) := dec_extern_types b in
  let? (t, b) := dec_map 2 1 u16_max String.compare (dec_name tname_ok) (dec_ty dec_libref) b in
  Some (mkLib n d e t, b).

(** src/typelib/symbolic.rs:40-49 [SymbolicLib]. *)
Record sym_lib := mkSymLib {
  y_name : string;
  y_deps : list dependency;
  y_extern : extern_types;
  y_types : list (string * ty tref)
}.
(** The number of types is not limited (default [MAX] of [NonEmptyOrdMap]); its length takes 8 bytes. *)
Definition enc_symlib (l : sym_lib) : bytes :=
  enc_name (y_name l) ++ enc_set 1 enc_dep (y_deps l) ++ enc_extern_types (y_extern l)
  ++ enc_map 8 enc_name (enc_ty enc_tref) (y_types l).
Definition dec_symlib (fuel : nat) (b : bytes) : option (sym_lib * bytes) :=
  let? (n, b) := dec_name tname_ok b in
  let? (d, b) := dec_set 1 0 u8_max dep_cmp dec_dep b in
  let? (e, b) := dec_extern_types b in
  let? (t, b) := dec_map 8 1 u64_max String.compare (dec_name tname_ok) (dec_ty (dec_tref fuel)) b in
  Some (mkSymLib n d e t, b).

(** ** Type systems *)

(** src/typesys/type_sys.rs:112-117 [TypeSystem]. *)
Definition enc_sys (s : type_system) : bytes := enc_map 3 enc_id (enc_ty enc_id) s.
Definition dec_sys : bytes -> option (type_system * bytes) := dec_map 3 0 u24_max N.compare dec_id (dec_ty dec_id).

(** src/typesys/type_sys.rs:42-50 [TypeFqn]. *)
Record type_fqn := mkFqn { q_lib : string; q_name : string }.
Definition enc_fqn (q : type_fqn) : bytes := enc_name (q_lib q) ++ enc_name (q_name q).
Definition dec_fqn (b : bytes) : option (type_fqn * bytes) :=
  let? (l, b) := dec_name tname_ok b in
  let? (n, b) := dec_name tname_ok b in
  Some (mkFqn l n, b).
(** Derived [Ord]. *)
Definition fqn_cmp (a b : type_fqn) : comparison :=
  match String.compare (q_lib a) (q_lib b) with Eq => String.compare (q_name a) (q_name b) | c => c end.

(** src/typesys/translate.rs:37-44 [TypeSymbol]. *)
Record type_symbol := mkSymbol { ts_id : semid; ts_fqn : option type_fqn }.
Definition enc_symbol (s : type_symbol) : bytes := enc_id (ts_id s) ++ enc_option enc_fqn (ts_fqn s).
Definition dec_symbol (b : bytes) : option (type_symbol * bytes) :=
  let? (i, b) := dec_id b in
  let? (q, b) := dec_option dec_fqn b in
  Some (mkSymbol i q, b).
(** Derived [Ord]: the id, then the name ([None] first). *)
Definition symbol_cmp (a b : type_symbol) : comparison :=
  match ts_id a ?= ts_id b with
  | Eq => match ts_fqn a, ts_fqn b with
          | None, None => Eq
          | None, Some _ => Lt
          | Some _, None => Gt
          | Some p, Some q => fqn_cmp p q
          end
  | c => c
  end.

(** src/typesys/symbols.rs:35-42 [Symbols]. *)
Record symbols := mkSymbols { sy_libs : list dependency; sy_symbols : list type_symbol }.
Definition enc_symbols (s : symbols) : bytes :=
  enc_set 2 enc_dep (sy_libs s) ++ enc_set 3 enc_symbol (sy_symbols s).
Definition dec_symbols (b : bytes) : option (symbols * bytes) :=
  let? (l, b) := dec_set 2 0 u16_max dep_cmp dec_dep b in
  let? (s, b) := dec_set 3 0 u24_max symbol_cmp dec_symbol b in
  Some (mkSymbols l s, b).

(** src/typesys/symbols.rs:110-118 [SymbolicSys]. *)
Record symbolic_sys := mkSymSys { ss_symbols : symbols; ss_types : type_system }.
Definition enc_symsys (s : symbolic_sys) : bytes := enc_symbols (ss_symbols s) ++ enc_sys (ss_types s).
Definition dec_symsys (b : bytes) : option (symbolic_sys * bytes) :=
  let? (y, b) := dec_symbols b in
  let? (t, b) := dec_sys b in
  Some (mkSymSys y t, b).
