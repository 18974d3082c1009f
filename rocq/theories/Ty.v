(** Model of the type AST: src/ast/ty.rs, src/ast/iter.rs, src/ast/path.rs, src/ast/translate.rs.
    Only definitions; no proofs. *)
From Coq Require Import NArith ZArith List Bool String.
From Verif Require Import Base.
Import ListNotations.
Local Open Scope N_scope.

(** [strict_encoding::Variant] (external; used in src/ast/ty.rs:31): variant name and tag (u8). *)
Record variant := mkVariant { v_name : string; v_tag : N }.

(** [strict_encoding::Sizing] (external; used in src/ast/ty.rs:31): bounds, u64 each. *)
Record sizing := mkSizing { s_min : N; s_max : N }.

(** [Sizing::check] (external). *)
Definition sizing_check (s : sizing) (len : N) : bool := (s_min s <=? len) && (len <=? s_max s).

(** src/ast/ty.rs:112-150 [Ty]. A primitive is its code (u8). Variants of a union or an enum are listed
    in the order of the ordered map/set holding them. [Field] (src/ast/ty.rs:351-354) is a pair. *)
Inductive ty (R : Type) : Type :=
| TPrim (code : N)
| TUnicode
| TEnum (vs : list variant)
| TUnion (vs : list (variant * R))
| TTuple (fs : list R)
| TStruct (fs : list (string * R))
| TArray (r : R) (len : N)
| TList (r : R) (s : sizing)
| TSet (r : R) (s : sizing)
| TMap (k r : R) (s : sizing).
Arguments TPrim {R} code.
Arguments TUnicode {R}.
Arguments TEnum {R} vs.
Arguments TUnion {R} vs.
Arguments TTuple {R} fs.
Arguments TStruct {R} fs.
Arguments TArray {R} r len.
Arguments TList {R} r s.
Arguments TSet {R} r s.
Arguments TMap {R} k r s.

(** ** Primitives: [strict_encoding::Primitive] (external), codes of the constants used in
    src/ast/ty.rs:153-186 and src/value/decode.rs:137-159. *)
Definition P_UNIT : N := 0x00.
Definition P_U8 : N := 0x01.
Definition P_U16 : N := 0x02.
Definition P_U24 : N := 0x03.
Definition P_U32 : N := 0x04.
Definition P_U40 : N := 0x05.
Definition P_U48 : N := 0x06.
Definition P_U56 : N := 0x07.
Definition P_U64 : N := 0x08.
Definition P_U128 : N := 0x10.
Definition P_BYTE : N := 0x40.
Definition P_I8 : N := 0x41.
Definition P_I16 : N := 0x42.
Definition P_I32 : N := 0x44.
Definition P_I64 : N := 0x48.
Definition P_F16B : N := 0xC0.

(** [Primitive::byte_size] (external). Codes below 0x20 (modulo the class in the two top bits) are sizes
    in bytes, the others count in multiples of 16 bytes. *)
Definition prim_size (c : N) : N :=
  if c =? P_UNIT then 0
  else if c =? P_BYTE then 1
  else if c =? P_F16B then 2
  else let s := N.land c 0x3F in
       if s <? 0x20 then s else 16 * (N.land s 0x1F + 2).

(** src/ast/ty.rs:60-73 [Cls], 92-106 [cls]. *)
Definition cls {R} (t : ty R) : N :=
  match t with
  | TPrim _ => 0
  | TUnicode => 1
  | TEnum _ => 3
  | TUnion _ => 4
  | TStruct _ => 5
  | TTuple _ => 6
  | TArray _ _ => 7
  | TList _ _ => 8
  | TSet _ _ => 9
  | TMap _ _ _ => 10
  end.

(** src/ast/ty.rs:198-206 [is_char_enum]; [rec] is [is_char_enum] of the type embedded in a reference
    ([TypeRef::as_ty]), false when there is none. *)
Definition is_char_enum {R} (rec : R -> bool) (t : ty R) : bool :=
  match t with
  | TTuple (r :: _) => rec r
  | TEnum vs => forallb (fun v => (32 <=? v_tag v) && (v_tag v <=? 127)) vs
  | _ => false
  end.

(** src/ast/ty.rs:207-214 [is_compound]. *)
Definition is_compound {R} (t : ty R) : bool :=
  match t with
  | TTuple fs => 1 <? lenN fs
  | TStruct fs => 1 <? lenN fs
  | TEnum _ | TUnion _ => true
  | _ => false
  end.

(** src/ast/ty.rs:215 [is_primitive]. *)
Definition is_primitive {R} (t : ty R) : bool :=
  match t with TPrim _ | TUnicode => true | _ => false end.

(** src/ast/ty.rs:216-218 [is_collection]. *)
Definition is_collection {R} (t : ty R) : bool :=
  match t with TArray _ _ | TList _ _ | TSet _ _ | TMap _ _ _ => true | _ => false end.

(** src/ast/ty.rs:220 [is_newtype]. *)
Definition is_newtype {R} (t : ty R) : bool :=
  match t with TTuple fs => lenN fs =? 1 | _ => false end.

(** src/ast/ty.rs:223-236 [as_some]. *)
Definition as_some {R} (t : ty R) : option R :=
  match t with
  | TUnion [(v0, _); (v1, r)] =>
      if (v_name v0 =? "none")%string && (v_tag v0 =? 0)
         && (v_name v1 =? "some")%string && (v_tag v1 =? 1)
      then Some r else None
  | _ => None
  end.

(** src/ast/ty.rs:222 [is_option]. *)
Definition is_option {R} (t : ty R) : bool := match as_some t with Some _ => true | None => false end.

(** src/ast/ty.rs:238-247 [as_wrapped_ty]; [as_ty] is [TypeRef::as_ty]. *)
Definition as_wrapped_ty {R} (as_ty : R -> option (ty R)) (t : ty R) : option (ty R) :=
  match t with
  | TTuple [r] => as_ty r
  | _ => None
  end.

(** src/ast/ty.rs:343 [is_byte], 344 [is_unicode_char]. *)
Definition is_byte_ty {R} (t : ty R) : bool :=
  match t with TPrim c => (c =? P_BYTE) || (c =? P_U8) | _ => false end.
Definition is_unicode_ty {R} (t : ty R) : bool :=
  match t with TUnicode => true | _ => false end.

(** ** Lookups in variants and fields *)

(** src/ast/ty.rs:413 [NamedFields::ty_by_pos]. *)
Definition nf_ty_by_pos {R} (fs : list (string * R)) (pos : N) : option R :=
  option_map snd (nth_error fs (N.to_nat pos)).
(** src/ast/ty.rs:414-416 [NamedFields::ty_by_name]. *)
Definition nf_ty_by_name {R} (fs : list (string * R)) (name : string) : option R :=
  option_map snd (find (fun f => (fst f =? name)%string) fs).
(** src/ast/ty.rs:488 [UnnamedFields::ty_by_pos]. *)
Definition uf_ty_by_pos {R} (fs : list R) (pos : N) : option R := nth_error fs (N.to_nat pos).

(** src/ast/ty.rs:566 [UnionVariants::has_tag]. *)
Definition uv_has_tag {R} (vs : list (variant * R)) (tag : N) : bool :=
  existsb (fun v => v_tag (fst v) =? tag) vs.
(** src/ast/ty.rs:567-569 [UnionVariants::by_tag]. *)
Definition uv_by_tag {R} (vs : list (variant * R)) (tag : N) : option (variant * R) :=
  find (fun v => v_tag (fst v) =? tag) vs.
(** src/ast/ty.rs:570-572 [UnionVariants::by_name]. *)
Definition uv_by_name {R} (vs : list (variant * R)) (name : string) : option (variant * R) :=
  find (fun v => (v_name (fst v) =? name)%string) vs.
(** src/ast/ty.rs:573-575 [UnionVariants::ty_by_name]. *)
Definition uv_ty_by_name {R} (vs : list (variant * R)) (name : string) : option R :=
  option_map snd (uv_by_name vs name).
(** src/ast/ty.rs:576-578 [UnionVariants::ty_by_tag]. *)
Definition uv_ty_by_tag {R} (vs : list (variant * R)) (tag : N) : option R :=
  option_map snd (uv_by_tag vs tag).
(** src/ast/ty.rs:579 [UnionVariants::ty_by_pos]. *)
Definition uv_ty_by_pos {R} (vs : list (variant * R)) (pos : N) : option R :=
  option_map snd (nth_error vs (N.to_nat pos)).
(** src/ast/ty.rs:580-582 [UnionVariants::tag_by_name]. *)
Definition uv_tag_by_name {R} (vs : list (variant * R)) (name : string) : option N :=
  option_map (fun v => v_tag (fst v)) (uv_by_name vs name).
(** src/ast/ty.rs:583-585 [UnionVariants::name_by_tag]. *)
Definition uv_name_by_tag {R} (vs : list (variant * R)) (tag : N) : option string :=
  option_map (fun v => v_name (fst v)) (uv_by_tag vs tag).
(** src/ast/ty.rs:586-588 [UnionVariants::name_by_pos]. *)
Definition uv_name_by_pos {R} (vs : list (variant * R)) (pos : N) : option string :=
  option_map (fun v => v_name (fst v)) (nth_error vs (N.to_nat pos)).

(** src/ast/ty.rs:681 [EnumVariants::by_tag]. *)
Definition ev_by_tag (vs : list variant) (tag : N) : option variant :=
  find (fun v => v_tag v =? tag) vs.
(** src/ast/ty.rs:682-684 [EnumVariants::by_name]. *)
Definition ev_by_name (vs : list variant) (name : string) : option variant :=
  find (fun v => (v_name v =? name)%string) vs.
(** src/ast/ty.rs:673-675 [EnumVariants::tag_by_name]. *)
Definition ev_tag_by_name (vs : list variant) (name : string) : option N :=
  option_map v_tag (ev_by_name vs name).
(** src/ast/ty.rs:676-678 [EnumVariants::name_by_tag]. *)
Definition ev_name_by_tag (vs : list variant) (tag : N) : option string :=
  option_map v_name (ev_by_tag vs tag).
(** src/ast/ty.rs:679 [EnumVariants::has_tag]. *)
Definition ev_has_tag (vs : list variant) (tag : N) : bool := existsb (fun v => v_tag v =? tag) vs.
(** src/ast/ty.rs:680 [EnumVariants::has_name]. *)
Definition ev_has_name (vs : list variant) (name : string) : bool :=
  existsb (fun v => (v_name v =? name)%string) vs.

(** ** Positions: src/ast/ty.rs:293-310 [ItemCase] *)
Inductive item_case : Type :=
| CUnnamedField (pos : N)
| CNamedField (pos : N) (name : string)
| CUnionVariant (pos : N) (name : string)
| CArrayItem
| CListItem
| CSetItem
| CMapKey
| CMapValue.

(** src/ast/ty.rs:313-324 [ty_at]. *)
Definition ty_at {R} (t : ty R) (pos : N) : option R :=
  match t with
  | TUnion vs => uv_ty_by_pos vs pos
  | TStruct fs => nf_ty_by_pos fs pos
  | TTuple fs => uf_ty_by_pos fs pos
  | TArray r _ | TList r _ | TSet r _ => if pos =? 0 then Some r else None
  | TMap k r _ => if pos =? 0 then Some k else if pos =? 1 then Some r else None
  | TPrim _ | TUnicode | TEnum _ => None
  end.

(** src/ast/ty.rs:325-341 [case_at]. [len_u8] is exact because the number of fields is at most 255. *)
Definition case_at {R} (t : ty R) (pos : N) : option item_case :=
  match t with
  | TUnion vs => option_map (CUnionVariant pos) (uv_name_by_pos vs pos)
  | TStruct fs => option_map (fun f => CNamedField pos (fst f)) (nth_error fs (N.to_nat pos))
  | TTuple fs => if lenN fs =? pos then Some (CUnnamedField pos) else None
  | TArray _ _ => if pos =? 0 then Some CArrayItem else None
  | TList _ _ => if pos =? 0 then Some CListItem else None
  | TSet _ _ => if pos =? 0 then Some CSetItem else None
  | TMap _ _ _ => if pos =? 0 then Some CMapKey else if pos =? 1 then Some CMapValue else None
  | TPrim _ | TUnicode | TEnum _ => None
  end.

(** src/ast/path.rs:132-144 [count_type_refs]. *)
Definition count_type_refs {R} (t : ty R) : N :=
  match t with
  | TPrim _ | TEnum _ | TUnicode => 0
  | TUnion vs => lenN vs
  | TStruct fs => lenN fs
  | TTuple fs => lenN fs
  | TArray _ _ | TList _ _ | TSet _ _ => 1
  | TMap _ _ _ => 2
  end.

(** ** Iteration: src/ast/iter.rs *)

(** [self.pos += 1] on a u8: overflow panics in a debug build and wraps around in a release build. *)
Definition u8_incr {E} (dbg : bool) (pos : N) : outcome E N :=
  if pos =? 255 then (if dbg then Panic else Ok 0) else Ok (pos + 1).

(** src/ast/iter.rs:100-105 [Iter::next] ([IntoIter::next], 62-66, is the same without the case): the
    returned item and the new position. *)
Definition iter_next {R} (dbg : bool) (t : ty R) (pos : N)
  : outcome Empty_set (option (R * option item_case) * N) :=
  let r := ty_at t pos in
  let item := case_at t pos in
  let* pos' := u8_incr dbg pos in
  Ok (option_map (fun r => (r, item)) r, pos').

(** Consuming the iterator with a [for] loop (or [filter], [map], [collect]): stops at the first [None].
    [fuel] bounds the number of steps. *)
Fixpoint iter_run {R} (fuel : nat) (dbg : bool) (t : ty R) (pos : N)
  : outcome Empty_set (list (R * option item_case)) :=
  match fuel with
  | O => Diverge
  | S fuel =>
      let* (item, pos') := iter_next dbg t pos in
      match item with
      | None => Ok []
      | Some x => let* rest := iter_run fuel dbg t pos' in Ok (x :: rest)
      end
  end.

(** src/ast/iter.rs:75 [type_refs], 79 [iter]: iteration from position 0. Two hundred fifty-seven
    steps are enough for any position counter of type u8. *)
Definition type_refs {R} (dbg : bool) (t : ty R) : outcome Empty_set (list (R * option item_case)) :=
  iter_run 257 dbg t 0.

(** ** Paths: src/ast/path.rs:36-63 [Step]; a path is the list of steps. *)
Inductive step : Type :=
| SNamedField (name : string)
| SUnnamedField (pos : N)
| SVariant (name : string)
| SIndex
| SList
| SSet
| SMapKey
| SMapValue.

(** The match in src/ast/path.rs:113-124. *)
Definition step_ref {R} (t : ty R) (s : step) : option R :=
  match t, s with
  | TStruct fs, SNamedField name => nf_ty_by_name fs name
  | TUnion vs, SVariant name => uv_ty_by_name vs name
  | TStruct fs, SUnnamedField pos => nf_ty_by_pos fs pos
  | TUnion vs, SUnnamedField tag => uv_ty_by_tag vs tag
  | TArray r _, SIndex => Some r
  | TList r _, SList => Some r
  | TSet r _, SSet => Some r
  | TMap k _ _, SMapKey => Some k
  | TMap _ r _, SMapValue => Some r
  | _, _ => None
  end.

(** src/ast/path.rs:111-129, the loop. The steps are popped from the end of the path: [rpath] is the
    path reversed. Every step is matched against [self], as in the source. [ty] is the loop variable;
    the error holds [path_so_far]. *)
Fixpoint at_path_loop {R} (as_ty : R -> option (ty R)) (self : ty R) (rpath : list step) (t : ty R)
    (so_far : list step) : outcome (list step) (ty R) :=
  match rpath with
  | [] => Ok t
  | s :: rest =>
      let so_far := so_far ++ [s] in
      match match step_ref self s with Some r => as_ty r | None => None end with
      | Some t' => at_path_loop as_ty self rest t' so_far
      | None => Err so_far
      end
  end.

(** src/ast/path.rs:107-130 [at_path]. *)
Definition at_path {R} (as_ty : R -> option (ty R)) (self : ty R) (path : list step)
  : outcome (list step) (ty R) :=
  at_path_loop as_ty self (rev path) self [].

(** ** Translation of references: src/ast/translate.rs *)

(** Sequential translation with a state ([builder]); used for the loops in src/ast/translate.rs:
    [UnionVariants] 76-86, [NamedFields] 96-109, [UnnamedFields] 119-129. *)
Fixpoint map_state {E S A B} (f : A -> S -> outcome E B * S) (l : list A) (s : S)
  : outcome E (list B) * S :=
  match l with
  | [] => (Ok [], s)
  | x :: r =>
      match f x s with
      | (Ok y, s) =>
          match map_state f r s with
          | (Ok ys, s) => (Ok (y :: ys), s)
          | (Err e, s) => (Err e, s)
          | (Panic, s) => (Panic, s)
          | (Diverge, s) => (Diverge, s)
          end
      | (Err e, s) => (Err e, s)
      | (Panic, s) => (Panic, s)
      | (Diverge, s) => (Diverge, s)
      end
  end.

(** Mapping over the result of a stateful translation. *)
Definition map_fst {E A B S} (f : A -> B) (o : outcome E A * S) : outcome E B * S :=
  match o with
  | (Ok a, s) => (Ok (f a), s)
  | (Err e, s) => (Err e, s)
  | (Panic, s) => (Panic, s)
  | (Diverge, s) => (Diverge, s)
  end.

(** src/ast/translate.rs:47-66 [Translate for Ty]; the builder [S] is a mutable reference in the source
    and so keeps its changes when an error is returned. Re-packing keeps the sizes and the order of
    variants, so that it can not fail. *)
Definition translate_ty {E S R R'} (f : R -> S -> outcome E R' * S) (t : ty R) (s : S)
  : outcome E (ty R') * S :=
  match t with
  | TPrim c => (Ok (TPrim c), s)
  | TEnum vs => (Ok (TEnum vs), s)
  | TUnicode => (Ok TUnicode, s)
  | TUnion vs =>
      map_fst TUnion (map_state (fun '(v, r) s => map_fst (fun r' => (v, r')) (f r s)) vs s)
  | TStruct fs =>
      map_fst TStruct (map_state (fun '(n, r) s => map_fst (fun r' => (n, r')) (f r s)) fs s)
  | TTuple fs => map_fst TTuple (map_state f fs s)
  | TArray r len => map_fst (fun r' => TArray r' len) (f r s)
  | TList r sz => map_fst (fun r' => TList r' sz) (f r s)
  | TSet r sz => map_fst (fun r' => TSet r' sz) (f r s)
  | TMap k r sz =>
      match f k s with
      | (Ok k', s) => map_fst (fun r' => TMap k' r' sz) (f r s)
      | (Err e, s) => (Err e, s)
      | (Panic, s) => (Panic, s)
      | (Diverge, s) => (Diverge, s)
      end
  end.
