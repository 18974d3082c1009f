(** Model of type trees and of memory layouts: src/typesys/iter.rs, src/layout. Only definitions. *)
From Coq Require Import NArith List Bool String Ascii.
From Verif Require Import Base Ty Ids TypeSys LibCodec Build.
Import ListNotations.
Local Open Scope N_scope.

(** ** Type trees: src/typesys/iter.rs *)

(** src/typesys/iter.rs:90-108 [NestedCase]. *)
Inductive nested_case : Type :=
| NNewType (fqn : option type_fqn)
| NOption
| NByteStr
| NAsciiStr (fqn : option type_fqn)
| NUniStr
| NRStr (first rest : option type_fqn) (s : sizing).

(** src/typesys/iter.rs:120-126 [TypeInfo]. *)
Record type_info := mkInfo {
  i_depth : N;
  i_ty : ty semid;
  i_fqn : option type_fqn;
  i_item : option item_case;
  i_nested : list nested_case
}.

(** src/typesys/iter.rs:142-150 [TypeTreeIter]. The top of the stack [path] is the head of the list; an
    iterator over a type is the type and the position. The depth is a u32; its overflow is not modelled. *)
Record tree_iter := mkIter {
  ti_id : semid;
  ti_ty : option (ty semid);
  ti_item : option item_case;
  ti_depth : N;
  ti_path : list (N * (ty semid * N));
  ti_nested : list nested_case
}.

(** src/ast/ty.rs:221 [is_byte_array]. *)
Definition is_byte_array (t : ty semid) : bool :=
  match t with TArray r _ => is_byte_id r | _ => false end.

(** What a visit does: the new nested cases, [dive], [push], [ret] and the position from which the iterator
    over the type goes on; src/typesys/iter.rs:160-164. *)
Record visit_plan := mkPlan {
  p_nested : list nested_case;
  p_dive : bool;
  p_push : bool;
  p_ret : bool;
  p_pos : N
}.

(** [u64 += 1], src/typesys/iter.rs:184-185. *)
Definition incr64 {E} (dbg : bool) (x : N) : outcome E N :=
  if x =? u64_max then (if dbg then Panic else Ok 0) else Ok (x + 1).

(** src/typesys/iter.rs:166-208. *)
Definition visit_type (dbg : bool) (sys : symbolic_sys) (fqn : option type_fqn) (t : ty semid)
  : outcome Empty_set visit_plan :=
  let get := sys_get (ss_types sys) in
  let name := lookup (ss_symbols sys) in
  if is_newtype t then Ok (mkPlan [NNewType fqn] false true false 0)
  else if is_option t then Ok (mkPlan [NOption] true true false 1)
  else match t with
  | TTuple [a; b] =>
      match get a, get b with
      | Some first, Some (TList rest sz) =>
          if char_enum first && match get rest with Some o => char_enum o | None => false end then
            let* min := incr64 dbg (s_min sz) in
            let* max := incr64 dbg (s_max sz) in
            Ok (mkPlan [NRStr (name a) (name rest) (mkSizing min max)] true true true 2)
          else Ok (mkPlan [] true true true 0)
      | _, _ => Ok (mkPlan [] true true true 0)
      end
  | TList r _ =>
      let* inner := expect (get r) in
      if char_enum inner then Ok (mkPlan [NAsciiStr (name r)] false false true 0)
      else if is_byte_ty inner then Ok (mkPlan [NByteStr] false false true 0)
      else if is_unicode_ty inner then Ok (mkPlan [NUniStr] false false true 0)
      else Ok (mkPlan [] true true true 0)
  | _ => if is_byte_array t then Ok (mkPlan [] true false true 0) else Ok (mkPlan [] true true true 0)
  end.

(** src/typesys/iter.rs:155-251 [next]. A round of the model is either the visit of the current type
    (156-231) or one round of the loop (232-250); the recursive call is the next round. [from_checked]
    panics above 255 nested cases. *)
Fixpoint tree_next (fuel : nat) (dbg : bool) (sys : symbolic_sys) (st : tree_iter)
  : outcome Empty_set (option type_info * tree_iter) :=
  match fuel with
  | O => Diverge
  | S fuel =>
      match ti_ty st with
      | Some t =>
          let fqn := lookup (ss_symbols sys) (ti_id st) in
          let* p := visit_type dbg sys fqn t in
          let depth := if p_dive p then ti_depth st + 1 else ti_depth st in
          let path := if p_push p then (depth, (t, p_pos p)) :: ti_path st else ti_path st in
          let nested := ti_nested st ++ p_nested p in
          if p_ret p then
            if lenN nested <=? u8_max then
              Ok (Some (mkInfo (ti_depth st) t fqn (ti_item st) nested),
                  mkIter (ti_id st) None None depth path [])
            else Panic
          else tree_next fuel dbg sys (mkIter (ti_id st) None (ti_item st) depth path nested)
      | None =>
          match ti_path st with
          | [] => Ok (None, st)
          | (depth, (t, pos)) :: rest =>
              let* (item, pos') := iter_next dbg t pos in
              match item with
              | None => tree_next fuel dbg sys (mkIter (ti_id st) None (ti_item st) depth rest [])
              | Some (id, case) =>
                  let item := match last (map Some (ti_nested st)) None with
                              | Some (NNewType _) => ti_item st
                              | _ => case
                              end in
                  tree_next fuel dbg sys
                    (mkIter id (sys_get (ss_types sys) id) item depth ((depth, (t, pos')) :: rest) (ti_nested st))
              end
          end
      end
  end.

(** src/typesys/iter.rs:46-56 [TypeTree::iter], 44 [get]. *)
Definition tree_start (sys : symbolic_sys) (id : semid) : outcome Empty_set tree_iter :=
  let* t := expect (sys_get (ss_types sys) id) in
  Ok (mkIter id (Some t) None 0 [] []).

(** src/layout/memory.rs:38-52 [MemoryLayout::from]: all the items. The limit of 2^32-1 items is not
    modelled. The fuel bounds both the number of items and the rounds for each of them. *)
Fixpoint tree_collect (fuel : nat) (dbg : bool) (sys : symbolic_sys) (st : tree_iter)
  : outcome Empty_set (list type_info) :=
  match fuel with
  | O => Diverge
  | S fuel =>
      let* (info, st) := tree_next fuel dbg sys st in
      match info with
      | None => Ok []
      | Some i => let* l := tree_collect fuel dbg sys st in Ok (i :: l)
      end
  end.

(** src/typesys/iter.rs:59 [to_layout]. *)
Definition to_layout (fuel : nat) (dbg : bool) (sys : symbolic_sys) (id : semid) : outcome Empty_set (list type_info) :=
  let* st := tree_start sys id in tree_collect fuel dbg sys st.

(** ** Layout expressions *)

(** src/layout/vesper.rs:38-55 [Pred]. *)
Inductive pred : Type :=
| PdIs | PdTuple | PdRec | PdEnum | PdUnion | PdChar | PdStr | PdAscii | PdBytes | PdArray | PdList | PdSet | PdMap.

(** src/layout/vesper.rs:61-77 [From<Cls>]. *)
Definition pred_of {R} (t : ty R) : pred :=
  match t with
  | TPrim _ => PdIs
  | TUnicode => PdStr
  | TEnum _ => PdEnum
  | TUnion _ => PdUnion
  | TStruct _ => PdRec
  | TTuple _ => PdTuple
  | TArray _ _ => PdArray
  | TList _ _ => PdList
  | TSet _ _ => PdSet
  | TMap _ _ _ => PdMap
  end.

(** src/layout/vesper.rs:91-102 [Attr]; a [LenRange] (140-145) is made of a sizing and keeps its bounds. The
    type name of a primitive, written with [Display] of [Primitive] (external), is kept as its code. *)
Inductive attr : Type :=
| ATypeName (n : string)
| APrimName (code : N)
| AWrapped (n : option string)
| AOption
| ATag (tag : N)
| AAsciiEnum (n : string)
| AAsciiFirst (n : string)
| AAsciiRest (n : string)
| AEnumVariant (tag : N) (n : string)
| ALen (len : N)
| ALenRange (min max : N).

(** The subject of an expression: an identifier or, for an unnamed field, its number. *)
Inductive subject : Type :=
| SjName (n : string)
| SjPos (pos : N).

(** [vesper::TExpr] (external; src/layout/vesper.rs:34). The limits on the numbers of attributes and of
    contained expressions are not modelled. *)
Inductive vesper : Type := mkVesper {
  x_subject : subject;
  x_pred : pred;
  x_attrs : list attr;
  x_content : list vesper;
  x_comment : option string
}.

(** src/layout/translate.rs:42-85: the subject, the first attribute and the comment. *)
Definition vesper_subject (fqn : option type_fqn) (item : option item_case) : subject * list attr * option string :=
  let name := match fqn with Some q => q_name q | None => "_"%string end in
  let type_name := if (name =? "_")%string then [] else [ATypeName name] in
  match item with
  | Some (CUnnamedField pos) =>
      if (name =? "_")%string then (SjPos pos, [], option_map q_name fqn) else (SjName name, [], None)
  | Some (CNamedField _ fname) => (SjName fname, type_name, None)
  | Some (CUnionVariant _ vname) => (SjName vname, type_name, None)
  | Some CListItem | Some CSetItem =>
      match fqn with None => (SjName "element", [], None) | Some _ => (SjName name, [], None) end
  | Some CMapKey => (SjName "key", type_name, None)
  | Some CMapValue => (SjName "value", type_name, None)
  | _ => (SjName name, [], None)
  end.

(** src/layout/translate.rs:87-99: attributes by the type. *)
Definition vesper_type_attrs (t : ty semid) : list attr :=
  match t with
  | TPrim c => if c =? P_UNIT then [ATypeName "Unit"] else [APrimName c]
  | TArray _ len => [ALen len]
  | TList _ s | TSet _ s | TMap _ _ s => [ALenRange (s_min s) (s_max s)]
  | _ => []
  end.

(** src/layout/translate.rs:105-136, one of the nested cases: the new predicate and attributes. *)
Definition vesper_nested (p : pred) (n : nested_case) : pred * list attr :=
  let attr_of (f : string -> attr) (q : option type_fqn) :=
    match q with Some q => [f (q_name q)] | None => [] end in
  match n with
  | NAsciiStr q => (PdAscii, attr_of AAsciiEnum q)
  | NRStr first rest s =>
      (PdAscii, attr_of AAsciiFirst first ++ attr_of AAsciiRest rest ++ [ALenRange (s_min s) (s_max s)])
  | NByteStr => (PdBytes, [])
  | NUniStr => (PdStr, [])
  | NNewType q => (p, [AWrapped (option_map q_name q)])
  | NOption => (p, [AOption])
  end.

(** src/layout/translate.rs:33-154 [TypeInfo::to_vesper]. *)
Definition info_vesper (i : type_info) : vesper :=
  let '(subj, attrs, comment) := vesper_subject (i_fqn i) (i_item i) in
  let pred := if char_enum (i_ty i) then PdChar else if is_byte_array (i_ty i) then PdBytes else pred_of (i_ty i) in
  let (pred, nested) := fold_left (fun '(p, l) n => let (p, l') := vesper_nested p n in (p, l ++ l'))
                          (i_nested i) (pred, []) in
  let variants := match i_ty i with TEnum vs => map (fun v => AEnumVariant (v_tag v) (v_name v)) vs | _ => [] end in
  let tag := match i_item i with Some (CUnionVariant pos _) => [ATag pos] | _ => [] end in
  mkVesper subj pred (attrs ++ vesper_type_attrs (i_ty i) ++ nested ++ variants ++ tag) [] comment.

(** src/layout/memory.rs:89-96: following the path from the root and adding a contained expression; [None] is
    the failed [expect]. Returns the new expression and the number of the new one in it. *)
Fixpoint push_at (path : list nat) (e root : vesper) : option (vesper * nat) :=
  match path with
  | [] =>
      Some (mkVesper (x_subject root) (x_pred root) (x_attrs root) (x_content root ++ [e]) (x_comment root),
            List.length (x_content root))
  | i :: path =>
      match nth_error (x_content root) i with
      | None => None
      | Some c =>
          match push_at path e c with
          | None => None
          | Some (c', n) =>
              Some (mkVesper (x_subject root) (x_pred root) (x_attrs root)
                      (firstn i (x_content root) ++ c' :: skipn (S i) (x_content root)) (x_comment root), n)
          end
      end
  end.

(** src/layout/memory.rs:66-97, the loop of [to_vesper]. The assertions (73, 78) are checked in a
    debug build only. In a release build an item of depth 0 replaces the root when the path is empty;
    otherwise the subtraction (84) wraps around and [split_off] panics. *)
Fixpoint vesper_loop (dbg : bool) (items : list type_info) (root : option vesper) (path : list nat)
  : outcome Empty_set (option vesper) :=
  match items with
  | [] => Ok root
  | i :: items =>
      let e := info_vesper i in
      match path, i_depth i with
      | [], 0 =>
          match root with
          | Some _ => if dbg then Panic else vesper_loop dbg items (Some e) path
          | None => vesper_loop dbg items (Some e) path
          end
      | _, 0 => Panic
      | _, depth =>
          let path := if depth <=? lenN path then firstn (N.to_nat (depth - 1)) path else path in
          let* r := expect root in
          let* (r, n) := expect (push_at path e r) in
          vesper_loop dbg items (Some r) (path ++ [n])
      end
  end.

(** src/layout/memory.rs:65-99 [to_vesper]. *)
Definition to_vesper (dbg : bool) (items : list type_info) : outcome Empty_set vesper :=
  let* root := vesper_loop dbg items None [] in expect root.
