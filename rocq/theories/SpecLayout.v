(** Specification of the tree of the components of a type. *)
From Coq Require Import NArith List Bool String.
From Verif Require Import Base Ty Ids TypeSys LibCodec Build Layout Spec SpecSys.
Import ListNotations.
Local Open Scope string_scope.
Local Open Scope N_scope.

(** The tree of a type: its definition, its name, its role in the type it is a component of, the wrappers
    around it, and the trees of its components. *)
Inductive tree : Type :=
| Tree (t : ty semid) (name : option type_fqn) (role : option item_case) (wrappers : list nested_case)
       (components : list tree).

(** Roles which are known: all besides the positions in tuples (see C38). *)
Definition known_role (c : item_case) : option item_case :=
  match c with CUnnamedField _ => None | c => Some c end.

(** An optional value of the type [r]: nothing, or a value. *)
Definition option_type (t : ty semid) (r : semid) : Prop :=
  exists r0, t = TUnion [(mkVariant "none" 0, r0); (mkVariant "some" 1, r)].

(** A type whose components are listed: not one of those which have rules of their own below. *)
Definition plain (types : type_system) (t : ty semid) : Prop :=
  match t with
  | TTuple fs => lenN fs <> 1 /\ forall a1 a2 min max, ~ restricted_string types fs a1 a2 min max
  | TUnion _ => forall r, ~ option_type t r
  | TList r _ => exists rt, In (r, rt) types /\ chars_type rt = None /\ rt <> TPrim P_U8 /\ rt <> TPrim P_BYTE /\ rt <> TUnicode
  | TArray r _ => ~ byte_item r
  | _ => True
  end.

(** The definitions of the types of the system are consistent. *)
Definition consistent (types : type_system) : Prop :=
  forall id t, In (id, t) types -> wf_ty t /\ wf_rest types t.

Section Tree.
Variable sys : symbolic_sys.
Notation types := (ss_types sys).
Notation name := (lookup (ss_symbols sys)).

(** [laid id role outer tree]: the tree of the type [id] which has the given role and is inside the wrappers
    [outer]. New types and optional types are not items of their own: they are wrappers of what is in them.
    The value inside an optional type has the role of the variant of the option. Strings and byte strings have no components. *)
Inductive laid : semid -> option item_case -> list nested_case -> tree -> Prop :=
| La_newtype id r role outer tr :
    In (id, TTuple [r]) types -> laid r role (outer ++ [NNewType (name id)]) tr ->
    laid id role outer tr
| La_option id t r role outer tr :
    In (id, t) types -> option_type t r ->
    laid r (Some (CUnionVariant 1 "some")) (outer ++ [NOption]) tr ->
    laid id role outer tr
| La_string id first rest r t1 t2 a1 a2 min max role outer :
    In (id, TTuple [first; rest]) types ->
    In (first, t1) types -> chars_type t1 = Some a1 ->
    In (rest, TList r (mkSizing min max)) types ->
    In (r, t2) types -> chars_type t2 = Some a2 ->
    min < u64_max -> max < u64_max ->
    laid id role outer
      (Tree (TTuple [first; rest]) (name id) role
         (outer ++ [NRStr (name first) (name r) (mkSizing (min + 1) (max + 1))]) [])
| La_chars id r rt a s role outer :
    In (id, TList r s) types -> In (r, rt) types -> chars_type rt = Some a ->
    laid id role outer (Tree (TList r s) (name id) role (outer ++ [NAsciiStr (name r)]) [])
| La_bytes id r p s role outer :
    In (id, TList r s) types -> In (r, TPrim p) types -> p = P_U8 \/ p = P_BYTE ->
    laid id role outer (Tree (TList r s) (name id) role (outer ++ [NByteStr]) [])
| La_text id r s role outer :
    In (id, TList r s) types -> In (r, TUnicode) types ->
    laid id role outer (Tree (TList r s) (name id) role (outer ++ [NUniStr]) [])
| La_byte_array id r len role outer :
    In (id, TArray r len) types -> byte_item r ->
    laid id role outer (Tree (TArray r len) (name id) role outer [])
| La_node id t role outer trees :
    In (id, t) types -> plain types t ->
    Forall2 (fun c tr => laid (fst c) (known_role (snd c)) [] tr) (components t) trees ->
    laid id role outer (Tree t (name id) role outer trees).

End Tree.

(** [shows sys id r]: what is shown for the type [id] contains the type [r]. *)
Inductive shows (sys : symbolic_sys) : semid -> semid -> Prop :=
| Sh_newtype id r : In (id, TTuple [r]) (ss_types sys) -> shows sys id r
| Sh_option id t r : In (id, t) (ss_types sys) -> option_type t r -> shows sys id r
| Sh_node id t r : In (id, t) (ss_types sys) -> plain (ss_types sys) t -> In r (refs t) -> shows sys id r.

(** The number of options among the wrappers. *)
Definition options (ws : list nested_case) : N := lenN (filter (fun w => match w with NOption => true | _ => false end) ws).

(** The items of a tree: each one before its components. The depth of an item is the number of the items it
    is inside, and of the options around it and around them. *)
Fixpoint items_of (depth : N) (tr : tree) : list type_info :=
  match tr with
  | Tree t name role ws trs =>
      mkInfo (depth + options ws) t name role ws :: flat_map (items_of (depth + options ws + 1)) trs
  end.

(** At most 255 wrappers around each of the items. *)
Fixpoint few_wrappers (tr : tree) : Prop :=
  match tr with
  | Tree _ _ _ ws trs => lenN ws <= 255 /\ fold_right (fun tr P => few_wrappers tr /\ P) True trs
  end.

(** The expression showing an item without its components. *)
Definition shown (t : ty semid) (name : option type_fqn) (role : option item_case) (ws : list nested_case) : vesper :=
  info_vesper (mkInfo 0 t name role ws).

(** The expression of a tree: each item contains those of its components. *)
Fixpoint drawn (tr : tree) : vesper :=
  match tr with
  | Tree t name role ws trs =>
      let e := shown t name role ws in
      mkVesper (x_subject e) (x_pred e) (x_attrs e) (map drawn trs) (x_comment e)
  end.

(** The expressions in the order in which they are written, each without what is inside of it. *)
Fixpoint heads (e : vesper) : list vesper :=
  match e with
  | mkVesper s p a content c => mkVesper s p a [] c :: flat_map heads content
  end.

(** Neither the item nor those it is inside are optional ([clean] tells that about the latter), besides those
    which are the first ones in what they are components of. *)
Fixpoint options_first (clean first : bool) (tr : tree) : Prop :=
  match tr with
  | Tree _ _ _ ws trs =>
      let clean := clean && (options ws =? 0) in
      (first = true \/ clean = true)
      /\ (fix go (first : bool) (trs : list tree) : Prop :=
            match trs with
            | [] => True
            | tr :: trs => options_first clean first tr /\ go false trs
            end) true trs
  end.

(** No item of the tree is optional. *)
Fixpoint no_options (tr : tree) : Prop :=
  match tr with
  | Tree _ _ _ ws trs => options ws = 0 /\ fold_right (fun tr P => no_options tr /\ P) True trs
  end.

(** The role and the wrappers of an item; an item which is not optional. *)
Definition tree_role (tr : tree) := match tr with Tree _ _ role _ _ => role end.
Definition tree_wrappers (tr : tree) := match tr with Tree _ _ _ ws _ => ws end.
Definition not_optional (tr : tree) : Prop := options (tree_wrappers tr) = 0.
