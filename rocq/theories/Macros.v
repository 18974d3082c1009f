(** Model of the macros which make types: src/macros.rs:24-98. Only definitions. A macro is a function of the entries written in
    it; all errors are panics. *)
From Coq Require Import NArith List Bool String Strings.Byte.
From Verif Require Import Base Ty Ids TypeSys Typify LibCodec Ston.
Import ListNotations.
Local Open Scope N_scope.
Local Open Scope list_scope.

(** ** Rust [BTreeMap], [BTreeSet] (std), as used in src/macros.rs:56, 66, 78, 88 *)

(** Nodes have up to 11 entries; a node with children has one before each entry and one after the last entry. *)
Inductive tree (E : Type) : Type :=
| Leaf (entries : list E)
| Node (before : list (tree E * E)) (last : tree E).
Arguments Leaf {E} _. Arguments Node {E} _ _.
(** The entries in order. *)
Fixpoint tree_items {E} (t : tree E) : list E :=
  match t with
  | Leaf l => l
  | Node before last => flat_map (fun c => tree_items (fst c) ++ [snd c]) before ++ tree_items last
  end.

(** The result of an insertion: an equal key is there already, the node has the entry, or the node was split. *)
Inductive inserted (E : Type) : Type :=
| Found
| Done (t : tree E)
| Split (l : tree E) (e : E) (r : tree E).
Arguments Found {E}. Arguments Done {E} _. Arguments Split {E} _ _ _.

(** [splitpoint] (std): which entry, counted with the new one, goes up when the new one is put at [idx] of a full node. *)
Definition goes_up (idx : nat) : nat :=
  if Nat.ltb idx 5 then 5%nat else if Nat.eqb idx 5 then 6%nat else if Nat.eqb idx 6 then 5%nat else 6%nat.
(** A leaf with the new entry, a node with children with the new entry: split when it was full. *)
Definition fit_leaf {E} (idx : nat) (l : list E) : inserted E :=
  if Nat.leb (List.length l) 11 then Done (Leaf l)
  else match skipn (goes_up idx) l with
       | e :: r => Split (Leaf (firstn (goes_up idx) l)) e (Leaf r)
       | [] => Done (Leaf l)
       end.
Definition fit_node {E} (idx : nat) (before : list (tree E * E)) (last : tree E) : inserted E :=
  if Nat.leb (List.length before) 11 then Done (Node before last)
  else match skipn (goes_up idx) before with
       | (c, e) :: r => Split (Node (firstn (goes_up idx) before) c) e (Node r last)
       | [] => Done (Node before last)
       end.

(** [insert]: the key is compared with the entries of a node from left to right, up to one which is not smaller; then the child
    before it is searched. *)
Fixpoint leaf_insert {E} (cmp : E -> E -> comparison) (k : E) (seen l : list E) : inserted E :=
  match l with
  | [] => fit_leaf (List.length seen) (seen ++ [k])
  | e :: l' => match cmp k e with
               | Gt => leaf_insert cmp k (seen ++ [e]) l'
               | Eq => Found
               | Lt => fit_leaf (List.length seen) (seen ++ k :: l)
               end
  end.
Fixpoint tree_insert {E} (cmp : E -> E -> comparison) (k : E) (t : tree E) : inserted E :=
  match t with
  | Leaf l => leaf_insert cmp k [] l
  | Node before last =>
      (fix node_insert (seen l : list (tree E * E)) : inserted E :=
         match l with
         | [] => match tree_insert cmp k last with
                 | Found => Found
                 | Done t => Done (Node seen t)
                 | Split a x b => fit_node (List.length seen) (seen ++ [(a, x)]) b
                 end
         | (c, e) :: l' =>
             match cmp k e with
             | Gt => node_insert (seen ++ [(c, e)]) l'
             | Eq => Found
             | Lt => match tree_insert cmp k c with
                     | Found => Found
                     | Done t => Done (Node (seen ++ (t, e) :: l') last)
                     | Split a x b => fit_node (List.length seen) (seen ++ (a, x) :: (b, e) :: l') last
                     end
             end
         end) [] before
  end.
(** [None] when an equal key is there already; a root which was split gets a root above it. *)
Definition root_insert {E} (cmp : E -> E -> comparison) (k : E) (t : tree E) : option (tree E) :=
  match tree_insert cmp k t with
  | Found => None
  | Done t => Some t
  | Split a x b => Some (Node [(a, x)] b)
  end.

(** ** The macros *)

(** [Confined::try_from(..).expect(..)] for up to 255 entries, at least one. *)
Definition confined {A} (l : list A) : outcome Empty_set (list A) := if within 1 u8_max (lenN l) then Ok l else Panic.
(** [vname!], [fname!] (external). *)
Definition checked (name : string) : outcome Empty_set string := if name_ok name then Ok name else Panic.

(** [assert!(m.insert(key, value).is_none(), ..)], with the variant as the key. *)
Definition entry_cmp {A} (a b : variant * A) : comparison := variant_cmp (fst a) (fst b).
Definition insert_new {A} (e : variant * A) (m : tree (variant * A)) : outcome Empty_set (tree (variant * A)) :=
  match root_insert entry_cmp e m with Some m => Ok m | None => Panic end.

(** src/macros.rs:54-62: variants with tags. *)
Fixpoint insert_tagged {A} (entries : list (string * N * A)) (m : tree (variant * A)) : outcome Empty_set (tree (variant * A)) :=
  match entries with
  | [] => Ok m
  | (name, tag, value) :: entries =>
      let* name := checked name in
      let* m := insert_new (mkVariant name tag, value) m in
      insert_tagged entries m
  end.
Definition variants_tagged {A} (entries : list (string * N * A)) : outcome Empty_set (list (variant * A)) :=
  let* m := insert_tagged entries (Leaf []) in confined (tree_items m).

(** src/macros.rs:63-75, 85-97: variants without tags (of an enumeration with the value [tt]); the next tag is computed after the last
    one too, with a check for overflow when debugging. *)
Fixpoint insert_counted {A} (dbg : bool) (tag : N) (entries : list (string * A)) (m : tree (variant * A))
  : outcome Empty_set (tree (variant * A)) :=
  match entries with
  | [] => Ok m
  | (name, value) :: entries =>
      let* name := checked name in
      let* m := insert_new (mkVariant name tag, value) m in
      if dbg && (tag =? u8_max) then Panic else insert_counted dbg ((tag + 1) mod 256) entries m
  end.
Definition variants_counted {A} (dbg : bool) (entries : list (string * A)) : outcome Empty_set (list (variant * A)) :=
  let* m := insert_counted dbg 0 entries (Leaf []) in confined (tree_items m).
Definition variants_enum (dbg : bool) (names : list string) : outcome Empty_set (list variant) :=
  let* vs := variants_counted dbg (map (fun n => (n, tt)) names) in Ok (map fst vs).

(** src/macros.rs:76-84: variants [_N] for a range of tags. *)
Definition range_name (tag : N) : string := bstring (sbytes "_" ++ show_N tag).
Definition tags (from to : N) : list N := map (fun i => from + N.of_nat i) (seq 0 (N.to_nat (to + 1 - from))).
Definition variants_range (from to : N) : outcome Empty_set (list variant) :=
  let* vs := variants_tagged (map (fun tag => (range_name tag, tag, tt)) (tags from to)) in Ok (map fst vs).

(** src/macros.rs:26-33: fields without names; 34-41, 42-49: fields with names. *)
Definition fields_unnamed {A} (values : list A) : outcome Empty_set (list A) := confined values.
Fixpoint checked_fields {A} (entries : list (string * A)) : outcome Empty_set (list (string * A)) :=
  match entries with
  | [] => Ok []
  | (name, value) :: entries =>
      let* name := checked name in
      let* fs := checked_fields entries in
      Ok ((name, value) :: fs)
  end.
Definition fields_named {A} (entries : list (string * A)) : outcome Empty_set (list (string * A)) :=
  let* fs := checked_fields entries in confined fs.
