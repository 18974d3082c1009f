(** Model of type systems: src/typesys/type_sys.rs. Only definitions. *)
From Coq Require Import NArith List Bool String.
From Verif Require Import Base Ty Ids.
Import ListNotations.
Local Open Scope N_scope.

(** Parameters of the running program: the build profile ([dbg]: overflow checks and debug assertions
    are on) and the memory limit ([cap]: the largest number of items for which an allocation is
    possible; allocating more panics or aborts). *)
Record config := mkConfig { dbg : bool; cap : N }.

(** [Vec::with_capacity(len)]. *)
Definition alloc {E} (c : config) (len : N) : outcome E unit :=
  if cap c <? len then Panic else Ok tt.

(** [debug_assert!(b)]. *)
Definition debug_assert {E} (c : config) (b : bool) : outcome E unit :=
  if dbg c && negb b then Panic else Ok tt.

(** [x + 1] on a u64: overflow panics with overflow checks, wraps around otherwise. *)
Definition u64_incr {E} (c : config) (x : N) : outcome E N :=
  if x =? u64_max then (if dbg c then Panic else Ok 0) else Ok (x + 1).

(** ** Ordered maps ([BTreeMap]): lists in strictly increasing order of keys *)

(** [BTreeMap::get]. *)
Fixpoint om_get {K V} (cmp : K -> K -> comparison) (k : K) (m : list (K * V)) : option V :=
  match m with
  | [] => None
  | (k', v) :: r => match cmp k k' with Eq => Some v | _ => om_get cmp k r end
  end.

(** [BTreeMap::insert]. The key is kept when it is present already. *)
Fixpoint om_insert {K V} (cmp : K -> K -> comparison) (k : K) (v : V) (m : list (K * V)) : list (K * V) :=
  match m with
  | [] => [(k, v)]
  | (k', v') :: r =>
      match cmp k k' with
      | Lt => (k, v) :: (k', v') :: r
      | Eq => (k', v) :: r
      | Gt => (k', v') :: om_insert cmp k v r
      end
  end.

(** ** Ordered sets ([BTreeSet]) of ids *)

(** [BTreeSet::insert]. *)
Fixpoint os_insert (k : N) (s : list N) : list N :=
  match s with
  | [] => [k]
  | k' :: r =>
      match k ?= k' with
      | Lt => k :: k' :: r
      | Eq => k' :: r
      | Gt => k' :: os_insert k r
      end
  end.

(** [BTreeSet::extend]. *)
Definition os_extend (s : list N) (l : list N) : list N := fold_left (fun s k => os_insert k s) l s.

(** [BTreeSet::contains]. *)
Definition os_mem (k : N) (s : list N) : bool := existsb (fun k' => k =? k') s.

(** ** Type system *)

(** src/typesys/type_sys.rs:135 [get]. *)
Definition sys_get (s : type_system) (id : semid) : option (ty semid) := om_get N.compare id s.

(** src/value/typify.rs:138-140 [find]. *)
Definition sys_find (s : type_system) (id : semid) : option (ty semid) :=
  option_map snd (find (fun e => fst e =? id) s).

(** Confinement error of a collection (external): the collection is full. *)
Inductive oversize := Oversize.

(** [Confined::insert] on a map with the maximal number of entries [max] (external): an error when the
    map is full, whether the key is present or not. *)
Definition confined_insert {K V} (cmp : K -> K -> comparison) (max : N) (k : K) (v : V) (m : list (K * V))
  : outcome oversize (list (K * V)) :=
  if lenN m =? max then Err Oversize else Ok (om_insert cmp k v m).

(** src/typesys/type_sys.rs:127-133 [insert_unchecked]. *)
Definition insert_unchecked (s : type_system) (id : semid) (t : ty semid) : outcome oversize type_system :=
  confined_insert N.compare u24_max id t s.

(** src/typesys/type_sys.rs:137-139 [extend]: inserting entries one by one. The entries inserted before
    the error stay in the source ([&mut self]); the error result here drops them. *)
Fixpoint sys_extend (s other : type_system) : outcome oversize type_system :=
  match other with
  | [] => Ok s
  | (id, t) :: r => let* s' := insert_unchecked s id t in sys_extend s' r
  end.

(** src/typesys/type_sys.rs:39-41 [UnknownType]. *)
Inductive unknown_type := UnknownType (id : semid).

(** Errors do not arise in iteration over a type. *)
Definition no_err {E A} (o : outcome Empty_set A) : outcome E A :=
  match o with
  | Ok a => Ok a
  | Err e => match e with end
  | Panic => Panic
  | Diverge => Diverge
  end.

(** src/typesys/type_sys.rs:146-151, the loop of [extract]; [fuel] bounds the number of rounds. *)
Fixpoint extract_loop (fuel : nat) (c : config) (s : type_system) (ids found : list semid)
    (acc : type_system) : outcome unknown_type type_system :=
  match ids with
  | [] => Ok acc
  | id :: rest =>
      match fuel with
      | O => Diverge
      | S fuel =>
          let* t := ok_or (sys_get s id) (UnknownType id) in
          let found := os_insert id found in
          let* refs := no_err (type_refs (dbg c) t) in
          let new := filter (fun r => negb (os_mem r found)) (map fst refs) in
          extract_loop fuel c s (os_extend rest new) found (om_insert N.compare id t acc)
      end
  end.

(** src/typesys/type_sys.rs:141-154 [extract]. [from_checked] can not fail since the result has no more
    entries than [self]. *)
Definition extract (fuel : nat) (c : config) (s : type_system) (ids : list semid)
  : outcome unknown_type type_system :=
  extract_loop fuel c s (os_extend [] ids) [] [].

(** ** Restricted strings *)

(** The class test [is_char_enum] on a type of the system: [SemId] has no [as_ty], so a tuple is never a
    character. *)
Definition char_enum (t : ty semid) : bool := is_char_enum (fun _ => false) t.

(** src/typesys/type_sys.rs:156-169 [rstring_sizing]; indexing [fields[1]] panics when there is no such
    field. *)
Definition rstring_sizing (c : config) (s : type_system) (fields : list semid)
  : outcome unknown_type (option (semid * sizing)) :=
  let* rest := expect (nth_error fields 1) in
  let* t := ok_or (sys_find s rest) (UnknownType rest) in
  match t with
  | TList r sz =>
      let* min := u64_incr c (s_min sz) in
      let* max := u64_incr c (s_max sz) in
      Ok (Some (r, mkSizing min max))
  | _ => Ok None
  end.

(** src/typesys/type_sys.rs:171-182 [is_rstring]. *)
Definition is_rstring (c : config) (s : type_system) (fields : list semid) : outcome unknown_type bool :=
  if negb (lenN fields =? 2) then Ok false
  else
    let* first := expect (nth_error fields 0) in
    let* o := rstring_sizing c s fields in
    match o with
    | None => Ok false
    | Some (rest, _) =>
        let* t := ok_or (sys_find s first) (UnknownType first) in
        if char_enum t then
          let* t' := ok_or (sys_find s rest) (UnknownType rest) in
          Ok (char_enum t')
        else Ok false
    end.
