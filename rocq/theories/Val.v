(** Model of strict values: src/value/val.rs (values, equality, constructors, accessors) and
    src/value/path.rs (value paths). Only definitions; the facts are in the proof files. *)
From Coq Require Import NArith ZArith List Bool String Ascii Strings.Byte.
From Verif Require Import Base.
Import ListNotations.
Local Open Scope N_scope.

(** src/value/val.rs:184-228 [StrictNum]: u64, u1024, i64, i1024. *)
Inductive snum : Type :=
| Uint (n : N)
| BigUint (n : N)
| Int (z : Z)
| BigInt (z : Z).

(** src/value/val.rs:249-254 [EnumTag]; the ordinal is a u8. *)
Inductive etag : Type :=
| Name (s : string)
| Ord (n : N).

(** src/value/val.rs:323-391 [StrictVal]. An [IndexMap] is the list of its entries in insertion order. *)
Inductive sval : Type :=
| VUnit
| VNum (n : snum)
| VStr (s : string)
| VBytes (b : bytes)
| VStruct (fs : list (string * sval))
| VEnum (t : etag)
| VUnion (t : etag) (v : sval)
| VList (l : list sval)
| VSet (l : list sval)
| VTuple (l : list sval)
| VMap (l : list (sval * sval)).

(** Derived [PartialEq] of [StrictNum] (src/value/val.rs:176). *)
Definition snum_eqb (a b : snum) : bool :=
  match a, b with
  | Uint x, Uint y => x =? y
  | BigUint x, BigUint y => x =? y
  | Int x, Int y => (x =? y)%Z
  | BigInt x, BigInt y => (x =? y)%Z
  | _, _ => false
  end.

(** Derived [PartialEq] of [EnumTag] (src/value/val.rs:242). *)
Definition etag_eqb (a b : etag) : bool :=
  match a, b with
  | Name x, Name y => (x =? y)%string
  | Ord x, Ord y => x =? y
  | _, _ => false
  end.

(** [Vec<u8>] equality. *)
Fixpoint bytes_eqb (a b : bytes) : bool :=
  match a, b with
  | [], [] => true
  | x :: a, y :: b => Byte.eqb x y && bytes_eqb a b
  | _, _ => false
  end.

(** Equality of slices. *)
Fixpoint list_eqb {A} (eqb : A -> A -> bool) (a b : list A) : bool :=
  match a, b with
  | [], [] => true
  | x :: a, y :: b => eqb x y && list_eqb eqb a b
  | _, _ => false
  end.

(** [IndexMap::get] (external): the entry with the key. *)
Definition imap_get {V} (m : list (string * V)) (k : string) : option V :=
  option_map snd (find (fun e => (fst e =? k)%string) m).

(** [IndexMap::insert] (external): replaces the value in place, or appends a new entry. *)
Fixpoint imap_insert {V} (k : string) (v : V) (m : list (string * V)) : list (string * V) :=
  match m with
  | [] => [(k, v)]
  | (k', v') :: r => if (k' =? k)%string then (k, v) :: r else (k', v') :: imap_insert k v r
  end.

(** Derived [PartialEq] of [StrictVal] (src/value/val.rs:317); structures compare as [IndexMap]s, i.e.
    regardless of the order of entries. *)
Fixpoint sval_eqb (a b : sval) {struct a} : bool :=
  match a, b with
  | VUnit, VUnit => true
  | VNum x, VNum y => snum_eqb x y
  | VStr x, VStr y => (x =? y)%string
  | VBytes x, VBytes y => bytes_eqb x y
  | VStruct x, VStruct y =>
      (lenN x =? lenN y)
      && forallb (fun e => match imap_get y (fst e) with
                           | Some w => sval_eqb (snd e) w
                           | None => false
                           end) x
  | VEnum x, VEnum y => etag_eqb x y
  | VUnion x v, VUnion y w => etag_eqb x y && sval_eqb v w
  | VList x, VList y | VSet x, VSet y | VTuple x, VTuple y =>
      (fix go x y := match x, y with
                     | [], [] => true
                     | a :: x, b :: y => sval_eqb a b && go x y
                     | _, _ => false
                     end) x y
  | VMap x, VMap y =>
      (fix go x y := match x, y with
                     | [], [] => true
                     | (k, a) :: x, (k', b) :: y => sval_eqb k k' && sval_eqb a b && go x y
                     | _, _ => false
                     end) x y
  | _, _ => false
  end.

(** ** Constructors: src/value/val.rs:400-428 *)

(** src/value/val.rs:404 [newtype]. *)
Definition v_newtype (v : sval) : sval := VTuple [v].
(** src/value/val.rs:408-410 [struc]: collecting pairs into an [IndexMap]. *)
Definition v_struc (fs : list (string * sval)) : sval :=
  VStruct (fold_left (fun m e => imap_insert (fst e) (snd e) m) fs []).
(** src/value/val.rs:412 [bool]. *)
Definition v_bool (b : bool) : sval := VEnum (Ord (if b then 1 else 0)).
(** src/value/val.rs:416 [none]. *)
Definition v_none : sval := VUnion (Name "none") VUnit.
(** src/value/val.rs:417 [some]. *)
Definition v_some (v : sval) : sval := VUnion (Name "some") v.
(** src/value/val.rs:563-570 [From<Option<T>>]. *)
Definition v_option (o : option sval) : sval :=
  match o with None => v_none | Some v => v_some v end.

(** ** Accessors: src/value/val.rs:429-560. A panic is [Panic]; there are no errors. *)
Definition acc A := outcome Empty_set A.

(** src/value/val.rs:429-437 [skip_wrapper]; the loop ends because it descends into the value. *)
Fixpoint skip_wrapper (v : sval) : sval :=
  match v with
  | VTuple [x] => skip_wrapper x
  | _ => v
  end.

(** src/value/val.rs:439-454 [unwrap_option]. *)
Definition unwrap_option (v : sval) : acc (option sval) :=
  match skip_wrapper v with
  | VUnion (Name n) c =>
      if (n =? "none")%string && sval_eqb c VUnit then Ok None
      else if (n =? "some")%string then Ok (Some c)
      else Panic
  | VUnion (Ord t) c =>
      if (t =? 0) && sval_eqb c VUnit then Ok None
      else if t =? 1 then Ok (Some c)
      else Panic
  | _ => Panic
  end.

(** src/value/val.rs:456-461 [unwrap_num]. *)
Definition unwrap_num (v : sval) : acc snum :=
  match skip_wrapper v with VNum n => Ok n | _ => Panic end.

(** src/value/val.rs:463-466 [unwrap_uint] with 231-238 [StrictNum::unwrap_uint]; [max] is the greatest
    number of the requested type. *)
Definition unwrap_uint (max : N) (v : sval) : acc N :=
  let* n := unwrap_num v in
  match n with
  | Uint x => if x <=? max then Ok x else Panic
  | _ => Panic
  end.

(** src/value/val.rs:511-516 [unwrap_enum_tag]. *)
Definition unwrap_enum_tag (v : sval) : acc etag :=
  match skip_wrapper v with VEnum t => Ok t | _ => Panic end.

(** src/value/val.rs:260-268 [EnumTag::unwrap_ord]. *)
Definition unwrap_ord (t : etag) : acc N := match t with Ord n => Ok n | Name _ => Panic end.

(** [for]/[map] of a call which may fail over a list. *)
Fixpoint map_outcome {E A B} (f : A -> outcome E B) (l : list A) : outcome E (list B) :=
  match l with
  | [] => Ok []
  | x :: r => let* y := f x in let* ys := map_outcome f r in Ok (y :: ys)
  end.

(** UTF-8 validity ([String::from_utf8], core). *)
Fixpoint utf8_valid (b : bytes) : bool :=
  let cont x := let n := Byte.to_N x in (0x80 <=? n) && (n <=? 0xBF) in
  let between x lo hi := let n := Byte.to_N x in (lo <=? n) && (n <=? hi) in
  match b with
  | [] => true
  | x :: r =>
      let n := Byte.to_N x in
      if n <? 0x80 then utf8_valid r
      else if (0xC2 <=? n) && (n <=? 0xDF) then
        match r with c1 :: r => cont c1 && utf8_valid r | _ => false end
      else if (0xE0 <=? n) && (n <=? 0xEF) then
        match r with
        | c1 :: c2 :: r =>
            (if n =? 0xE0 then between c1 0xA0 0xBF
             else if n =? 0xED then between c1 0x80 0x9F else cont c1)
            && cont c2 && utf8_valid r
        | _ => false
        end
      else if (0xF0 <=? n) && (n <=? 0xF4) then
        match r with
        | c1 :: c2 :: c3 :: r =>
            (if n =? 0xF0 then between c1 0x90 0xBF
             else if n =? 0xF4 then between c1 0x80 0x8F else cont c1)
            && cont c2 && cont c3 && utf8_valid r
        | _ => false
        end
      else false
  end.

(** src/value/val.rs:468-486 [unwrap_string]. *)
Definition unwrap_string (v : sval) : acc string :=
  match skip_wrapper v with
  | VStr s => Ok s
  | VBytes b => if utf8_valid b then Ok (bstring b) else Panic
  | VList [] => Ok EmptyString
  | VList l =>
      if forallb (fun c => match c with VEnum _ => true | _ => false end) l then
        let* bs := map_outcome (fun c => let* t := unwrap_enum_tag c in unwrap_ord t) l in
        let bs := map b8 bs in
        if utf8_valid bs then Ok (bstring bs) else Panic
      else Panic
  | _ => Panic
  end.

(** src/value/val.rs:488-493 [unwrap_bytes]. *)
Definition unwrap_bytes (v : sval) : acc bytes :=
  match skip_wrapper v with VBytes b => Ok b | _ => Panic end.

(** src/value/val.rs:495-501 [unwrap_tuple]. *)
Definition unwrap_tuple (v : sval) (no : N) : acc sval :=
  match skip_wrapper v with VTuple l => expect (nth_error l (N.to_nat no)) | _ => Panic end.

(** src/value/val.rs:503-509 [unwrap_struct]; the panic of [fname!] on an invalid name is not modelled:
    an invalid name is never present. *)
Definition unwrap_struct (v : sval) (field : string) : acc sval :=
  match skip_wrapper v with VStruct fs => expect (imap_get fs field) | _ => Panic end.

(** src/value/val.rs:536-541 [unwrap_union]. *)
Definition unwrap_union (v : sval) : acc (etag * sval) :=
  match skip_wrapper v with VUnion t c => Ok (t, c) | _ => Panic end.

(** src/value/val.rs:543-550 [unwrap_pos]. *)
Definition unwrap_pos (v : sval) (no : N) : acc sval :=
  match skip_wrapper v with
  | VSet l | VList l => expect (nth_error l (N.to_nat no))
  | _ => Panic
  end.

(** src/value/val.rs:552-561 [unwrap_key]. *)
Definition unwrap_key (v key : sval) : acc sval :=
  match skip_wrapper v with
  | VMap l => expect (option_map snd (find (fun e => sval_eqb (fst e) key) l))
  | _ => Panic
  end.

(** ** Value paths: src/value/path.rs *)

(** src/value/path.rs:40-49 [KeyStep]: u128, blob, string. *)
Inductive key_step : Type :=
| KNumber (n : N)
| KBlob (b : bytes)
| KString (s : string).

(** src/value/path.rs:52-70 [has_match]. *)
Definition has_match (k : key_step) (v : sval) : bool :=
  match k, v with
  | KNumber no, VEnum (Ord tag) => tag =? no
  | KNumber n1, VNum (Uint n2) => n1 =? n2
  | KBlob b1, VBytes b2 => bytes_eqb b1 b2
  | KString s1, VStr s2 => (s1 =? s2)%string
  | _, _ => false
  end.

(** src/value/path.rs:96-111 [Step]. *)
Inductive vstep : Type :=
| VSNamed (name : string)
| VSUnnamed (no : N)
| VSIndex (i : N)
| VSKey (k : key_step).

(** src/value/path.rs:149-160 [PathError]. *)
Inductive path_error : Type :=
| PIndexOutOfBounds (i len : N)
| PFieldNoOutOfBounds (no len : N)
| PUnknownFieldName (name : string)
| PUnknownKey (k : key_step)
| PTypeMismatch (s : vstep) (v : sval).

(** src/value/path.rs:163-195 [StrictVal::at_path]. *)
Definition val_at_path (v : sval) (path : list vstep) : outcome path_error sval :=
  match path with
  | [] => Ok v
  | s :: _ =>
      match v, s with
      | VTuple fs, VSUnnamed no =>
          match nth_error fs (N.to_nat no) with
          | Some x => Ok x
          | None => Err (PFieldNoOutOfBounds no (lenN fs))
          end
      | VStruct fs, VSNamed name => ok_or (imap_get fs name) (PUnknownFieldName name)
      | VList l, VSIndex i | VSet l, VSIndex i =>
          match nth_error l (N.to_nat i) with
          | Some x => Ok x
          | None => Err (PIndexOutOfBounds i (lenN l))
          end
      | VMap l, VSKey k =>
          ok_or (option_map snd (find (fun e => has_match k (fst e)) l)) (PUnknownKey k)
      | _, _ => Err (PTypeMismatch s v)
      end
  end.
