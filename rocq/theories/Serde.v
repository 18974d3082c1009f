(** Model of the exchange of values with self-describing formats: the serde implementations of src/value/val.rs
    (feature "serde") and src/value/convert.rs. Only definitions. *)
From Coq Require Import NArith ZArith List Bool String Ascii Strings.Byte.
From Verif Require Import Base Ty Ids Val TypeSys Typify.
Import ListNotations.
Local Open Scope N_scope.

(** A document: what [serde_json::Value], [serde_yaml::Value], [toml::Value] (external) have in common. The text
    form is external. Numbers which are not integers of 64 bits are [DFloat]; in JSON and TOML keys are text.
    Simplified: tags of YAML and dates of TOML are left out. *)
Inductive doc : Type :=
| DNull
| DBool (b : bool)
| DNum (z : Z)
| DFloat
| DStr (s : string)
| DSeq (l : list doc)
| DMap (l : list (doc * doc)).

(** [ToHex::to_hex] (external, used in src/value/val.rs:280, 299): two small hexadecimal digits for each byte. *)
Definition hex_digit (n : N) : byte := b8 (if n <? 10 then 48 + n else 87 + n).
Definition to_hex (b : bytes) : string :=
  bstring (flat_map (fun x => [hex_digit (Byte.to_N x / 16); hex_digit (Byte.to_N x mod 16)]) b).

(** Derived [Serialize for EnumTag] (src/value/val.rs:244-254): untagged. *)
Definition ser_tag (t : etag) : doc :=
  match t with Name s => DStr s | Ord n => DNum (Z.of_N n) end.

(** The serde form of numbers of 1024 bits (crate amplify_num, external) is text; which text is a parameter:
    [big_text] for writing, [read_big] for reading. *)
Section External.
Variables (big_text : snum -> string) (read_big : string -> option snum).

(** Derived [Serialize for StrictNum] (src/value/val.rs:178-182): untagged. *)
Definition ser_num (n : snum) : doc :=
  match n with
  | Uint n => DNum (Z.of_N n)
  | Int z => DNum z
  | BigUint _ | BigInt _ => DStr (big_text n)
  end.

(** Derived [Serialize for StrictVal] (src/value/val.rs:318-322): untagged; [Blob] in a human readable format
    (292-303). *)
Fixpoint ser (v : sval) : doc :=
  match v with
  | VUnit => DNull
  | VNum n => ser_num n
  | VStr s => DStr s
  | VBytes b => DStr (to_hex b)
  | VStruct fs => DMap (map (fun f => (DStr (fst f), ser (snd f))) fs)
  | VEnum t => ser_tag t
  | VUnion t w => DSeq [ser_tag t; ser w]
  | VList l | VSet l | VTuple l => DSeq (map ser l)
  | VMap l => DSeq (map (fun e => DSeq [ser (fst e); ser (snd e)]) l)
  end.

(** Derived [Deserialize for EnumTag] (src/value/val.rs:244-254): untagged, the first variant which fits; a name
    is checked by [RString::try_from] (external). *)
Definition read_tag (d : doc) : option etag :=
  match d with
  | DStr s => if name_ok s then Some (Name s) else None
  | DNum z => if ((0 <=? z) && (z <? 256))%Z then Some (Ord (Z.to_N z)) else None
  | _ => None
  end.

(** Derived [Deserialize for StrictNum] (src/value/val.rs:178-182), for numbers: [Uint] fits first, then [Int]. *)
Definition read_num (z : Z) : option snum :=
  if ((0 <=? z) && (z <? 2 ^ 64))%Z then Some (Uint (Z.to_N z))
  else if ((- 2 ^ 63 <=? z) && (z <? 0))%Z then Some (Int z)
  else None.

(** All or none. *)
Definition collect {A B} (f : A -> option B) : list A -> option (list B) := fix go l :=
  match l with
  | [] => Some []
  | a :: l => match f a, go l with Some b, Some r => Some (b :: r) | _, _ => None end
  end.

(** Derived [Deserialize for StrictVal] (src/value/val.rs:318-391): untagged, the first variant which fits in the
    order of declaration. Text is a number of 1024 bits or [String] (so never [Bytes] or [Enum]); numbers are
    [Number] (never [Enum]); a sequence is [Union] if it has two items of which the first is a tag, else [List]
    (never [Set], [Tuple]; nor [Map], whose items are sequences); a map is [Struct] if its keys are field names;
    nothing fits booleans and floats. *)
Fixpoint read (d : doc) : option sval :=
  match d with
  | DNull => Some VUnit
  | DBool _ | DFloat => None
  | DNum z => option_map VNum (read_num z)
  | DStr s => Some (match read_big s with Some n => VNum n | None => VStr s end)
  | DSeq l =>
      let list := option_map VList (collect read l) in
      match l with
      | [a; b] => match read_tag a, read b with Some t, Some v => Some (VUnion t v) | _, _ => list end
      | _ => list
      end
  | DMap l =>
      option_map (fun fs => VStruct (fold_left (fun m f => imap_insert (fst f) (snd f) m) fs []))
        (collect (fun e => match fst e, read (snd e) with
                           | DStr n, Some v => if name_ok n then Some (n, v) else None
                           | _, _ => None
                           end) l)
  end.
End External.

(** src/value/convert.rs:27-48 [From<serde_json::Value>], 50-71 [From<serde_yaml::Value>]; [Panic] is [todo!()].
    There are no errors. [each]: [Iterator::map] with [collect]. *)
Definition each {E A B} (f : A -> outcome E B) : list A -> outcome E (list B) := fix go l :=
  match l with
  | [] => Ok []
  | a :: l => let* b := f a in let* r := go l in Ok (b :: r)
  end.
Definition from_number (z : Z) : snum := if (0 <=? z)%Z then Uint (Z.to_N z) else Int z.
Fixpoint from_doc (d : doc) : outcome Empty_set sval :=
  match d with
  | DNull => Ok VUnit
  | DBool b => Ok (VEnum (Ord (if b then 1 else 0)))
  | DNum z => Ok (VNum (from_number z))
  | DFloat => Panic
  | DStr s => Ok (VStr s)
  | DSeq l => let* l' := each from_doc l in Ok (VList l')
  | DMap l =>
      let* l' := each (fun e => let* k := from_doc (fst e) in let* v := from_doc (snd e) in Ok (k, v)) l in
      Ok (VMap l')
  end.

(** src/value/convert.rs:73-89 [From<toml::Value>]: integers are signed; there is no null. *)
Fixpoint from_toml (d : doc) : outcome Empty_set sval :=
  match d with
  | DNull => Panic
  | DBool b => Ok (VEnum (Ord (if b then 1 else 0)))
  | DNum z => Ok (VNum (Int z))
  | DFloat => Panic
  | DStr s => Ok (VStr s)
  | DSeq l => let* l' := each from_toml l in Ok (VList l')
  | DMap l =>
      let* l' := each (fun e => let* k := from_toml (fst e) in let* v := from_toml (snd e) in Ok (k, v)) l in
      Ok (VMap l')
  end.
