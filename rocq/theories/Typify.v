(** Model of value typification: src/value/typify.rs. Only definitions. *)
From Coq Require Import NArith ZArith List Bool String Ascii Strings.Byte.
From Verif Require Import Base Ty Ids Val TypeSys Encode.
Import ListNotations.
Local Open Scope N_scope.

(** src/value/typify.rs:65-113 [Error]. The conversion error of ASCII strings can not arise (the string is
    checked to be ASCII) and is left out; payloads are kept up to the part identifying the problem. *)
Inductive typ_error : Type :=
| TypeAbsent (id : semid)
| OutOfBounds (id : semid) (len : N) (sz : sizing)
| RepeatedSetValue (id : semid) (v : sval)
| RepeatedKeyValue (id : semid) (k : sval)
| FieldNumberMismatch (id : semid) (expected found : N)
| ExtraField (name : string)
| TypeMismatch (v : sval) (t : ty semid)
| InvalidFieldName (name : string)
| EnumTagInvalid (t : etag) (vs : list variant)
| UnionTagInvalid (t : etag) (vs : list variant)
| MapNotStructure
| InvalidOptional (v : sval).

(** Character classes of names: [strict_encoding] (external) [AlphaSmallLodash], [AlphaNumLodash]. *)
Definition chr_between (c : byte) (lo hi : N) : bool := (lo <=? Byte.to_N c) && (Byte.to_N c <=? hi).
Definition alpha_small_lodash (c : byte) : bool := chr_between c 97 122 || (Byte.to_N c =? 95).
Definition alpha_caps_lodash (c : byte) : bool := chr_between c 65 90 || (Byte.to_N c =? 95).
Definition alpha_num_lodash (c : byte) : bool :=
  chr_between c 48 57 || chr_between c 65 90 || chr_between c 97 122 || (Byte.to_N c =? 95).

(** [RString::try_from] (external): 1 to 100 characters of the given classes. *)
Definition rstring_ok (first rest : byte -> bool) (s : string) : bool :=
  match sbytes s with
  | [] => false
  | c :: r => first c && forallb rest r && (slen s <=? 100)
  end.

(** [FieldName::try_from], [VariantName::try_from] (external). *)
Definition name_ok (s : string) : bool := rstring_ok alpha_small_lodash alpha_num_lodash s.
(** [TypeName::try_from], [LibName::try_from] (external). *)
Definition tname_ok (s : string) : bool := rstring_ok alpha_caps_lodash alpha_num_lodash s.

(** src/value/typify.rs:122-127 [PrimitiveValue]. *)
Definition is_small_unsigned (p : N) : bool := p <=? 16.
Definition is_large_unsigned (p : N) : bool := (16 <? p) && (p <? 0x40).
Definition is_small_signed (p : N) : bool := (0x40 <=? p) && (p <=? 0x4f).
Definition is_large_signed (p : N) : bool := (0x4f <? p) && (p <? 0x80).

(** [Sizing::fixed] (external). *)
Definition sizing_fixed (n : N) : sizing := mkSizing n n.

(** src/value/typify.rs:281-287: checked items of a set are compared with the ones checked before. *)
Fixpoint typify_set (rec : sval -> semid -> outcome typ_error sval) (id r : semid) (l : list sval)
    (new : list sval) : outcome typ_error (list sval) :=
  match l with
  | [] => Ok new
  | x :: l =>
      let* y := rec x r in
      if existsb (fun z => sval_eqb z y) new then Err (RepeatedSetValue id y)
      else typify_set rec id r l (new ++ [y])
  end.

(** src/value/typify.rs:292-299. *)
Fixpoint typify_map (rec : sval -> semid -> outcome typ_error sval) (id k r : semid) (l : list (sval * sval))
    (new : list (sval * sval)) : outcome typ_error (list (sval * sval)) :=
  match l with
  | [] => Ok new
  | (xk, xv) :: l =>
      let* yk := rec xk k in
      let* yv := rec xv r in
      if existsb (fun e => sval_eqb (fst e) yk) new then Err (RepeatedKeyValue id yk)
      else typify_map rec id k r l (new ++ [(yk, yv)])
  end.

(** src/value/typify.rs:372-375: fields of a tuple, [zip] stops at the end of the shorter list. *)
Fixpoint typify_zip (rec : sval -> semid -> outcome typ_error sval) (l : list sval) (ids : list semid)
  : outcome typ_error (list sval) :=
  match l, ids with
  | x :: l, id :: ids => let* y := rec x id in let* ys := typify_zip rec l ids in Ok (y :: ys)
  | _, _ => Ok []
  end.

(** src/value/typify.rs:380-386: fields of a structure. *)
Fixpoint typify_struct (rec : sval -> semid -> outcome typ_error sval) (req : list (string * semid))
    (l : list (string * sval)) (new : list (string * sval)) : outcome typ_error (list (string * sval)) :=
  match l with
  | [] => Ok new
  | (n, x) :: l =>
      let* id := ok_or (nf_ty_by_name req n) (ExtraField n) in
      let* y := rec x id in
      typify_struct rec req l (imap_insert n y new)
  end.

(** src/value/typify.rs:391-401: a map used for a structure. *)
Fixpoint typify_mstruct (rec : sval -> semid -> outcome typ_error sval) (req : list (string * semid))
    (l : list (sval * sval)) (new : list (string * sval)) : outcome typ_error (list (string * sval)) :=
  match l with
  | [] => Ok new
  | (k, x) :: l =>
      match k with
      | VStr n =>
          if name_ok n then
            let* id := ok_or (nf_ty_by_name req n) (ExtraField n) in
            let* y := rec x id in
            typify_mstruct rec req l (imap_insert n y new)
          else Err (InvalidFieldName n)
      | _ => Err MapNotStructure
      end
  end.

(** src/value/typify.rs:422-428: the content of an optional. *)
Definition typify_some (rec : sval -> semid -> outcome typ_error sval) (vs : list (variant * semid)) (v : sval)
  : outcome typ_error sval :=
  let* content := expect (uv_ty_by_tag vs 1) in
  let* inner := rec v content in
  Ok (VUnion (Name "some") inner).

(** src/value/typify.rs:149-441, the match of [typify], grouped by the type; arms for one type keep the
    order of the source. [rec] is the recursive call. *)
Definition typify_ty (rec : sval -> semid -> outcome typ_error sval) (id : semid) (t : ty semid) (v : sval)
  : outcome typ_error sval :=
  let mismatch := Err (TypeMismatch v t) in
  match t with
  | TPrim p =>
      (* 151-197 *)
      match v with
      | VUnit => if p =? P_UNIT then Ok v else mismatch
      | VTuple [] | VStruct [] | VList [] | VMap [] => if p =? P_UNIT then Ok VUnit else mismatch
      | VNum (Uint n) =>
          if is_small_unsigned p then Ok v
          else if is_small_signed p && (N.land n 0x8000000000000000 =? 0) then Ok (VNum (Int (Z.of_N n)))
          else mismatch
      | VNum (BigUint _) => if is_large_unsigned p then Ok v else mismatch
      | VNum (Int _) => if is_small_signed p then Ok v else mismatch
      | VNum (BigInt _) => if is_large_signed p then Ok v else mismatch
      | _ => mismatch
      end
  | TArray r len =>
      (* 200-215, 242-246 *)
      match v with
      | VBytes b =>
          if is_byte_id r then
            if len <? lenN b then Err (OutOfBounds id (lenN b) (sizing_fixed len)) else Ok v
          else mismatch
      | VStr s =>
          if len <? slen s then Err (OutOfBounds id (slen s) (sizing_fixed len))
          else if is_ascii s || is_unicode_id r then Ok v
          else mismatch
      | VList l => if len <? lenN l then Err (OutOfBounds id (lenN l) (sizing_fixed len)) else Ok v
      | _ => mismatch
      end
  | TList r sz =>
      (* 216-226, 262-278 *)
      match v with
      | VStr s =>
          if negb (sizing_check sz (slen s)) then Err (OutOfBounds id (slen s) sz)
          else if is_unicode_id r then Ok v
          else if is_byte_id r then Ok (VBytes (sbytes s))
          else if is_ascii s then Ok v
          else mismatch
      | VBytes b =>
          if negb (sizing_check sz (lenN b)) then Err (OutOfBounds id (lenN b) sz)
          else if is_byte_id r then Ok v
          else mismatch
      | VList l =>
          if negb (sizing_check sz (lenN l)) then Err (OutOfBounds id (lenN l) sz)
          else let* l' := map_outcome (fun x => rec x r) l in Ok (VList l')
      | _ => mismatch
      end
  | TSet r sz =>
      (* 222-226, 279-289 *)
      match v with
      | VSet l =>
          if negb (sizing_check sz (lenN l)) then Err (OutOfBounds id (lenN l) sz)
          else let* l' := typify_set rec id r l [] in Ok (VSet l')
      | _ => mismatch
      end
  | TMap k r sz =>
      (* 227-229, 290-301 *)
      match v with
      | VMap l =>
          if negb (sizing_check sz (lenN l)) then Err (OutOfBounds id (lenN l) sz)
          else let* l' := typify_map rec id k r l [] in Ok (VMap l')
      | _ => mismatch
      end
  | TEnum vs =>
      (* 232-234, 304-334 *)
      match v with
      | VStr s =>
          if (slen s =? 1)
             && match sbytes s with b :: _ => ev_has_tag vs (Byte.to_N b) | [] => false end
          then Ok v
          else if name_ok s then
            if ev_has_name vs s then Ok (VEnum (Name s)) else Err (EnumTagInvalid (Name s) vs)
          else mismatch
      | VEnum (Name n) =>
          match ev_tag_by_name vs n with
          | Some _ => Ok (VEnum (Name n))
          | None => Err (EnumTagInvalid (Name n) vs)
          end
      | VEnum (Ord n) =>
          match ev_name_by_tag vs n with
          | Some name => Ok (VEnum (Name name))
          | None => Err (EnumTagInvalid (Ord n) vs)
          end
      | VNum (Uint n) =>
          if n <? 0x100 then
            match ev_name_by_tag vs n with
            | Some name => Ok (VEnum (Name name))
            | None => Err (EnumTagInvalid (Ord n) vs)
            end
          else mismatch
      | _ => mismatch
      end
  | TUnicode =>
      (* 236-240 *)
      match v with
      | VStr s => if slen s =? 1 then Ok v else mismatch
      | _ => mismatch
      end
  | TUnion vs =>
      (* 335-347, 406-428 *)
      match v with
      | VUnion tag w =>
          match match tag with Name n => uv_ty_by_name vs n | Ord n => uv_ty_by_tag vs n end with
          | None => Err (UnionTagInvalid tag (map fst vs))
          | Some cid => let* w' := rec w cid in Ok (VUnion tag w')
          end
      | VUnit => if is_option t then Ok (VUnion (Name "none") VUnit) else mismatch
      | VTuple [a; b] =>
          if is_option t then
            let* content := expect (uv_ty_by_tag vs 1) in
            if sval_eqb a (VStr "none") && sval_eqb b VUnit then Ok (VUnion (Name "none") VUnit)
            else if sval_eqb a (VStr "some") then
              let* inner := rec b content in Ok (VUnion (Name "some") inner)
            else Err (InvalidOptional v)
          else mismatch
      | _ => if is_option t then typify_some rec vs v else mismatch
      end
  | TTuple fs =>
      (* 249-259, 350-358, 370-377, 431-434 *)
      let newtype :=
        match fs with
        | [f] => let* w := rec v f in Ok (VTuple [w])
        | _ => mismatch
        end in
      match v with
      | VStr s => if is_ascii s && (lenN fs =? 2) then Ok v else newtype
      | VTuple l =>
          if negb (lenN l =? lenN fs) then Err (FieldNumberMismatch id (lenN fs) (lenN l))
          else let* l' := typify_zip rec l fs in Ok (VTuple l')
      | VList l => let* l' := typify_zip rec l fs in Ok (VTuple l')
      | _ => newtype
      end
  | TStruct fs =>
      (* 359-367, 378-403 *)
      match v with
      | VStruct l =>
          if negb (lenN l =? lenN fs) then Err (FieldNumberMismatch id (lenN fs) (lenN l))
          else let* l' := typify_struct rec fs l [] in Ok (VStruct l')
      | VMap l => let* l' := typify_mstruct rec fs l [] in Ok (VStruct l')
      | _ => mismatch
      end
  end.

(** src/value/typify.rs:142-447 [TypeSystem::typify]; [fuel] bounds the depth of the recursion. *)
Fixpoint typify_val (fuel : nat) (sys : type_system) (v : sval) (id : semid) : outcome typ_error sval :=
  match fuel with
  | O => Diverge
  | S fuel =>
      let* t := ok_or (type_of sys id) (TypeAbsent id) in
      typify_ty (typify_val fuel sys) id t v
  end.

(** src/value/typify.rs:142-447 [TypeSystem::typify] with its result type. *)
Definition typify (fuel : nat) (sys : type_system) (v : sval) (id : semid) : outcome typ_error typed_val :=
  let* w := typify_val fuel sys v id in Ok (mkTyped id w).
