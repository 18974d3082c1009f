(** Model of the macro [ston!] for writing values in Rust programs (src/value/val.rs:35-65) and of the macros it
    uses: the patterns of the macro are data, and matched as [macro_rules!] (Rust language) does. *)
From Coq Require Import NArith ZArith List Bool String.
From Verif Require Import Base Val Typify.
Import ListNotations.
Local Open Scope string_scope.
Local Open Scope N_scope.

(** Suffixes of integer literals (Rust language) with a conversion to [StrictVal] (src/value/val.rs:327-341); the
    types of 24, 40, 48 and 56 bits have no literals, for 128 bits there is no conversion. *)
Inductive suffix := SU8 | SU16 | SU32 | SU64 | SI8 | SI16 | SI32 | SI64.

(** Literals (Rust language) with a conversion to [StrictVal] (src/value/val.rs:327-359, 393-395). Simplified:
    literals of other types (characters, booleans), for which the program does not compile, are left out, negative
    numbers are [KExpr] below. *)
Inductive literal :=
| LInt (n : N) (s : option suffix)
| LStr (s : string).

(** Tokens given to the macro. Simplified: [KExpr] is any other expression, with the value it is converted to; it is
    one token and never continues the expression before it (as [-5] after an identifier does). *)
Inductive token :=
| KTilde
| KComma
| KIdent (x : string)
| KLit (l : literal)
| KExpr (v : sval).

(** Variables in scope where the macro is used (Rust language), with the value they are converted to. *)
Definition scope := string -> option sval.

(** Greatest number of an integer type (Rust language). *)
Definition suffix_max (s : suffix) : N :=
  match s with
  | SU8 => 0xff | SU16 => 0xffff | SU32 => 0xffffffff | SU64 => 0xffffffffffffffff
  | SI8 => 0x7f | SI16 => 0x7fff | SI32 => 0x7fffffff | SI64 => 0x7fffffffffffffff
  end.

(** Whether an integer type is signed (Rust language). *)
Definition suffix_signed (s : suffix) : bool :=
  match s with SU8 | SU16 | SU32 | SU64 => false | SI8 | SI16 | SI32 | SI64 => true end.

(** src/value/val.rs:327-341, 393-395: [StrictVal::from] for literals. An integer without a suffix could be of any of
    the types, so that it is an [i32] (Rust language). [None]: the program does not compile. *)
Definition from_literal (l : literal) : option sval :=
  match l with
  | LStr s => Some (VStr s)
  | LInt n s =>
      let s := match s with Some s => s | None => SI32 end in
      if n <=? suffix_max s then Some (VNum (if suffix_signed s then Int (Z.of_N n) else Uint n)) else None
  end.

(** src/value/val.rs:67-72 [sv!]: [StrictVal::from] for an expression. *)
Definition sv (env : scope) (t : token) : option sval :=
  match t with
  | KIdent x => env x
  | KLit l => from_literal l
  | KExpr v => Some v
  | KTilde | KComma => None
  end.

(** [vname!] (external, used in src/value/val.rs:47, 53, 126) and [VariantName::from] in src/value/val.rs:257: panics
    for an invalid name. *)
Definition vname (x : string) : acc etag := if name_ok x then Ok (Name x) else Panic.

(** src/value/val.rs:249-258: conversion of a literal to [EnumTag]; an integer can only be an [u8]. [None]: the
    program does not compile. *)
Definition tag_literal (l : literal) : option (acc etag) :=
  match l with
  | LStr s => Some (vname s)
  | LInt n (None | Some SU8) => if n <=? suffix_max SU8 then Some (Ok (Ord n)) else None
  | LInt _ _ => None
  end.

(** src/value/val.rs:411 [StrictVal::enumer]. *)
Definition v_enumer (t : acc etag) : acc sval := let* t := t in Ok (VEnum t).
(** src/value/val.rs:413-415 [StrictVal::union]. *)
Definition v_union (t : acc etag) (v : sval) : acc sval := let* t := t in Ok (VUnion t v).

(** src/value/val.rs:120-128 [svenum!]. *)
Definition svenum (t : token) : option (acc sval) :=
  match t with
  | KLit l => option_map v_enumer (tag_literal l)
  | KIdent x => Some (v_enumer (vname x))
  | _ => None
  end.

(** Kinds of fragments (Rust language) in the patterns of the macro: [~], [literal], [expr], [ident]. *)
Inductive frag := FTilde | FLiteral | FExpr | FIdent.

(** Which tokens a fragment matches (Rust language): identifiers and literals are expressions, too. *)
Definition fits (f : frag) (t : token) : bool :=
  match f, t with
  | FTilde, KTilde => true
  | FLiteral, KLit _ => true
  | FIdent, KIdent _ => true
  | FExpr, (KIdent _ | KLit _ | KExpr _) => true
  | _, _ => false
  end.

(** Patterns (Rust language): a sequence of fragments, or its repetition with commas between, [$( ... ),*]. *)
Inductive pattern := PSeq (l : list frag) | PRep (l : list frag).

(** Matching of the fragments with the first tokens (Rust language): matched tokens, the rest. *)
Fixpoint match_frags (fs : list frag) (ts : list token) : option (list token * list token) :=
  match fs, ts with
  | [], _ => Some ([], ts)
  | f :: fs, t :: ts =>
      if fits f t then option_map (fun m => (t :: fst m, snd m)) (match_frags fs ts) else None
  | _ :: _, [] => None
  end.

(** Matching of groups of fragments with commas between (Rust language), [n] limits the number of groups. *)
Fixpoint match_groups (n : nat) (fs : list frag) (ts : list token) : option (list (list token)) :=
  match n with
  | O => None
  | S n =>
      match match_frags fs ts with
      | Some (m, []) => Some [m]
      | Some (m, KComma :: ts) => option_map (cons m) (match_groups n fs ts)
      | _ => None
      end
  end.

(** Matching of a pattern with all tokens (Rust language). *)
Definition match_pattern (p : pattern) (ts : list token) : option (list (list token)) :=
  match p with
  | PSeq fs => match match_frags fs ts with Some (m, []) => Some [m] | _ => None end
  | PRep fs => match ts with [] => Some [] | _ => match_groups (List.length ts) fs ts end
  end.

(** All results, or none if one of them is missing (auxiliary: the program compiles if all of its parts do). *)
Fixpoint all_some {A} (l : list (option A)) : option (list A) :=
  match l with
  | [] => Some []
  | Some x :: l => option_map (cons x) (all_some l)
  | None :: _ => None
  end.

(** src/value/val.rs:408-410 [StrictVal::struc] for names which may be invalid: [fname!] (external) panics. *)
Definition v_struc_checked (fs : list (string * sval)) : acc sval :=
  if forallb (fun f => name_ok (fst f)) fs then Ok (v_struc fs) else Panic.

(** src/value/val.rs:61-64: a field of a structure. *)
Definition ston_field (env : scope) (g : list token) : option (string * sval) :=
  match g with [KIdent x; t] => option_map (fun v => (x, v)) (sv env t) | _ => None end.

(** src/value/val.rs:55-59: an item of a tuple. *)
Definition ston_item (env : scope) (g : list token) : option sval :=
  match g with [t] => sv env t | _ => None end.

(** src/value/val.rs:36-65: the rules of the macro in their order, with what they are replaced by. [None]: the
    program does not compile; this includes a tuple without items, as the type of items is not known. *)
Definition rules (env : scope) : list (pattern * (list (list token) -> option (acc sval))) :=
  let value := fun gs => match gs with [[t]] => option_map (fun v => Ok v) (sv env t) | _ => None end in
  [ (PSeq [FTilde], fun _ => Some (Ok v_none));
    (PSeq [FLiteral], value);
    (PSeq [FExpr], value);
    (PSeq [FIdent], fun gs => match gs with [[t]] => svenum t | _ => None end);
    (PSeq [FLiteral; FExpr], fun gs =>
       match gs with
       | [[KLit l; t]] =>
           match tag_literal l, sv env t with Some tag, Some v => Some (v_union tag v) | _, _ => None end
       | _ => None
       end);
    (PSeq [FIdent; FExpr], fun gs =>
       match gs with
       | [[KIdent x; t]] => option_map (v_union (vname x)) (sv env t)
       | _ => None
       end);
    (PRep [FExpr], fun gs =>
       match gs with
       | [] => None
       | _ => option_map (fun l => Ok (VTuple l)) (all_some (map (ston_item env) gs))
       end);
    (PRep [FIdent; FExpr], fun gs => option_map v_struc_checked (all_some (map (ston_field env) gs))) ].

(** The first rule which matches is used (Rust language). *)
Fixpoint expand (rs : list (pattern * (list (list token) -> option (acc sval)))) (ts : list token) : option (acc sval) :=
  match rs with
  | [] => None
  | (p, body) :: rs =>
      match match_pattern p ts with
      | Some gs => body gs
      | None => expand rs ts
      end
  end.

(** src/value/val.rs:35-65 [ston!]. *)
Definition ston (env : scope) (ts : list token) : option (acc sval) := expand (rules env) ts.
