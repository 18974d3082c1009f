(** Model of the text form of values, src/value/ston.rs. Only definitions. Text is given as bytes. *)
From Coq Require Import NArith ZArith List Bool String Ascii Strings.Byte DecimalString.
From Verif Require Import Base Ty Ids Val Serde.
Import ListNotations.
Local Open Scope N_scope.
Local Open Scope list_scope.

Local Notation txt s := (sbytes s%string) (only parsing).

(** [Display] of integers (core, external): decimal. *)
Definition show_N (n : N) : bytes := sbytes (NilEmpty.string_of_uint (N.to_uint n)).
Definition show_Z (z : Z) : bytes := sbytes (NilEmpty.string_of_int (Z.to_int z)).

(** src/value/val.rs:176-182: derived [Display for StrictNum], of the inner number (numbers of 1024 bits: crate
    amplify_num, external). *)
Definition show_num (n : snum) : bytes :=
  match n with
  | Uint n | BigUint n => show_N n
  | Int z | BigInt z => show_Z z
  end.

(** src/value/val.rs:242-254: derived [Display for EnumTag]. *)
Definition show_tag (t : etag) : bytes :=
  match t with Name s => sbytes s | Ord n => show_N n end.

(** src/value/ston.rs:34-49 [needs_parenthesis]. *)
Definition needs_parenthesis (v : sval) : bool :=
  match v with
  | VTuple [_] => false
  | VTuple _ | VStruct _ => true
  | _ => false
  end.

(** src/value/ston.rs:63-70 and the like: an item in parentheses if needed. *)
Definition paren (b : bool) (s : bytes) : bytes := if b then txt "(" ++ s ++ txt ")" else s.

(** src/value/ston.rs:71-74 and the like: a separator between items. *)
Definition join (sep : bytes) : list bytes -> bytes := fix go l :=
  match l with
  | [] => []
  | [x] => x
  | x :: l => x ++ sep ++ go l
  end.

(** src/value/ston.rs:51-170 [Display for StrictVal]. *)
Fixpoint show (v : sval) : bytes :=
  match v with
  | VUnit => txt "(,)"
  | VNum n => show_num n
  | VStr s => [x22] ++ sbytes s ++ [x22]
  | VBytes b => txt "0x" ++ sbytes (to_hex b)
  | VTuple l => join (txt ", ") (map (fun x => paren (needs_parenthesis x) (show x)) l)
  | VStruct fs =>
      join (txt ", ") (map (fun f => sbytes (fst f) ++ txt " " ++ paren (needs_parenthesis (snd f)) (show (snd f))) fs)
  | VEnum t => show_tag t
  | VUnion t w =>
      match t, w with
      | Ord 0, VUnit => txt "~"
      | Name "none", VUnit => txt "~"
      | _, _ => paren (needs_parenthesis w) (show w) ++ txt "." ++ show_tag t
      end
  | VList l => txt "[" ++ join (txt ", ") (map (fun x => paren (needs_parenthesis x) (show x)) l) ++ txt "]"
  | VSet l => txt "{" ++ join (txt ", ") (map (fun x => paren (needs_parenthesis x) (show x)) l) ++ txt "}"
  | VMap l =>
      txt "{" ++ join (txt ", ") (map (fun e => show (fst e) ++ txt " -> "
        ++ paren (needs_parenthesis (snd e)) (show (snd e))) l) ++ txt "}"
  end.

(** The tests in src/value/ston.rs:172-291. *)
Goal show (VUnion (Name "none") VUnit) = txt "~". Proof. reflexivity. Abort.
Goal show (VUnion (Name "some") (VStr "value")) = sbytes (String """" (String.append "value" (String """" ".some"))).
Proof. reflexivity. Abort.
Goal show (VStruct [("precision"%string, VEnum (Ord 8)); ("data"%string, VList [VNum (Uint 0); VNum (Uint 1)]);
  ("tuple"%string, VStruct [("a"%string, VNum (Uint 15)); ("b"%string, VNum (Int (-1)))])])
  = txt "precision 8, data [0, 1], tuple (a 15, b -1)".
Proof. vm_compute. reflexivity. Abort.
