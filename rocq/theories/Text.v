(** Model of the text forms of paths and of fully qualified names: src/value/path.rs, src/ast/path.rs,
    src/typesys/type_sys.rs. Only definitions. Text is given as bytes. *)
From Coq Require Import NArith List Bool String Ascii Strings.Byte.
From Verif Require Import Base Ty Val Typify LibCodec Ston.
Import ListNotations.
Local Open Scope N_scope.
Local Open Scope list_scope.

Local Notation txt s := (sbytes s%string) (only parsing).

(** [{byte:02X}], src/value/path.rs:80. *)
Definition upper_digit (n : N) : byte := b8 (if n <? 10 then 48 + n else 55 + n).
Definition upper_hex (b : bytes) : bytes :=
  flat_map (fun x => [upper_digit (Byte.to_N x / 16); upper_digit (Byte.to_N x mod 16)]) b.
(** [s.replace('"', "\\\"")], src/value/path.rs:85. *)
Definition escape_quotes (s : bytes) : bytes := flat_map (fun b => if Byte.eqb b x22 then [x5c; x22] else [b]) s.

(** src/value/path.rs:73-90 [Display for KeyStep]. *)
Definition show_key (k : key_step) : bytes :=
  match k with
  | KNumber n => show_N n
  | KBlob b => txt "0h" ++ upper_hex b
  | KString s => escape_quotes (sbytes s)
  end.
(** src/value/path.rs:96-111: derived [Display for Step]. *)
Definition show_vstep (s : vstep) : bytes :=
  match s with
  | VSNamed n => txt "." ++ sbytes n
  | VSUnnamed no => txt "." ++ show_N no
  | VSIndex i => txt "[" ++ show_N i ++ txt "]"
  | VSKey k => txt "{" ++ show_key k ++ txt "}"
  end.
(** src/value/path.rs:136-143 [Display for Path]. *)
Definition show_vpath (p : list vstep) : bytes := flat_map show_vstep p.

(** src/ast/path.rs:34-63: derived [Display for Step]. *)
Definition show_step (s : step) : bytes :=
  match s with
  | SNamedField n => txt "." ++ sbytes n
  | SUnnamedField no => txt "." ++ show_N no
  | SVariant n => txt "." ++ sbytes n
  | SIndex => txt "#"
  | SList => txt "[]"
  | SSet => txt "{}"
  | SMapKey => txt "[key]"
  | SMapValue => txt "[value]"
  end.
(** src/ast/path.rs:86-93 [Display for Path]. *)
Definition show_path (p : list step) : bytes := flat_map show_step p.

(** src/typesys/type_sys.rs:46: derived [Display for TypeFqn]. *)
Definition show_fqn (q : type_fqn) : bytes := sbytes (q_lib q) ++ txt "." ++ sbytes (q_name q).
(** [str::split_once('.')]. *)
Fixpoint split_dot (s : bytes) : option (bytes * bytes) :=
  match s with
  | [] => None
  | b :: s => if Byte.eqb b x2e then Some ([], s)
              else match split_dot s with Some (l, r) => Some (b :: l, r) | None => None end
  end.
(** src/typesys/type_sys.rs:62-72 [From<&'static str> for TypeFqn]; the conversions to names (external) panic if the
    name is not valid. *)
Definition fqn_of_text (s : bytes) : outcome Empty_set type_fqn :=
  match split_dot s with
  | None => Panic
  | Some (lib, name) =>
      if tname_ok (bstring lib) && tname_ok (bstring name) then Ok (mkFqn (bstring lib) (bstring name)) else Panic
  end.
