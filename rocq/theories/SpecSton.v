(** Specification for the text form of values. *)
From Coq Require Import NArith ZArith List Bool String Ascii Strings.Byte.
From Verif Require Import Base Ty Ids Val SpecTypify.
Import ListNotations.

(** No text in the value has a quotation mark. *)
Fixpoint quote_free (v : sval) : Prop :=
  let all := fix all l := match l with [] => True | x :: l => quote_free x /\ all l end in
  match v with
  | VStr s => ~ In x22 (sbytes s)
  | VStruct fs => (fix all l := match l with [] => True | f :: l => quote_free (snd f) /\ all l end) fs
  | VUnion _ w => quote_free w
  | VList l | VSet l | VTuple l => all l
  | VMap l => (fix all l := match l with [] => True | e :: l => (quote_free (fst e) /\ quote_free (snd e)) /\ all l end) l
  | _ => True
  end.

(** Names of fields and variants in the value are identifiers. *)
Fixpoint names_plain (v : sval) : Prop :=
  let all := fix all l := match l with [] => True | x :: l => names_plain x /\ all l end in
  let tag t := match t with Name s => identifier s | Ord _ => True end in
  match v with
  | VStruct fs => (fix all l := match l with [] => True | f :: l => (identifier (fst f) /\ names_plain (snd f)) /\ all l end) fs
  | VEnum t => tag t
  | VUnion t w => tag t /\ names_plain w
  | VList l | VSet l | VTuple l => all l
  | VMap l => (fix all l := match l with [] => True | e :: l => (names_plain (fst e) /\ names_plain (snd e)) /\ all l end) l
  | _ => True
  end.

(** Brackets and the brackets which close them. *)
Definition brackets : list (byte * byte) := [(x28, x29); (x5b, x5d); (x7b, x7d)].
(** Outside of quotation marks each bracket is closed by one of the same kind, properly nested. *)
Inductive balanced : bytes -> Prop :=
| balanced_end : balanced []
| balanced_char b s : b <> x22 -> (forall o c, In (o, c) brackets -> b <> o /\ b <> c) -> balanced s -> balanced (b :: s)
| balanced_quoted t s : ~ In x22 t -> balanced s -> balanced ([x22] ++ t ++ [x22] ++ s)
| balanced_bracket o c s s' : In (o, c) brackets -> balanced s -> balanced s' -> balanced ([o] ++ s ++ [c] ++ s').
