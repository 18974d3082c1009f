(** Specification for files with libraries and for arguments of programs. *)
From Coq Require Import NArith List Bool String Strings.Byte.
From Verif Require Import Base Ty Ids LibCodec Files.
Import ListNotations.
Local Open Scope N_scope.
Local Open Scope list_scope.

(** Everything is as before, except for the file [path]. *)
Definition only_changes (w w' : world) (path : bytes) : Prop :=
  (forall p, p <> path -> read_file w' p = read_file w p) /\ w_printed w' = w_printed w.

(** A text with any number of double hyphens before it. *)
Inductive dashed (s : bytes) : bytes -> Prop :=
| dashed_none : dashed s s
| dashed_more r : dashed s r -> dashed s (sbytes "--" ++ r).

(** What the arguments of a program ask for: the program itself comes first. *)
Inductive asks : list bytes -> stl_format -> option bytes -> Prop :=
| asks_nothing program : asks [program] Source None
| asks_format program arg f : dashed (format_text f) arg -> asks [program; arg] f (Some (sbytes "stl"))
| asks_dir program arg f dir : dashed (format_text f) arg -> asks [program; arg; dir] f (Some dir).
