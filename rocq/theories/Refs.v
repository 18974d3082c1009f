(** Model of the text of references to types of other libraries and of URNs: src/typelib/symbolic.rs, src/util.rs. Only
    definitions. Text is given as bytes. *)
From Coq Require Import NArith List Bool String Ascii Strings.Byte.
From Verif Require Import Base Ty Ids.
Import ListNotations.
Local Open Scope N_scope.
Local Open Scope list_scope.

Local Notation txt s := (sbytes s%string) (only parsing).

(** src/typelib/symbolic.rs:65: derived [Display for SymbolRef]. *)
Definition show_symref (r : symbol_ref) : bytes := sbytes (sr_lib r) ++ txt "." ++ sbytes (sr_name r).
(** src/typelib/symbolic.rs:65: the alternate form; [id_text] is the text of an id in the alternate form (crate baid64,
    external). *)
Definition show_symref_alt (id_text : semid -> bytes) (r : symbol_ref) : bytes :=
  sbytes (sr_lib r) ++ txt "." ++ sbytes (sr_name r) ++ txt "#" ++ id_text (sr_id r).

(** src/util.rs:205-213 [Urn]. *)
Inductive urn : Type :=
| UrnLib (id : libid)
| UrnType (id : semid).
(** src/util.rs:204-213: derived [Display for Urn]; the same for the alternate form, with other texts of ids (crate
    baid64, external). *)
Definition show_urn (lib_text : libid -> bytes) (id_text : semid -> bytes) (u : urn) : bytes :=
  match u with
  | UrnLib id => txt "urn:sten:lib:" ++ lib_text id
  | UrnType id => txt "urn:sten:id:" ++ id_text id
  end.
