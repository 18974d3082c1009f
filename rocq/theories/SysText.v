(** Model of the text of type systems and of compiled libraries: src/typesys/type_sys.rs, src/typesys/symbols.rs,
    src/typelib/serialize.rs, src/typelib/type_lib.rs. Only definitions. Text is given as bytes. Simplified: only the
    default format. *)
From Coq Require Import NArith List Bool String Ascii Strings.Byte.
From Verif Require Import Base Ty Ids TypeSys LibCodec Build Ston Sty Text.
Import ListNotations.
Local Open Scope N_scope.
Local Open Scope list_scope.

Local Notation txt s := (sbytes s%string) (only parsing).

(** [Display for Primitive] and [Display for Sizing] (crate strict_encoding, external); the text of ids (crate baid64,
    external): of semantic ids with the flag [-] and without it, of type systems without flags and with the flag [+],
    of libraries without flags, and the mnemonics. *)
Section External.
Variables (prim_text : N -> bytes) (sizing_text : sizing -> bytes).
Variables (id_text id_full sys_text sys_plus lib_text mnemonic : N -> bytes).

(** src/ast/ty.rs:250-287 [Display for Ty], called as [{ty:-}]: the flag is passed on to all references but the key
    of a map, which is written with [{key}] (281). *)
Definition sys_ty {R} (sr key : R -> bytes) (t : ty R) : bytes :=
  match t with
  | TMap k r s => txt "{" ++ key k ++ txt " ->" ++ sizing_text s ++ txt " " ++ sr r ++ txt "}"
  | _ => sty_ty prim_text sizing_text sr (fun _ => false) t
  end.

(** src/typesys/type_sys.rs:199-201. *)
Definition sys_entry (e : semid * ty semid) : bytes :=
  txt "data " ++ id_text (fst e) ++ txt ": " ++ sys_ty id_text id_full (snd e) ++ [x0a].
(** src/typesys/type_sys.rs:195-204 [Display for TypeSystem]. *)
Definition show_sys (s : type_system) : bytes :=
  txt "typesys -- " ++ sys_text (sys_id s) ++ [x0a] ++ [x0a] ++ flat_map sys_entry s.

(** src/typesys/translate.rs:65-72 [Display for TypeSymbol], of what 74-89 [Translate<TypeSymbol> for SemId]
    returns. *)
Definition show_symbol (f : N -> bytes) (y : symbols) (id : semid) : bytes :=
  match lookup y id with Some q => show_fqn q | None => f id end.
(** src/typesys/symbols.rs:175-184. *)
Definition symsys_entry (y : symbols) (e : semid * ty semid) : bytes :=
  match lookup y (fst e) with
  | Some q => txt "-- " ++ id_text (fst e) ++ [x0a] ++ txt "data " ++ show_fqn q
  | None => txt "data " ++ id_text (fst e)
  end ++ txt ": " ++ sys_ty (show_symbol id_text y) (show_symbol id_full y) (snd e) ++ [x0a].
(** src/typesys/symbols.rs:171-187 [Display for SymbolicSys]. *)
Definition show_symsys (s : symbolic_sys) : bytes :=
  txt "typesys -- " ++ sys_plus (sys_id (ss_types s)) ++ [x0a] ++ [x0a]
  ++ flat_map (symsys_entry (ss_symbols s)) (ss_types s).

(** src/typesys/symbols.rs:94-109 [Display for Symbols]. *)
Definition show_symbols (y : symbols) : bytes :=
  [x0a]
  ++ flat_map (fun d => sbytes (d_name d) ++ txt "#" ++ mnemonic (d_id d) ++ txt " as " ++ sbytes (d_name d) ++ [x0a]) (sy_libs y)
  ++ txt "{--" ++ [x0a]
  ++ flat_map (fun t => match ts_fqn t with
                        | Some q => txt "  " ++ show_fqn q ++ txt " => " ++ id_full (ts_id t) ++ [x0a]
                        | None => []
                        end) (sy_symbols y)
  ++ txt "--}" ++ [x0a].

(** ** Compiled libraries *)

(** src/typelib/type_lib.rs:48 [Display for ExternRef]. *)
Definition show_extern (e : extern_ref) : bytes := lib_text (er_lib e) ++ txt "." ++ id_full (er_id e).
(** src/typelib/type_lib.rs:92-100, 134-142, 159-166, 201-209 [Display] for the references of each level; [st] is
    the text of inline definitions. *)
Definition show_gref {I} (st : I -> bytes) (r : gref I) : bytes :=
  match r with
  | RInline t => st t
  | RNamed id => id_full id
  | RExtern e => show_extern e
  end.
(** src/typelib/type_lib.rs:71-77, 113-119, 153-154, 180-186 [is_compound]. *)
Definition gref_compound {R} (r : gref (ty R)) : bool := match r with RInline t => is_compound t | _ => false end.
Definition show_ref2 : inline_ref2 -> bytes := show_gref (fun e : Empty_set => match e with end).
Definition show_ref1 : inline_ref1 -> bytes :=
  show_gref (sty_ty prim_text sizing_text show_ref2 (fun _ => false)).
Definition show_ref0 : inline_ref -> bytes :=
  show_gref (sty_ty prim_text sizing_text show_ref1 gref_compound).
Definition show_lib_ref : lib_ref -> bytes :=
  show_gref (sty_ty prim_text sizing_text show_ref0 gref_compound).
(** The text of a definition in a library. *)
Definition show_lib_ty : ty lib_ref -> bytes := sty_ty prim_text sizing_text show_lib_ref gref_compound.
(** src/typelib/serialize.rs:163. *)
Definition lib_entry (e : string * ty lib_ref) : bytes :=
  txt "data " ++ pad (fst e) ++ txt " : " ++ show_lib_ty (snd e) ++ [x0a] ++ [x0a].
(** src/typelib/serialize.rs:149-167 [Display for TypeLib]; src/typelib/type_lib.rs:249-253 [Display for
    Dependency]. *)
Definition show_lib (l : type_lib) : bytes :=
  txt "typelib " ++ sbytes (l_name l) ++ txt " -- " ++ lib_text (lib_id l) ++ [x0a] ++ [x0a]
  ++ flat_map (fun d => txt "import " ++ sbytes (d_name d) ++ txt "#" ++ mnemonic (d_id d) ++ [x0a]) (l_deps l)
  ++ match l_deps l with [] => txt "-- no dependencies" | _ => [] end
  ++ [x0a] ++ [x0a]
  ++ flat_map lib_entry (l_types l).
End External.
