(** Model of the compilation of libraries and of the way back: src/typelib/compile.rs,
    src/typelib/translate.rs, src/typelib/symbolic.rs (277-373). Only definitions. *)
From Coq Require Import NArith List Bool String.
From Verif Require Import Base Sha256 Ty Ids TypeSys LibCodec Build.
Import ListNotations.
Local Open Scope N_scope.

(** src/typelib/compile.rs:32 [TypeIndex]. *)
Definition type_index := list (string * semid).
Definition index_get (n : string) (i : type_index) : option semid := om_get String.compare n i.

(** src/typelib/compile.rs:37-72 [CompileError], the ones which arise in [compile]. The path of
    [NestedInline] is the list of the classes of the enclosing types; the source has their names joined
    by dots. *)
Inductive compile_error : Type :=
| Continue
| NestedInline (top : string) (path : list N) (inner : option N)
| UnknownLib (lib : string).

(** The builder of the translation, src/typelib/compile.rs:91-96 [NestedContext]: the index and the
    name are not changed by it and are parameters here; the external types are not used; the state is
    the stack. *)
Definition stack := list N.
Definition translator (R : Type) : Type := tref -> stack -> outcome compile_error R * stack.

(** src/typelib/compile.rs:109-114, 135-140, 161-166 [TranspileRef::Embedded] below the deepest level. *)
Definition compile_embedded {R} (f : translator R) (t : ty tref) (s : stack)
  : outcome compile_error (gref (ty R)) * stack :=
  let (res, s) := translate_ty f t (s ++ [cls t]) in
  (fst (map_fst RInline (res, s)), removelast s).

(** src/typelib/compile.rs:98-199, the match shared by the four levels. *)
Definition compile_gref {I} (idx : type_index) (emb : ty tref -> stack -> outcome compile_error (gref I) * stack)
  : translator (gref I) := fun r s =>
  match r with
  | TrEmbedded t => emb t s
  | TrNamed name =>
      match index_get name idx with
      | Some id => (Ok (RNamed id), s)
      | None => (Err Continue, s)
      end
  | TrExtern e => (Ok (RExtern (mkExtern (sr_libid e) (sr_id e))), s)
  end.

(** src/typelib/compile.rs:176-199 [Translate<InlineRef2>]. *)
Definition compile_ref2 (top : string) (idx : type_index) : translator inline_ref2 :=
  compile_gref idx (fun _ s => (Err (NestedInline top (removelast s) (last (map Some s) None)), s)).
(** src/typelib/compile.rs:150-174 [Translate<InlineRef1>]. *)
Definition compile_ref1 (top : string) (idx : type_index) : translator inline_ref1 :=
  compile_gref idx (compile_embedded (compile_ref2 top idx)).
(** src/typelib/compile.rs:124-148 [Translate<InlineRef>]. *)
Definition compile_ref0 (top : string) (idx : type_index) : translator inline_ref :=
  compile_gref idx (compile_embedded (compile_ref1 top idx)).
(** src/typelib/compile.rs:98-122 [Translate<LibRef>]. *)
Definition compile_libref (top : string) (idx : type_index) : translator lib_ref :=
  compile_gref idx (compile_embedded (compile_ref0 top idx)).

(** ** Compilation of a library *)

(** The variables of src/typelib/symbolic.rs:282-285. *)
Record progress := mkProgress {
  pr_index : type_index;
  pr_new : list (string * ty lib_ref);
  pr_old : list (string * ty tref)
}.

(** [BTreeMap::remove]. *)
Definition map_remove {V} (k : string) (m : list (string * V)) : list (string * V) :=
  filter (fun e => negb (fst e =? k)%string) m.

(** src/typelib/symbolic.rs:288-315, one pass over the names. *)
Fixpoint compile_pass (names : list string) (p : progress) (found : bool)
  : outcome compile_error (progress * bool) :=
  match names with
  | [] => Ok (p, found)
  | name :: names =>
      match om_get String.compare name (pr_old p) with
      | None => compile_pass names p found
      | Some t =>
          match fst (translate_ty (compile_libref name (pr_index p)) t []) with
          | Ok t' =>
              let id := sem_id_named commit_libref name t' in
              compile_pass names
                (mkProgress (om_insert String.compare name id (pr_index p))
                            (om_insert String.compare name t' (pr_new p))
                            (map_remove name (pr_old p))) true
          | Err Continue => compile_pass names p found
          | Err e => Err e
          | Panic => Panic
          | Diverge => Diverge
          end
      end
  end.

(** src/typelib/symbolic.rs:287-317, the loop. A pass without success fails the debug assertion, or is
    repeated forever if there are none. *)
Fixpoint compile_loop (fuel : nat) (dbg : bool) (names : list string) (p : progress)
  : outcome compile_error (list (string * ty lib_ref)) :=
  match pr_old p with
  | [] => Ok (pr_new p)
  | _ =>
      match fuel with
      | O => Diverge
      | S fuel =>
          let* (p, found) := compile_pass names p false in
          if dbg && negb found then Panic else compile_loop fuel dbg names p
      end
  end.

(** [strict_encoding::LIB_EMBEDDED] (external). *)
Definition LIB_EMBEDDED : string := "_".

(** src/typelib/symbolic.rs:319-333, the dependencies which are used. The second arm of the match can
    not be reached since [used_dependencies] has members of [dependencies] only. *)
Fixpoint used_deps (libs : list string) (deps used : list dependency) : outcome compile_error (list dependency) :=
  match libs with
  | [] => Ok used
  | lib :: libs =>
      if (lib =? LIB_EMBEDDED)%string then used_deps libs deps used
      else match find (fun d => (d_name d =? lib)%string) deps with
           | None => if existsb (fun d => (d_name d =? lib)%string) used then used_deps libs deps used
                     else Err (UnknownLib lib)
           | Some d => used_deps libs deps (set_insert dep_cmp d used)
           end
  end.

(** src/typelib/symbolic.rs:278-344 [SymbolicLib::compile]. [from_checked] panics when the collection is
    out of its limits. *)
Definition compile (fuel : nat) (dbg : bool) (l : sym_lib) : outcome compile_error type_lib :=
  let names := map fst (y_types l) in
  let* types := compile_loop fuel dbg names (mkProgress [] [] (y_types l)) in
  let* deps := used_deps (map fst (y_extern l)) (y_deps l) [] in
  if (1 <=? lenN types) && (lenN types <=? u16_max) && (lenN deps <=? u8_max)
  then Ok (mkLib (y_name l) deps (y_extern l) types)
  else Panic.

(** ** Symbolic form of a library *)

(** src/typelib/translate.rs:30-45 [SymbolError]. *)
Inductive symbol_error : Type :=
| SymUnknownType (id : semid)
| SymUnknownLib (id : libid)
| SymLibTooLarge (lib : string)
| SymTooManyDependencies.

(** src/typelib/translate.rs:47-50 [SymbolContext]. *)
Record symbol_context := mkSymContext {
  sc_reverse : list (semid * string);
  sc_libs : list (libid * string)
}.

(** src/typelib/translate.rs:65-71 [named]. *)
Definition symbol_named (ctx : symbol_context) (id : semid) : outcome symbol_error tref :=
  match om_get N.compare id (sc_reverse ctx) with
  | Some n => Ok (TrNamed n)
  | None => Err (SymUnknownType id)
  end.

(** src/typelib/translate.rs:73-93 [external]. *)
Definition symbol_external (ctx : symbol_context) (e : extern_ref) (b : extern_types)
  : outcome symbol_error tref * extern_types :=
  match om_get N.compare (er_lib e) (sc_libs ctx) with
  | None => (Err (SymUnknownLib (er_lib e)), b)
  | Some lib =>
      match om_get String.compare lib b with
      | None => (Err (SymUnknownLib (er_lib e)), b)
      | Some index =>
          match om_get N.compare (er_id e) index with
          | None => (Err (SymUnknownType (er_id e)), b)
          | Some name =>
              let b := map_remove lib b in
              match confined_insert N.compare u16_max (er_id e) name index with
              | Ok index =>
                  match confined_insert String.compare u8_max lib index b with
                  | Ok b => (Ok (TrExtern (mkSymRef lib name (er_lib e) (er_id e))), b)
                  | _ => (Err SymTooManyDependencies, b)
                  end
              | _ => (Err (SymLibTooLarge lib), b)
              end
          end
      end
  end.

(** src/typelib/translate.rs:96-165, the match shared by the four levels. *)
Definition symbol_gref {I} (ctx : symbol_context) (emb : I -> extern_types -> outcome symbol_error tref * extern_types)
  (r : gref I) (b : extern_types) : outcome symbol_error tref * extern_types :=
  match r with
  | RInline t => emb t b
  | RNamed id => (symbol_named ctx id, b)
  | RExtern e => symbol_external ctx e b
  end.
(** src/typelib/translate.rs:53-63 [embedded]. *)
Definition symbol_embedded {R} (f : R -> extern_types -> outcome symbol_error tref * extern_types)
  (t : ty R) (b : extern_types) : outcome symbol_error tref * extern_types := map_fst TrEmbedded (translate_ty f t b).
(** src/typelib/translate.rs:150-165 [InlineRef2]. *)
Definition symbol_ref2 (ctx : symbol_context) := symbol_gref ctx (fun e : Empty_set => match e with end).
(** src/typelib/translate.rs:132-148 [InlineRef1]. *)
Definition symbol_ref1 (ctx : symbol_context) := symbol_gref ctx (symbol_embedded (symbol_ref2 ctx)).
(** src/typelib/translate.rs:114-130 [InlineRef]. *)
Definition symbol_ref0 (ctx : symbol_context) := symbol_gref ctx (symbol_embedded (symbol_ref1 ctx)).
(** src/typelib/translate.rs:96-112 [LibRef]. *)
Definition symbol_libref (ctx : symbol_context) := symbol_gref ctx (symbol_embedded (symbol_ref0 ctx)).

(** src/typelib/symbolic.rs:349-355, the indexes; the last entry with a key stays. *)
Definition symbol_index (l : type_lib) : symbol_context :=
  mkSymContext (fold_left (fun m nt => om_insert N.compare (lib_type_id nt) (fst nt) m) (l_types l) [])
               (fold_left (fun m d => om_insert N.compare (d_id d) (d_name d) m) (l_deps l) []).

(** src/typelib/symbolic.rs:348-372 [TypeLib::to_symbolic]. *)
Definition to_symbolic (l : type_lib) : outcome symbol_error sym_lib :=
  let ctx := symbol_index l in
  match map_state (fun nt b => map_fst (fun t => (fst nt, t)) (translate_ty (symbol_libref ctx) (snd nt) b))
          (l_types l) (l_extern l) with
  | (Ok types, ext) => Ok (mkSymLib (l_name l) (l_deps l) ext types)
  | (Err e, _) => Err e
  | (Panic, _) => Panic
  | (Diverge, _) => Diverge
  end.
