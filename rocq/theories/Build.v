(** Model of assembling type systems from libraries: src/typesys/translate.rs, src/typesys/symbols.rs.
    Only definitions. *)
From Coq Require Import NArith List Bool String.
From Verif Require Import Base Sha256 Ty Ids TypeSys LibCodec.
Import ListNotations.
Local Open Scope N_scope.

(** ** Ordered sets ([BTreeSet]) with the order [cmp] *)

(** [BTreeSet::contains]. *)
Definition set_mem {K} (cmp : K -> K -> comparison) (k : K) (s : list K) : bool :=
  existsb (fun k' => match cmp k k' with Eq => true | _ => false end) s.

(** [BTreeSet::insert]: an equal element which is present already is kept. *)
Fixpoint set_insert {K} (cmp : K -> K -> comparison) (k : K) (s : list K) : list K :=
  match s with
  | [] => [k]
  | k' :: r =>
      match cmp k k' with
      | Lt => k :: k' :: r
      | Eq => k' :: r
      | Gt => k' :: set_insert cmp k r
      end
  end.

(** [BTreeSet::remove]. *)
Definition set_remove {K} (cmp : K -> K -> comparison) (k : K) (s : list K) : list K :=
  filter (fun k' => match cmp k k' with Eq => false | _ => true end) s.

(** ** Types with symbols *)

(** src/typesys/type_sys.rs:75-85 [SymTy]. *)
Record sym_ty := mkSymTy { st_orig : option type_fqn; st_ty : ty semid }.

(** src/typesys/translate.rs:91-96 [SystemBuilder]. *)
Record builder := mkBuilder {
  b_pending : list dependency;
  b_imported : list dependency;
  b_types : list (semid * sym_ty)
}.

(** src/typesys/translate.rs:99 [SystemBuilder::new]. *)
Definition builder_new : builder := mkBuilder [] [] [].

(** src/typesys/translate.rs:226-251 [Error], the ones which arise here. *)
Inductive build_error : Type :=
| AbsentImport (d : dependency)
| RepeatedType (new present : type_symbol)
| InnerTypeAbsent (unknown known : semid)
| Confinement.

(** ** Translation of references *)

(** The part of the builder changed by the translation. *)
Definition types_map := list (semid * sym_ty).

(** [BTreeMap::insert] on the types. *)
Definition types_insert (id : semid) (info : sym_ty) (m : types_map) : types_map := om_insert N.compare id info m.

(** src/typesys/translate.rs:142-152 [translate_inline]; [cr] is the commitment of a reference, [tr] its
    translation. *)
Definition translate_inline {R} (cr : R -> bytes) (tr : R -> types_map -> outcome build_error semid * types_map)
  (t : ty R) (m : types_map) : outcome build_error semid * types_map :=
  let id := sem_id_unnamed cr t in
  match translate_ty tr t m with
  | (Ok t', m) => (Ok id, types_insert id (mkSymTy None t') m)
  | (Err e, m) => (Err e, m)
  | (Panic, m) => (Panic, m)
  | (Diverge, m) => (Diverge, m)
  end.

(** src/typesys/translate.rs:209-225 [Translate<SemId> for InlineRef2]. *)
Definition translate_ref2 (r : inline_ref2) (m : types_map) : outcome build_error semid * types_map :=
  match r with
  | RInline e => match e with end
  | RNamed id => (Ok id, m)
  | RExtern e => (Ok (er_id e), m)
  end.

(** The match shared by src/typesys/translate.rs:155-207. *)
Definition translate_gref {I} (ti : I -> types_map -> outcome build_error semid * types_map)
  (r : gref I) (m : types_map) : outcome build_error semid * types_map :=
  match r with
  | RNamed id => (Ok id, m)
  | RInline t => ti t m
  | RExtern e => (Ok (er_id e), m)
  end.

(** src/typesys/translate.rs:191-207 [Translate<SemId> for InlineRef1]. *)
Definition translate_ref1 : inline_ref1 -> types_map -> outcome build_error semid * types_map :=
  translate_gref (translate_inline commit_ref2 translate_ref2).
(** src/typesys/translate.rs:173-189 [Translate<SemId> for InlineRef]. *)
Definition translate_ref0 : inline_ref -> types_map -> outcome build_error semid * types_map :=
  translate_gref (translate_inline commit_ref1 translate_ref1).
(** src/typesys/translate.rs:155-171 [Translate<SemId> for LibRef]. *)
Definition translate_libref : lib_ref -> types_map -> outcome build_error semid * types_map :=
  translate_gref (translate_inline commit_ref0 translate_ref0).

(** ** Import *)

(** src/typesys/translate.rs:108-113, the loop over the types of the library. *)
Fixpoint import_types (lib : string) (l : list (string * ty lib_ref)) (m : types_map)
  : outcome build_error types_map :=
  match l with
  | [] => Ok m
  | (name, t) :: l =>
      let id := lib_type_id (name, t) in
      match translate_ty translate_libref t m with
      | (Ok t', m) => import_types lib l (types_insert id (mkSymTy (Some (mkFqn lib name)) t') m)
      | (Err e, _) => Err e
      | (Panic, _) => Panic
      | (Diverge, _) => Diverge
      end
  end.

(** src/typesys/translate.rs:101-116 [import]. *)
Definition import (b : builder) (l : type_lib) : outcome build_error builder :=
  let dep := mkDep (lib_id l) (l_name l) in
  let pending := set_remove dep_cmp dep (b_pending b) in
  let imported := set_insert dep_cmp dep (b_imported b) in
  let pending := fold_left (fun s d => set_insert dep_cmp d s)
                   (filter (fun d => negb (set_mem dep_cmp d imported)) (l_deps l)) pending in
  let* types := import_types (l_name l) (l_types l) (b_types b) in
  Ok (mkBuilder pending imported types).

(** Importing libraries one after another. *)
Fixpoint import_all (b : builder) (ls : list type_lib) : outcome build_error builder :=
  match ls with
  | [] => Ok b
  | l :: ls => let* b := import b l in import_all b ls
  end.

(** ** Finalization *)

(** src/typesys/translate.rs:125-134, the loop over the types collecting errors. The test is on the
    referencing id, as in the source. *)
Fixpoint inner_errors (dbg : bool) (types todo : types_map) : outcome Empty_set (list build_error) :=
  match todo with
  | [] => Ok []
  | (id, info) :: todo =>
      let* refs := type_refs dbg (st_ty info) in
      let es := flat_map (fun r => match om_get N.compare id types with
                                   | Some _ => []
                                   | None => [InnerTypeAbsent (fst r) id]
                                   end) refs in
      let* es' := inner_errors dbg types todo in
      Ok (es ++ es')
  end.

(** src/typesys/symbols.rs:48-55 [Symbols::with]: at most 65535 libraries. *)
Definition symbols_with (libs : list dependency) : outcome build_error symbols :=
  let s := fold_left (fun s d => set_insert dep_cmp d s) libs [] in
  if lenN s <=? u16_max then Ok (mkSymbols s []) else Err Confinement.

(** src/typesys/symbols.rs:57-74 [update_unchecked]; [push] fails when the collection is full. *)
Definition update_unchecked (s : symbols) (id : semid) (orig : option type_fqn) : outcome build_error symbols :=
  let sym := mkSymbol id orig in
  match find (fun p => match symbol_cmp sym p with Eq => true | _ => false end) (sy_symbols s) with
  | Some present => Err (RepeatedType sym present)
  | None =>
      if lenN (sy_symbols s) =? u24_max then Err Confinement
      else Ok (mkSymbols (sy_libs s) (set_insert symbol_cmp sym (sy_symbols s)))
  end.

(** src/typesys/symbols.rs:131-134, the loop of [SymbolicSys::with]. *)
Fixpoint with_loop (types : types_map) (sys : type_system) (sym : symbols) : outcome build_error symbolic_sys :=
  match types with
  | [] => Ok (mkSymSys sym sys)
  | (id, info) :: types =>
      match insert_unchecked sys id (st_ty info) with
      | Ok sys => let* sym := update_unchecked sym id (st_orig info) in with_loop types sys sym
      | Err Oversize => Err Confinement
      | Panic => Panic
      | Diverge => Diverge
      end
  end.

(** src/typesys/symbols.rs:124-140 [SymbolicSys::with]. *)
Definition symsys_with (libs : list dependency) (types : types_map) : outcome build_error symbolic_sys :=
  let* sym := symbols_with libs in with_loop types [] sym.

(** src/typesys/translate.rs:118-140 [finalize]. *)
Definition finalize (dbg : bool) (b : builder) : outcome (list build_error) symbolic_sys :=
  let errors := map AbsentImport (b_pending b) in
  let* inner := no_err (inner_errors dbg (b_types b) (b_types b)) in
  match errors ++ inner with
  | [] =>
      match symsys_with (b_imported b) (b_types b) with
      | Ok s => Ok s
      | Err e => Err [e]
      | Panic => Panic
      | Diverge => Diverge
      end
  | es => Err es
  end.

(** ** Lookup by name *)

(** Derived [PartialEq] of [TypeFqn]. *)
Definition fqn_eqb (a b : type_fqn) : bool := (q_lib a =? q_lib b)%string && (q_name a =? q_name b)%string.

(** src/typesys/symbols.rs:76-79 [Symbols::get], 157 [SymbolicSys::resolve]. *)
Definition resolve (s : symbols) (q : type_fqn) : option semid :=
  option_map ts_id (find (fun y => match ts_fqn y with Some p => fqn_eqb p q | None => false end) (sy_symbols s)).

(** src/typesys/symbols.rs:81-83 [Symbols::lookup], 159 [SymbolicSys::lookup]. *)
Definition lookup (s : symbols) (id : semid) : option type_fqn :=
  match find (fun y => ts_id y =? id) (sy_symbols s) with
  | Some y => ts_fqn y
  | None => None
  end.
