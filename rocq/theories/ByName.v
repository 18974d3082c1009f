(** Model of the operations on types given by name: src/typesys/symbols.rs:86-92, 142-169, src/value/decode.rs:63-84,
    src/value/typify.rs:38-47, 128-135. Only definitions. *)
From Coq Require Import NArith List Bool String Strings.Byte.
From Verif Require Import Base Ty Ids Val TypeSys Encode Decode Typify LibCodec Build Layout Text.
Import ListNotations.
Local Open Scope N_scope.

(** src/value/typify.rs:38-47 [TypeSpec]: a type given by its id or by its full name. *)
Inductive type_spec : Type := SpecId (id : semid) | SpecName (q : type_fqn).

(** src/value/typify.rs:44 [#[from(&'static str)]] of [TypeSpec]: by the conversion of [TypeFqn]. *)
Definition spec_of_text (s : bytes) : outcome Empty_set type_spec := let* q := fqn_of_text s in Ok (SpecName q).

(** src/typesys/symbols.rs:161-166 [SymbolicSys::to_sem_id]. *)
Definition to_sem_id (s : symbolic_sys) (p : type_spec) : option semid :=
  match p with SpecId id => Some id | SpecName q => resolve (ss_symbols s) q end.

(** src/value/typify.rs:65-66, src/value/decode.rs:44-45 [Error::TypeAbsent] with the given specification, and the errors
    of the operations by id. *)
Inductive by_spec_error (E : Type) : Type := SpecAbsent (p : type_spec) | ById (e : E).
Arguments SpecAbsent {E} _. Arguments ById {E} _.
(** The operator [?] keeps errors of the operation by id as they are. *)
Definition by_id {E A} (o : outcome E A) : outcome (by_spec_error E) A :=
  match o with Ok a => Ok a | Err e => Err (ById e) | Panic => Panic | Diverge => Diverge end.

(** src/value/decode.rs:64-72 [SymbolicSys::strict_deserialize_type]. *)
Definition sym_deserialize (fuel : nat) (c : config) (s : symbolic_sys) (p : type_spec) (data : bytes)
  : outcome (by_spec_error dec_error) typed_val :=
  let* id := ok_or (to_sem_id s p) (SpecAbsent p) in by_id (strict_deserialize_type fuel c (ss_types s) id data).

(** src/value/decode.rs:74-82 [SymbolicSys::strict_read_type]. *)
Definition sym_read (fuel : nat) (c : config) (s : symbolic_sys) (p : type_spec) (d : bytes)
  : outcome (by_spec_error dec_error) (typed_val * bytes) :=
  let* id := ok_or (to_sem_id s p) (SpecAbsent p) in by_id (strict_read_type fuel c (ss_types s) id d).

(** src/value/typify.rs:130-134 [SymbolicSys::typify]. *)
Definition sym_typify (fuel : nat) (s : symbolic_sys) (v : sval) (p : type_spec) : outcome (by_spec_error typ_error) typed_val :=
  let* id := ok_or (to_sem_id s p) (SpecAbsent p) in by_id (typify fuel (ss_types s) v id).

(** src/typesys/symbols.rs:146-149 [SymbolicSys::get]. *)
Definition sym_get (s : symbolic_sys) (p : type_spec) : option (ty semid) :=
  match to_sem_id s p with Some id => sys_get (ss_types s) id | None => None end.

(** src/typesys/symbols.rs:151-155 [SymbolicSys::type_tree]; a tree ([TypeTree], src/typesys/iter.rs:28-43) is given by the id
    of its root. *)
Definition sym_type_tree (s : symbolic_sys) (p : type_spec) : option semid :=
  match to_sem_id s p with
  | Some id => match sys_get (ss_types s) id with Some _ => Some id | None => None end
  | None => None
  end.

(** src/typesys/symbols.rs:86-92 [Index<&'static str> for Symbols]: panics if the name is absent. *)
Definition symbols_index (s : symbols) (name : bytes) : outcome Empty_set semid :=
  let* q := fqn_of_text name in match resolve s q with Some id => Ok id | None => Panic end.

(** src/typesys/translate.rs:74-89 [SemId as Translate<TypeSymbol>]: the id with its name, if it has one. *)
Definition to_symbol (s : symbolic_sys) (id : semid) : type_symbol := mkSymbol id (lookup (ss_symbols s) id).
