(** Specification for the compilation of libraries. *)
From Coq Require Import NArith List Bool String Sorted.
From Verif Require Import Base Ty Ids TypeSys LibCodec Spec SpecLib.
Import ListNotations.
Local Open Scope N_scope.

(** Two types of the same structure, with related references in the same places. *)
Definition ty_related {A B} (rel : A -> B -> Prop) (t : ty A) (t' : ty B) : Prop :=
  match t, t' with
  | TPrim p, TPrim p' => p = p'
  | TUnicode, TUnicode => True
  | TEnum vs, TEnum vs' => vs = vs'
  | TUnion vs, TUnion vs' => Forall2 (fun a b => fst a = fst b /\ rel (snd a) (snd b)) vs vs'
  | TStruct fs, TStruct fs' => Forall2 (fun a b => fst a = fst b /\ rel (snd a) (snd b)) fs fs'
  | TTuple fs, TTuple fs' => Forall2 rel fs fs'
  | TArray r n, TArray r' n' => rel r r' /\ n = n'
  | TList r s, TList r' s' => rel r r' /\ s = s'
  | TSet r s, TSet r' s' => rel r r' /\ s = s'
  | TMap k r s, TMap k' r' s' => rel k k' /\ rel r r' /\ s = s'
  | _, _ => False
  end.

(** [names] tells which id stands for a name: embedded types stay in place, names become ids, references
    to types of other libraries keep the ids of the library and of the type. There are three levels of
    types in place. *)
Definition ref_compiled {I} (names : string -> semid -> Prop) (inner : ty tref -> I -> Prop) (r : tref) (r' : gref I) : Prop :=
  match r, r' with
  | TrEmbedded t, RInline t' => inner t t'
  | TrNamed n, RNamed id => names n id
  | TrExtern e, RExtern e' => er_lib e' = sr_libid e /\ er_id e' = sr_id e
  | _, _ => False
  end.
Definition ref2_compiled names : tref -> inline_ref2 -> Prop := ref_compiled names (fun _ _ => False).
Definition ref1_compiled names : tref -> inline_ref1 -> Prop := ref_compiled names (ty_related (ref2_compiled names)).
Definition ref0_compiled names : tref -> inline_ref -> Prop := ref_compiled names (ty_related (ref1_compiled names)).
Definition libref_compiled names : tref -> lib_ref -> Prop := ref_compiled names (ty_related (ref0_compiled names)).

(** The library has a type with this name and this semantic id. *)
Definition named_in (l : type_lib) (n : string) (id : semid) : Prop :=
  exists t, In (n, t) (l_types l) /\ id = sem_id_named commit_libref n t.

(** The first item which satisfies [p]. *)
Definition first {A} (p : A -> Prop) (l : list A) (x : A) : Prop :=
  exists before after, l = before ++ x :: after /\ p x /\ Forall (fun y => ~ p y) before.

(** The dependencies which are used: those with names of libraries whose types are used; the name ["_"]
    stands for embedded types. *)
Definition dep_used (libs : list string) (deps : list dependency) (d : dependency) : Prop :=
  exists lib, In lib libs /\ lib <> "_"%string /\ first (fun d => d_name d = lib) deps d.

(** [l] is a result of resolution of all names of [s] in [l]. *)
Definition lib_compiled (s : sym_lib) (l : type_lib) : Prop :=
  l_name l = y_name s
  /\ l_extern l = y_extern s
  /\ increasing (fun a b => d_id a < d_id b) (l_deps l)
  /\ (forall d, In d (l_deps l) <-> dep_used (map fst (y_extern s)) (y_deps s) d)
  /\ Forall2 (fun a b => fst a = fst b /\ ty_related (libref_compiled (named_in l)) (snd a) (snd b)) (y_types s) (l_types l).

(** Names mentioned in a reference, also deep inside of embedded types. *)
Inductive mentions : tref -> string -> Prop :=
| mentions_named n : mentions (TrNamed n) n
| mentions_embedded t r n : In r (refs t) -> mentions r n -> mentions (TrEmbedded t) n.

(** Embedded types nested not deeper than [n] levels. *)
Fixpoint nested (n : nat) (r : tref) : Prop :=
  match r with
  | TrEmbedded t => match n with O => False | S n => Forall (nested n) (refs t) end
  | _ => True
  end.

(** The type named [n] mentions [m] in its definition. *)
Definition uses (s : sym_lib) (n m : string) : Prop :=
  exists t r, In (n, t) (y_types s) /\ In r (refs t) /\ mentions r m.
(** No type depends on itself: the uses go from a greater rank to a lower one. *)
Definition lib_acyclic (s : sym_lib) : Prop :=
  exists rank : string -> nat, forall n m, uses s n m -> (rank m < rank n)%nat.
(** All the mentioned names are defined in the library. *)
Definition lib_resolvable (s : sym_lib) : Prop :=
  forall n m, uses s n m -> In m (map fst (y_types s)).
(** All definitions have at most three levels of embedded types. *)
Definition lib_nested (s : sym_lib) : Prop :=
  Forall (fun e => Forall (nested 3) (refs (snd e))) (y_types s).
(** All libraries with types in use are among dependencies. *)
Definition lib_known (s : sym_lib) : Prop :=
  forall lib, In lib (map fst (y_extern s)) -> lib <> "_"%string -> exists d, In d (y_deps s) /\ d_name d = lib.

(** Types are in the order of their names, dependencies in the order of ids, each once: as [BTreeMap] and
    [BTreeSet] keep them. *)
Definition lib_ordered (s : sym_lib) : Prop :=
  increasing (by_key name_lt) (y_types s) /\ increasing (fun a b => d_id a < d_id b) (y_deps s).

(** Two types with different names have the same id. *)
Definition ids_collide (l : type_lib) : Prop :=
  exists n t n' t', In (n, t) (l_types l) /\ In (n', t') (l_types l) /\ n <> n'
                    /\ sem_id_named commit_libref n t = sem_id_named commit_libref n' t'.

(** References to types of other libraries, also deep inside of embedded types. *)
Inductive mentions_extern : tref -> symbol_ref -> Prop :=
| mentions_extern_here e : mentions_extern (TrExtern e) e
| mentions_extern_embedded t r e : In r (refs t) -> mentions_extern r e -> mentions_extern (TrEmbedded t) e.
(** Each type of another library is listed, under its id and its name, among the types used from the
    dependency which has the name and the id of that library. No two dependencies have the same name. *)
Definition externs_listed (s : sym_lib) : Prop :=
  NoDup (map d_name (y_deps s))
  /\ forall n t r e, In (n, t) (y_types s) -> In r (refs t) -> mentions_extern r e ->
     sr_lib e <> "_"%string /\ In (mkDep (sr_libid e) (sr_lib e)) (y_deps s)
     /\ exists types, In (sr_lib e, types) (y_extern s) /\ In (sr_id e, sr_name e) types.
