(** Specification notions for assembling type systems, independent of the code. *)
From Coq Require Import NArith List Bool String.
From Verif Require Import Base Ty Ids Spec SpecIds LibCodec Build.
Import ListNotations.
Local Open Scope N_scope.

(** The id to which a reference points: its own, or the one of the definition in place. *)
Definition ref2_id (r : inline_ref2) : semid :=
  match r with RInline e => match e with end | RNamed id => id | RExtern e => er_id e end.
Definition ref1_id (r : inline_ref1) : semid :=
  match r with RInline t => sem_id_unnamed commit_ref2 t | RNamed id => id | RExtern e => er_id e end.
Definition ref0_id (r : inline_ref) : semid :=
  match r with RInline t => sem_id_unnamed commit_ref1 t | RNamed id => id | RExtern e => er_id e end.
Definition libref_id (r : lib_ref) : semid :=
  match r with RInline t => sem_id_unnamed commit_ref0 t | RNamed id => id | RExtern e => er_id e end.

(** A definition: its id, its name if it has one, and the type with references replaced by ids. *)
Definition definition := (semid * sym_ty)%type.
Definition def_id (d : definition) : semid := fst d.
Definition def_ty (d : definition) : ty semid := st_ty (snd d).
Definition def_fqn (d : definition) : option type_fqn := st_orig (snd d).

(** All definitions given by a reference, by a type of a library, by a library and by several libraries. *)
Definition ref1_defs (r : inline_ref1) : list definition :=
  match r with
  | RInline t => [(ref1_id r, mkSymTy None (map_ty ref2_id t))]
  | _ => []
  end.
Definition ref0_defs (r : inline_ref) : list definition :=
  match r with
  | RInline t => flat_map ref1_defs (refs t) ++ [(ref0_id r, mkSymTy None (map_ty ref1_id t))]
  | _ => []
  end.
Definition libref_defs (r : lib_ref) : list definition :=
  match r with
  | RInline t => flat_map ref0_defs (refs t) ++ [(libref_id r, mkSymTy None (map_ty ref0_id t))]
  | _ => []
  end.
Definition type_defs (lib : string) (nt : string * ty lib_ref) : list definition :=
  flat_map libref_defs (refs (snd nt))
  ++ [(lib_type_id nt, mkSymTy (Some (mkFqn lib (fst nt))) (map_ty libref_id (snd nt)))].
Definition lib_defs (l : type_lib) : list definition := flat_map (type_defs (l_name l)) (l_types l).
Definition libs_defs (ls : list type_lib) : list definition := flat_map lib_defs ls.

(** An id stands for one type only. It can be broken by a collision of the hash function or by
    definitions in place, see [C27_refuted]. *)
Definition consistent (ds : list definition) : Prop :=
  forall d d', In d ds -> In d' ds -> def_id d = def_id d' -> def_ty d = def_ty d'.

(** A library is needed by one of [ls] while it is not among them. *)
Definition missing (ls : list type_lib) (id : libid) : Prop :=
  (exists l d, In l ls /\ In d (l_deps l) /\ d_id d = id) /\ forall l, In l ls -> lib_id l <> id.

(** No type of the libraries has more components than can be iterated over. *)
Definition defs_iterable (dbg : bool) (ds : list definition) : Prop :=
  forall d, In d ds -> lenN (refs (def_ty d)) <= if dbg then 254 else 255.

(** Importing libraries into an empty builder and finalizing. *)
Definition build (dbg : bool) (ls : list type_lib) : outcome (list build_error) symbolic_sys :=
  match import_all builder_new ls with
  | Ok b => finalize dbg b
  | Err e => Err [e]
  | Panic => Panic
  | Diverge => Diverge
  end.
