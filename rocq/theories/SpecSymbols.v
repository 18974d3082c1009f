(** Specification for resolving the references of a library. *)
From Coq Require Import NArith List String.
From Verif Require Import Base Ty Ids Spec LibCodec SpecLib Transpile.
Local Open Scope N_scope.

(** What the maps of a builder guarantee: one type per name, one set per library, one entry per dependency. Moreover no
    two dependencies have the same name, none of the types is of the nameless library, and no type has more than 254
    components. *)
Definition gathered (b : lib_builder) : Prop :=
  NoDup (map fst (lb_types b)) /\ NoDup (map fst (lb_extern b)) /\ ~ In "_"%string (map fst (lb_extern b))
  /\ NoDup (map (fun k => d_id (fst k)) (lb_known b)) /\ NoDup (map (fun k => d_name (fst k)) (lb_known b))
  /\ (forall n t, In (n, t) (lb_types b) -> lenN (refs t) <= 254).

(** A type has a component with the name of no type. *)
Definition unknown_type (b : lib_builder) (n : string) (t : ty tref) : Prop :=
  exists m, In (m, t) (lb_types b) /\ In (TrNamed n) (refs t) /\ ~ In n (map fst (lb_types b)).
(** Types of a library are used which is none of the dependencies. *)
Definition unknown_lib (b : lib_builder) (lib : string) : Prop :=
  In lib (map fst (lb_extern b)) /\ forall k, In k (lb_known b) -> d_name (fst k) <> lib.
(** The dependency is known with all of its types, and the type in use is none of them. *)
Definition missing_type (b : lib_builder) (lib : string) (id : semid) (n : string) : Prop :=
  exists ids d types, In (lib, ids) (lb_extern b) /\ In (id, n) ids /\ In (d, Some types) (lb_known b) /\ d_name d = lib /\ ~ In id types.

(** The library has the types, the types of other libraries, and the dependencies from which types are used. *)
Definition gathered_as (b : lib_builder) (s : sym_lib) : Prop :=
  y_name s = lb_lib b
  /\ increasing (by_key name_lt) (y_types s) /\ (forall e, In e (y_types s) <-> In e (lb_types b))
  /\ increasing (by_key name_lt) (y_extern s) /\ (forall e, In e (y_extern s) <-> In e (lb_extern b))
  /\ increasing (fun a b => d_id a < d_id b) (y_deps s)
  /\ (forall d, In d (y_deps s) <-> (exists o, In (d, o) (lb_known b)) /\ In (d_name d) (map fst (lb_extern b))).
