(** Specification for assembling a library. *)
From Coq Require Import NArith List String.
From Verif Require Import Base Ty Ids SpecLib.
Local Open Scope N_scope.

(** The dependencies are in the order of their ids and at most 255; the types in the order of their names and at most
    65535. *)
Definition ordered (l : type_lib) : Prop :=
  increasing (fun a b => d_id a < d_id b) (l_deps l) /\ increasing (by_key name_lt) (l_types l)
  /\ lenN (l_deps l) <= 255 /\ lenN (l_types l) <= 65535.
(** Libraries which differ in dependencies only, and in types only. *)
Definition same_but_deps (l l' : type_lib) : Prop := l_name l' = l_name l /\ l_extern l' = l_extern l /\ l_types l' = l_types l.
Definition same_but_types (l l' : type_lib) : Prop := l_name l' = l_name l /\ l_extern l' = l_extern l /\ l_deps l' = l_deps l.
