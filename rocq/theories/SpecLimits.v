(** Specification of the ways to obtain type systems, independent of the code of the theorems. *)
From Coq Require Import NArith List Bool String.
From Verif Require Import Base Ty Ids TypeSys Spec SpecSys LibCodec SpecLib Build SpecBuild.
Import ListNotations.
Local Open Scope N_scope.

(** Type systems obtained from given ones by extending one with another and by extracting types, any number of times in
    any order; the empty one is always there. *)
Inductive grown (given : type_system -> Prop) : type_system -> Prop :=
| Gr_given s : given s -> grown given s
| Gr_new : grown given []
| Gr_extend s other s' : grown given s -> grown given other -> sys_extend s other = Ok s' -> grown given s'
| Gr_extract c ids s s' : grown given s -> returns (fun fuel => extract fuel c s ids) (Ok s') -> grown given s'.

(** Systems built from libraries; with [d] from libraries whose enumerations and unions have names as [d] requires. *)
Definition from_libs (d : list string -> Prop) (s : type_system) : Prop :=
  exists dbg ls sys, Forall (lib_with d) ls /\ build dbg ls = Ok sys /\ s = ss_types sys.

(** Systems read from any data, with symbols or without. *)
Definition from_data (s : type_system) : Prop :=
  exists b, deserialize dec_sys b = Some s \/ exists sys, deserialize dec_symsys b = Some sys /\ s = ss_types sys.

(** What the documentation promises about the number of types, about the size of the serialized system, and about the
    references. *)
Definition few_types (s : type_system) : Prop := lenN s <= 2 ^ 24 - 1.
Definition short (s : type_system) : Prop := lenN (enc_sys s) < 2 ^ 24.
