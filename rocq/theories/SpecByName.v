(** Specification of the operations on types given by name. *)
From Coq Require Import NArith List String.
From Verif Require Import Base Ty Ids TypeSys LibCodec Build SpecBuild Text ByName.

(** One of the libraries has a type with this name. *)
Definition defined_name (ls : list type_lib) (q : type_fqn) : Prop :=
  exists l t, In l ls /\ l_name l = q_lib q /\ In (q_name q, t) (l_types l).

(** Among all definitions, those in place within others included, the ones of the name are the ones with the id. *)
Definition only_name (ls : list type_lib) (q : type_fqn) (id : semid) : Prop :=
  forall d, In d (libs_defs ls) -> (def_id d = id <-> def_fqn d = Some q).

(** Two operations have the same result; errors of the first one are reported by the second one as they are. *)
Definition same_result {E A} (o : outcome E A) (o' : outcome (by_spec_error E) A) : Prop :=
  match o, o' with
  | Ok a, Ok b => a = b
  | Err e, Err (ById e') => e = e'
  | Panic, Panic | Diverge, Diverge => True
  | _, _ => False
  end.
