(** Specification of type systems with recursive types, independent of the code. *)
From Coq Require Import NArith List Bool String.
From Verif Require Import Base Ty Ids TypeSys Spec.
Import ListNotations.
Local Open Scope string_scope.
Local Open Scope list_scope.
Local Open Scope N_scope.

(** The components which come one after another in the data, with nothing before them. *)
Definition fields_of (t : ty semid) : list semid :=
  match t with TTuple fs => fs | TStruct fs => map snd fs | TArray r _ => [r] | _ => [] end.
(** Types each value of which has at least one byte, by their form alone. *)
Definition takes_data (sys : type_system) (id : semid) : Prop :=
  match sys_find sys id with
  | Some (TPrim p) => p <> P_UNIT
  | Some (TEnum _) | Some (TUnion _) | Some (TList _ _) | Some (TSet _ _) | Some (TMap _ _ _) => True
  | _ => False
  end.
(** Recursion goes on only after some data: whenever no earlier field takes data, the rank gets lower. Hence recursive
    types are allowed, when the recursion goes through unions, lists, sets and maps, or comes after such a field. *)
Definition data_guarded (sys : type_system) : Prop :=
  exists rank : semid -> nat, forall id t before r after, sys_find sys id = Some t -> fields_of t = before ++ r :: after ->
    (rank r < rank id)%nat \/ Exists (takes_data sys) before.

(** The components which may stand for the whole value: the content of a newtype and of an option. *)
Definition contents_of (t : ty semid) : list semid :=
  match t with
  | TTuple [f] => [f]
  | TUnion [(mkVariant "none" 0, _); (mkVariant "some" 1, r)] => [r]
  | _ => []
  end.
(** No newtype or option is inside of itself by way of newtypes and options only. *)
Definition value_guarded (sys : type_system) : Prop :=
  exists rank : semid -> nat, forall id t r, sys_find sys id = Some t -> In r (contents_of t) -> (rank r < rank id)%nat.
