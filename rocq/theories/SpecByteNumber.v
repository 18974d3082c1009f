(** Specification: values which hold a number of the primitive type Byte. *)
From Coq Require Import NArith ZArith List Bool String.
From Verif Require Import Base Ty Ids Val TypeSys Spec.
Import ListNotations.
Local Open Scope N_scope.

(** Somewhere in the value of the type, items of fixed-size arrays apart, there is a number of the type Byte. *)
Inductive holds_byte (sys : type_system) : semid -> sval -> Prop :=
| HB_number id n :
    sys_find sys id = Some (TPrim P_BYTE) -> holds_byte sys id (VNum (Uint n))
| HB_variant id vs v r w :
    sys_find sys id = Some (TUnion vs) -> In (v, r) vs -> holds_byte sys r w ->
    holds_byte sys id (VUnion (Name (v_name v)) w)
| HB_component id fs l i f x :
    sys_find sys id = Some (TTuple fs) -> nth_error fs i = Some f -> nth_error l i = Some x -> holds_byte sys f x ->
    holds_byte sys id (VTuple l)
| HB_field id fs l n f x :
    sys_find sys id = Some (TStruct fs) -> In (n, f) fs -> In (n, x) l -> holds_byte sys f x ->
    holds_byte sys id (VStruct l)
| HB_item id r sz l x :
    sys_find sys id = Some (TList r sz) -> In x l -> holds_byte sys r x -> holds_byte sys id (VList l)
| HB_element id r sz l x :
    sys_find sys id = Some (TSet r sz) -> In x l -> holds_byte sys r x -> holds_byte sys id (VSet l)
| HB_key id k r sz l x :
    sys_find sys id = Some (TMap k r sz) -> In x (map fst l) -> holds_byte sys k x -> holds_byte sys id (VMap l)
| HB_value id k r sz l x :
    sys_find sys id = Some (TMap k r sz) -> In x (map snd l) -> holds_byte sys r x -> holds_byte sys id (VMap l).
