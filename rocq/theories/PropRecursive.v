(** Termination with recursive types: C15. *)
From Coq Require Import NArith ZArith List Bool String Ascii Strings.Byte Lia.
From Verif Require Import Base Ty Ids Val TypeSys Encode Decode DecodeShort Typify Spec SpecTypify SpecRecursive CodecProofs ExampleSys RecursiveProofs.
Import ListNotations.
Local Open Scope N_scope.

(** ** Recursive types which are read *)

(** Reading returns for all data when recursion goes on only after some data were taken. *)
Theorem C15_reading_partial : forall c sys id data, data_guarded sys ->
  exists r, r <> Diverge /\ returns (fun fuel => strict_deserialize_type fuel c sys id data) r.
Proof. intros c sys id data G. now apply guarded_deserialize. Qed.
Print Assumptions C15_reading_partial.

(** ** Recursive types which are typed *)

(** Typing returns for all values when no newtype or option contains itself by way of newtypes and options only. *)
Theorem C15_typing_partial : forall sys v id, value_guarded sys ->
  exists r, r <> Diverge /\ returns (fun fuel => typify fuel sys v id) r.
Proof. intros sys v id G. now apply guarded_typify. Qed.
Print Assumptions C15_typing_partial.

(** *** A chain and a tree *)

(** [Node = value U8, next Node?] and [Tree = leaf U8 | forks {Tree ^ 0..0xFF}]. *)
Definition ex_node : type_system :=
  [(1, TPrim P_U8);
   (2, TPrim P_UNIT);
   (3, TUnion [(mkVariant "none" 0, 2); (mkVariant "some" 1, 4)]);
   (4, TStruct [("value"%string, 1); ("next"%string, 3)]);
   (5, TUnion [(mkVariant "leaf" 0, 1); (mkVariant "forks" 1, 6)]);
   (6, TList 5 (mkSizing 0 255))].

Lemma entries (sys : type_system) id t : sys_find sys id = Some t -> In (id, t) sys.
Proof.
  unfold sys_find. destruct (find (fun e => fst e =? id) sys) as [e|] eqn:E; [|discriminate]. intros [= <-].
  apply find_some in E as [I E]. apply N.eqb_eq in E. subst id. now destruct e.
Qed.

Example C15_reading_case : data_guarded ex_node /\ ~ acyclic ex_node.
Proof.
  split.
  - exists (fun id => if id =? 4 then 1%nat else 0%nat). intros id t before r after F Q.
    apply entries in F. cbn [ex_node In] in F.
    repeat (destruct F as [F|F]; [injection F as <- <-; cbn in Q|]); try destruct F;
      try (destruct before; discriminate Q).
    destruct before as [|b [|b' [|b'' before]]]; try discriminate Q; try (destruct before; discriminate Q).
    + injection Q as <- <-. left. cbn. lia.
    + injection Q as <- <- <-. left. cbn. lia.
  - intros [rank R].
    assert (A := R 4 (TStruct [("value"%string, 1); ("next"%string, 3)]) 3 eq_refl (or_intror (or_introl eq_refl))).
    assert (B := R 3 (TUnion [(mkVariant "none" 0, 2); (mkVariant "some" 1, 4)]) 4 eq_refl (or_intror (or_introl eq_refl))).
    lia.
Qed.
Example C15_typing_case : value_guarded ex_node.
Proof.
  exists (fun id => if id =? 3 then 1%nat else 0%nat). intros id t r F I.
  apply entries in F. cbn [ex_node In] in F.
  repeat (destruct F as [F|F]; [injection F as <- <-; cbn in I|]); try destruct F;
    try (match type of I with False => destruct I end).
  destruct I as [<-|[]]. cbn. lia.
Qed.
(** Two nodes are read, and typed. *)
Definition ex_chain : sval :=
  VStruct [("value"%string, VNum (Uint 7)); ("next"%string,
    v_some (VStruct [("value"%string, VNum (Uint 8)); ("next"%string, v_none)]))].
Example C15_chain_read :
  strict_deserialize_type 9 ex_config ex_node 4 [x07; x01; x08; x00] = Ok (mkTyped 4 ex_chain).
Proof. vm_compute. reflexivity. Qed.
Example C15_chain_typed : typify 9 ex_node ex_chain 4 = Ok (mkTyped 4 ex_chain).
Proof. vm_compute. reflexivity. Qed.

(** ** Recursive types which are not read *)

(** Reading never ends for any data, when following first fields from the type never leads to anything but structures
    and tuples (tuples of two fields are left aside: they may be restricted strings). *)
Theorem C15_endless : forall c sys (inside : semid -> Prop) id,
  (forall id, inside id -> exists r,
    ((exists rest, List.length rest <> 1%nat /\ sys_find sys id = Some (TTuple (r :: rest)))
     \/ exists n rest, sys_find sys id = Some (TStruct ((n, r) :: rest)))
    /\ inside r) ->
  inside id ->
  forall fuel data, strict_deserialize_type fuel c sys id data = Diverge.
Proof.
  intros c sys inside id H I fuel data. unfold strict_deserialize_type, strict_read_type.
  enough (E : forall fuel id d, inside id -> read_type fuel c sys id d = Diverge) by now rewrite E.
  clear id I fuel data. induction fuel as [|fuel IH]; intros id d I; [reflexivity|].
  destruct (H id I) as (r & F & J). cbn [read_type].
  destruct F as [(rest & L & F)|(n & named & F)]; rewrite F; cbn [ok_or bind]; unfold read_ty.
  - unfold is_rstring. replace (lenN (r :: rest) =? 2) with false.
    + cbn [negb lift_unknown bind read_seq]. rewrite (IH r d J). reflexivity.
    + symmetry. apply N.eqb_neq. unfold lenN. cbn [List.length]. lia.
  - cbn [read_seq snd]. rewrite (IH r d J). reflexivity.
Qed.
Print Assumptions C15_endless.

(** [A = B] and [B = next A, value U8]. *)
Example C15_endless_case : forall fuel data,
  strict_deserialize_type fuel ex_config
    [(1, TPrim P_U8); (2, TTuple [3]); (3, TStruct [("next"%string, 2); ("value"%string, 1)])] 2 data = Diverge.
Proof.
  apply (C15_endless _ _ (fun id => id = 2 \/ id = 3)); [|now left].
  intros id [->| ->].
  - exists 3. split; [left; exists []; split; [discriminate|reflexivity]|now right].
  - exists 2. split; [right; eexists _, _; reflexivity|now left].
Qed.
