(** Properties of ids: C26-C30 and C43. *)
From Coq Require Import NArith List Bool String Strings.Byte Lia.
From Verif Require Import Base Sha256 Ty Ids Spec SpecIds IdProofs.
Import ListNotations.
Local Open Scope string_scope.
Local Open Scope N_scope.

(** Facts for the examples. *)
Definition ex_flat : ty semid := TStruct [("name", 5); ("value", 2 ^ 200)].
Lemma ex_flat_ok : ty_ok id_ok ex_flat.
Proof. cbn. repeat constructor; try name_tac; reflexivity. Qed.

Lemma sem_id_named_eq {R} (cr : R -> bytes) n t : sem_id_named cr n t = tagged_hash SEM_ID_TAG (sem_message cr (Some n) t).
Proof. reflexivity. Qed.
Lemma lib_id_eq l : lib_id l = tagged_hash LIB_ID_TAG (lib_message l).
Proof. reflexivity. Qed.
Lemma sys_id_eq s : sys_id s = tagged_hash TYPESYS_ID_TAG (sys_message s).
Proof. reflexivity. Qed.

(** ** C26: types over semantic ids *)

Theorem C26_message : forall t t' : ty semid, ty_ok id_ok t -> ty_ok id_ok t' ->
  sem_message commit_id None t = sem_message commit_id None t' -> t = t'.
Proof. exact commit_flat. Qed.
Example C26_message_case : sem_message commit_id None ex_flat <> sem_message commit_id None (TStruct [("name", 2 ^ 200); ("value", 5)]).
Proof.
  intros E. apply C26_message in E; [discriminate E|exact ex_flat_ok|].
  cbn. repeat constructor; try name_tac; reflexivity.
Qed.
Print Assumptions C26_message.

Theorem C26_id : forall t t' : ty semid, ty_ok id_ok t -> ty_ok id_ok t' ->
  sem_id_unnamed commit_id t = sem_id_unnamed commit_id t' ->
  t = t' \/ collision (tagged_message SEM_ID_TAG (sem_message commit_id None t))
                      (tagged_message SEM_ID_TAG (sem_message commit_id None t')).
Proof.
  intros t t' W W' E.
  assert (U : forall u : ty semid, sem_id_unnamed commit_id u = tagged_hash SEM_ID_TAG (sem_message commit_id None u)).
  { intros u. unfold sem_id_unnamed. destruct u as [| | | |[|r [|]]| | | | |]; reflexivity. }
  rewrite !U in E. apply tagged_hash_inj in E as [E|E]; [left|right; exact E]. now apply C26_message.
Qed.
Example C26_id_case : sem_id_unnamed commit_id ex_flat = sem_id_unnamed commit_id ex_flat -> ex_flat = ex_flat \/
  collision (tagged_message SEM_ID_TAG (sem_message commit_id None ex_flat)) (tagged_message SEM_ID_TAG (sem_message commit_id None ex_flat)).
Proof. exact (C26_id ex_flat ex_flat ex_flat_ok ex_flat_ok). Qed.
Print Assumptions C26_id.

(** ** C27: types of libraries *)

(** Types without definitions in place: the fields, variants, sizes are the same and the references point to the
    same ids. *)
Theorem C27_partial : forall name t t', name_ok name ->
  ty_ok libref_ok t -> ty_ok libref_ok t' -> by_id t -> by_id t' ->
  sem_id_named commit_libref name t = sem_id_named commit_libref name t' ->
  map_ty target t = map_ty target t'
  \/ collision (tagged_message SEM_ID_TAG (sem_message commit_libref (Some name) t))
               (tagged_message SEM_ID_TAG (sem_message commit_libref (Some name) t')).
Proof.
  intros name t t' N W W' B B' E. rewrite !sem_id_named_eq in E. apply tagged_hash_inj in E as [E|E]; [left|right; exact E].
  unfold sem_message in E. apply app_inv_head in E. now apply commit_by_id.
Qed.
Example C27_case : exists t, by_id t /\ ty_ok libref_ok t /\ t <> TUnicode /\ name_ok "Name".
Proof.
  exists (TStruct [("a", RNamed 5); ("b", RExtern (mkExtern 7 8))]).
  split; [repeat constructor|]. split; [cbn; repeat constructor; try name_tac; reflexivity|]. split; [discriminate|name_tac].
Qed.
Print Assumptions C27_partial.

(** Two types with different names have different messages, whatever their definitions are. *)
Theorem C27_names : forall R S (cr : R -> bytes) (cs : S -> bytes) name name' (t : ty R) (t' : ty S),
  name_ok name -> name_ok name' -> sem_id_named cr name t = sem_id_named cs name' t' ->
  name = name' \/ collision (tagged_message SEM_ID_TAG (sem_message cr (Some name) t))
                            (tagged_message SEM_ID_TAG (sem_message cs (Some name') t')).
Proof.
  intros R S cr cs name name' t t' N N' E. rewrite !sem_id_named_eq in E. apply tagged_hash_inj in E as [E|E]; [left|right; exact E].
  unfold sem_message in E. now apply prefix_name in E as [E _].
Qed.
Example C27_names_case : name_ok "First" /\ name_ok "Second".
Proof. split; name_tac. Qed.
Print Assumptions C27_names.

(** With definitions in place there are different types with one id and no collision of the hash function:
    the end of an inner structure (or tuple) is not committed to. *)
Definition outer_after : ty lib_ref :=
  TStruct [("inner", RInline (TStruct [("a", RNamed 1)])); ("b", RNamed 2)].
Definition outer_inside : ty lib_ref :=
  TStruct [("inner", RInline (TStruct [("a", RNamed 1); ("b", RNamed 2)]))].
Theorem C27_refuted : exists t t', ty_ok libref_ok t /\ ty_ok libref_ok t' /\ t <> t'
  /\ forall name, sem_id_named commit_libref name t = sem_id_named commit_libref name t'.
Proof.
  exists outer_after, outer_inside. split; [|split; [|split]].
  - cbn. repeat constructor; try name_tac; reflexivity.
  - cbn. repeat constructor; try name_tac; reflexivity.
  - discriminate.
  - intros name. rewrite !sem_id_named_eq. f_equal.
Qed.
Print Assumptions C27_refuted.

(** Hence different libraries with one library id. *)
Theorem C27_library_refuted : exists l l', lib_ok l /\ lib_ok l' /\ l_types l <> l_types l' /\ lib_id l = lib_id l'.
Proof.
  exists (mkLib "Lib" [] [] [("Outer", outer_after)]), (mkLib "Lib" [] [] [("Outer", outer_inside)]).
  split; [|split; [|split]].
  - split; [name_tac|]. repeat constructor.
  - split; [name_tac|]. repeat constructor.
  - discriminate.
  - rewrite !lib_id_eq. f_equal.
Qed.
Print Assumptions C27_library_refuted.

(** ** C28: named and unnamed types *)

(** Unnamed primitive types, characters, enumerations, unions and structures. *)
Theorem C28_partial : forall R S (cr : R -> bytes) (cs : S -> bytes) name (t : ty R) (u : ty S) ok,
  name_ok name -> ty_ok ok u ->
  match u with TPrim _ | TUnicode | TEnum _ | TUnion _ | TStruct _ => True | _ => False end ->
  sem_message cr (Some name) t <> sem_message cs None u.
Proof. intros R S cr cs name t u ok. apply named_unnamed. Qed.
Example C28_case : forall t : ty lib_ref,
  sem_message commit_libref (Some "Named") t <> sem_message commit_id None ex_flat.
Proof. intros t. apply (C28_partial _ _ _ _ _ _ _ id_ok); [name_tac|exact ex_flat_ok|exact I]. Qed.
Print Assumptions C28_partial.

(** Not for lists (similarly tuples, arrays, sets, maps) of items with a specially made id: the id holds the rest of the
    name and the beginning of the definition. *)
Theorem C28_refuted : exists name (t u : ty semid), name_ok name /\ ty_ok id_ok t /\ ty_ok id_ok u
  /\ sem_message commit_id (Some name) t = sem_message commit_id None u.
Proof.
  (* the enumeration with one variant takes 1 + 1 + 37 + 1 bytes after 9 bytes of the name with its length *)
  set (v := "aaaaaaaaaaaaaaaaaaaaaaaaaaaaaaaaaaaaa").
  exists "Aaaaaaaa", (TEnum [mkVariant v 1]).
  exists (TList (unbe (sbytes "Aaaaaaaa" ++ [b8 3; b8 37] ++ sbytes "aaaaaaaaaaaaaaaaaaaaaa"))%list
                (mkSizing (unle (sbytes "aaaaaaaa")) (unle (sbytes "aaaaaaa" ++ [b8 1])%list))).
  split; [name_tac|]. split; [|split].
  - cbn. constructor; [|constructor]. split; [name_tac|reflexivity].
  - cbn. split; [reflexivity|split; reflexivity].
  - vm_compute. reflexivity.
Qed.
Print Assumptions C28_refuted.

(** ** C29: libraries *)

Theorem C29_library : forall l l', lib_ok l -> lib_ok l' -> lib_id l = lib_id l' ->
  (l_name l = l_name l' /\ map d_id (l_deps l) = map d_id (l_deps l') /\ map lib_type_id (l_types l) = map lib_type_id (l_types l'))
  \/ collision (tagged_message LIB_ID_TAG (lib_message l)) (tagged_message LIB_ID_TAG (lib_message l')).
Proof.
  intros l l' W W' E. rewrite !lib_id_eq in E. apply tagged_hash_inj in E as [E|E]; [left|right; exact E]. now apply lib_message_inj.
Qed.
Example C29_case : lib_ok (mkLib "Lib" [mkDep 5 "Dep"] [] [("Outer", outer_after)]).
Proof. split; [name_tac|]. repeat constructor. Qed.
Print Assumptions C29_library.

Lemma map_cons_inv {A B} (f : A -> B) x y a b : map f (x :: a) = map f (y :: b) -> f x = f y /\ map f a = map f b.
Proof. cbn. intros E. injection E. auto. Qed.
Lemma lib_type_id_eq n t : lib_type_id (n, t) = sem_id_named commit_libref n t.
Proof. reflexivity. Qed.

(** Libraries of types without definitions in place are the same up to library names of the dependencies, the table of
    external names, and the library part of external references. *)
Theorem C29_types : forall l l', lib_ok l -> lib_ok l' -> lib_id l = lib_id l' ->
  Forall (fun nt => name_ok (fst nt) /\ ty_ok libref_ok (snd nt) /\ by_id (snd nt)) (l_types l ++ l_types l')%list ->
  map (fun nt => (fst nt, map_ty target (snd nt))) (l_types l) = map (fun nt => (fst nt, map_ty target (snd nt))) (l_types l')
  \/ exists m m', collision m m'.
Proof.
  intros l l' W W' E F. apply C29_library in E as [(_ & _ & E)|E]; auto; [|eauto].
  apply Forall_app in F as [F F']. revert F F' E. generalize (l_types l) as a, (l_types l') as b. clear.
  induction a as [|[n t] a IH]; intros [|[n' t'] b] F F' E;
    [now left|apply (f_equal (@List.length _)) in E; rewrite !map_length in E; discriminate E
    |apply (f_equal (@List.length _)) in E; rewrite !map_length in E; discriminate E|].
  inversion F as [|? ? (N & T & B) F1]; inversion F' as [|? ? (N' & T' & B') F1']; subst.
  apply map_cons_inv in E as [E1 E]. rewrite !lib_type_id_eq in E1. cbn [fst snd] in N, N', T, T', B, B'.
  destruct (IH b F1 F1' E) as [E2|C]; [|now right].
  destruct (C27_names _ _ _ _ _ _ _ _ N N' E1) as [->|C]; [|right; eauto].
  destruct (C27_partial _ _ _ N T T' B B' E1) as [E3|C]; [|right; eauto].
  left. cbn. now rewrite E2, E3.
Qed.
Example C29_types_case : Forall (fun nt => name_ok (fst nt) /\ ty_ok libref_ok (snd nt) /\ by_id (snd nt))
  [("First", TStruct [("a", RNamed 5); ("b", RExtern (mkExtern 7 8))]); ("Second", TTuple [RNamed 6])].
Proof.
  constructor; [|constructor; [|constructor]]; (split; [name_tac|]); split; cbn; repeat constructor; try name_tac; reflexivity.
Qed.
Print Assumptions C29_types.

(** ** C30: type systems *)

Theorem C30_system : forall s s', sys_ok s -> sys_ok s' -> sys_id s = sys_id s' ->
  map fst s = map fst s' \/ collision (tagged_message TYPESYS_ID_TAG (sys_message s)) (tagged_message TYPESYS_ID_TAG (sys_message s')).
Proof.
  intros s s' W W' E. rewrite !sys_id_eq in E. apply tagged_hash_inj in E as [E|E]; [left|right; exact E]. now apply sys_message_inj.
Qed.
Example C30_case : sys_ok [(5, ex_flat); (2 ^ 100, TUnicode)].
Proof. split; [reflexivity|]. repeat constructor. Qed.
Print Assumptions C30_system.

(** ** C43: ids of types, libraries and type systems are of separate domains *)

Lemma tags_differ tag tag' m m' : sha256 tag <> sha256 tag' -> tagged_message tag m <> tagged_message tag' m'.
Proof.
  intros N E. unfold tagged_message in E. apply app_split in E as [E _]; [auto|]. now rewrite !sha256_length.
Qed.

Lemma sem_lib_tags : sha256 SEM_ID_TAG <> sha256 LIB_ID_TAG.
Proof. intros Q. apply (f_equal unbe) in Q. vm_compute in Q. discriminate Q. Qed.
Lemma sem_sys_tags : sha256 SEM_ID_TAG <> sha256 TYPESYS_ID_TAG.
Proof. intros Q. apply (f_equal unbe) in Q. vm_compute in Q. discriminate Q. Qed.
Lemma lib_sys_tags : sha256 LIB_ID_TAG <> sha256 TYPESYS_ID_TAG.
Proof. intros Q. apply (f_equal unbe) in Q. vm_compute in Q. discriminate Q. Qed.

Theorem C43_domains : forall tag tag' m m',
  In tag [SEM_ID_TAG; LIB_ID_TAG; TYPESYS_ID_TAG] -> In tag' [SEM_ID_TAG; LIB_ID_TAG; TYPESYS_ID_TAG] -> tag <> tag' ->
  tagged_hash tag m = tagged_hash tag' m' -> collision (tagged_message tag m) (tagged_message tag' m').
Proof.
  intros tag tag' m m' I I' N E.
  assert (D : sha256 tag <> sha256 tag').
  { destruct I as [<-|[<-|[<-|[]]]], I' as [<-|[<-|[<-|[]]]];
    [exact (False_ind _ (N eq_refl)) | exact sem_lib_tags | exact sem_sys_tags
    |exact (not_eq_sym sem_lib_tags) | exact (False_ind _ (N eq_refl)) | exact lib_sys_tags
    |exact (not_eq_sym sem_sys_tags) | exact (not_eq_sym lib_sys_tags) | exact (False_ind _ (N eq_refl))]. }
  split; [now apply tags_differ|].
  unfold tagged_hash, id_of_bytes in E.
  rewrite <- (be_unbe (sha256 (tagged_message tag m))), <- (be_unbe (sha256 (tagged_message tag' m'))), E, !sha256_length. reflexivity.
Qed.
Example C43_case : In SEM_ID_TAG [SEM_ID_TAG; LIB_ID_TAG; TYPESYS_ID_TAG] /\ In LIB_ID_TAG [SEM_ID_TAG; LIB_ID_TAG; TYPESYS_ID_TAG]
  /\ SEM_ID_TAG <> LIB_ID_TAG.
Proof. split; [now left|]. split; [right; now left|]. intros E. apply (f_equal unbe) in E. vm_compute in E. discriminate E. Qed.
Print Assumptions C43_domains.
