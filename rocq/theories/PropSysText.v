(** Properties of the text of type systems and of compiled libraries: C70, C71. *)
From Coq Require Import NArith Arith List Bool String Ascii Strings.Byte Lia.
From Verif Require Import Base Ty Ids TypeSys LibCodec Build Ston Sty Text SysText SpecSty SpecSysText Spec SpecIds StyProofs
  SysTextProofs PropSty.
From Verif Require StonProofs.
Import ListNotations.
Local Open Scope string_scope.
Local Open Scope N_scope.
Local Open Scope list_scope.

(** Ids with a prefix, as in the text of Baid64. *)
Definition ex_id (id : N) : bytes := sbytes "semid:" ++ show_N id.
Lemma ex_id_legible : ids_legible prim_sty ex_id.
Proof.
  split; [|intros a b E; apply StonProofs.show_N_inj; now apply app_inv_head in E].
  intros id. assert (C : In x3a (ex_id id)) by (unfold ex_id; rewrite in_app_iff; left; cbn; auto 10). split; [|split].
  - split; [discriminate|]. split; [|discriminate]. unfold ex_id. rewrite forallb_app. destruct (show_N_word id) as [_ F].
    rewrite andb_true_iff. split; [reflexivity|]. rewrite forallb_forall in *. intros b I. unfold label_byte. now rewrite (F b I).
  - intros E. rewrite E in C. cbn in C. repeat destruct C as [C|C]; try discriminate C; exact C.
  - intros c B E. rewrite E in C. destruct (proj1 prim_sty_legible c B) as [P|[[_ W] _]].
    + rewrite P in C. cbn in C. repeat destruct C as [C|C]; try discriminate C; exact C.
    + rewrite forallb_forall in W. discriminate (W _ C).
Qed.
Lemma ex_id_line id : ~ In x0a (ex_id id).
Proof. intros I. destruct (proj1 ex_id_legible id) as ((_ & F & _) & _). rewrite forallb_forall in F. discriminate (F _ I). Qed.

(** ** C70 *)

(** Type systems with the same text are the same, if their types are not empty, names are words, and what looks like
    an optional is one. Missing: unions which look like an optional but have something else for [none] (see below). *)
Theorem C70_partial : forall pt st id_text id_full sys_text u s s',
  prims_legible pt -> sizings_legible st -> ids_legible pt id_text -> ids_legible pt id_full -> (forall id, ~ In x0a (sys_text id)) ->
  legible_sys u s -> legible_sys u s' ->
  show_sys pt st id_text id_full sys_text s = show_sys pt st id_text id_full sys_text s' -> s = s'.
Proof. intros pt st it ifl sx u s s' P S I F X L L' E. exact (sys_unique pt st it ifl sx P S I F u s s' X L L' E). Qed.
(** The same for type systems with symbols, if no name is given to two types: types and names are the same. *)
Theorem C70_symbolic_partial : forall pt st id_text id_full sys_plus u s s',
  prims_legible pt -> sizings_legible st -> ids_legible pt id_text -> ids_legible pt id_full -> (forall id, ~ In x0a (sys_plus id)) ->
  names_legible s -> names_legible s' -> legible_sys u (ss_types s) -> legible_sys u (ss_types s') ->
  closed_sys (ss_types s) -> closed_sys (ss_types s') -> names_differ s ->
  show_symsys pt st id_text id_full sys_plus s = show_symsys pt st id_text id_full sys_plus s' ->
  ss_types s = ss_types s' /\ forall id, In id (map fst (ss_types s)) -> lookup (ss_symbols s) id = lookup (ss_symbols s') id.
Proof.
  intros pt st it ifl sx u s s' P S I F X N N' L L' C C' D E. exact (symsys_unique pt st it ifl sx P S I F u s s' X N N' L L' C C' D E).
Qed.
(** The text begins with the id of the type system. *)
Theorem C70_id : forall pt st id_text id_full sys_text s y,
  (exists r, show_sys pt st id_text id_full sys_text s = sbytes "typesys -- " ++ sys_text (sys_id s) ++ x0a :: r)
  /\ (exists r, show_symsys pt st id_text id_full sys_text y = sbytes "typesys -- " ++ sys_text (sys_id (ss_types y)) ++ x0a :: r).
Proof. intros pt st it ifl sx s y. split; eexists; reflexivity. Qed.
Print Assumptions C70_id.
Definition ex_types : type_system :=
  [(1, TPrim P_UNIT); (2, TPrim P_U8); (3, TUnion [(mkVariant "none" 0, 1); (mkVariant "some" 1, 2)]); (4, TMap 2 3 (mkSizing 0 255));
   (5, TStruct [("side", 4); ("mark", 2)]); (6, TTuple [5]); (7, TUnion [(mkVariant "plain" 3, 1); (mkVariant "coloured" 7, 6)])].
Definition ex_symbols : symbolic_sys := mkSymSys
  (mkSymbols [mkDep 77 "Other"] [mkSymbol 2 (Some (mkFqn "Other" "Side")); mkSymbol 5 None; mkSymbol 6 (Some (mkFqn "Other" "Mark"))]) ex_types.
Example C70_case : prims_legible prim_sty /\ sizings_legible sizing_sty /\ ids_legible prim_sty ex_id /\ (forall id, ~ In x0a (ex_id id))
  /\ legible_sys 1 ex_types /\ names_legible ex_symbols /\ closed_sys ex_types /\ names_differ ex_symbols.
Proof.
  split; [apply prim_sty_legible|]. split; [apply sizing_sty_legible|]. split; [apply ex_id_legible|]. split; [apply ex_id_line|].
  split; [repeat constructor; cbn; try discriminate; intros H; now destruct (H eq_refl)|].
  assert (K : forall id q, lookup (ss_symbols ex_symbols) id = Some q -> id = 2 /\ q = mkFqn "Other" "Side" \/ id = 6 /\ q = mkFqn "Other" "Mark").
  { intros id q H. unfold lookup, ex_symbols in H. cbn [ss_symbols sy_symbols find ts_id] in H.
    destruct (N.eqb_spec 2 id) as [<-|]; [cbn [ts_fqn] in H; injection H as <-; auto|]. destruct (N.eqb_spec 5 id) as [<-|]; [discriminate H|].
    destruct (N.eqb_spec 6 id) as [<-|]; [cbn [ts_fqn] in H; injection H as <-; auto|]. discriminate H. }
  split; [|split].
  - intros id q H. destruct (K id q H) as [[_ ->]|[_ ->]]; repeat constructor; discriminate.
  - intros id t r I J. cbn in I. cbn. repeat destruct I as [I|I]; try contradiction I; injection I as <- <-; cbn in J;
      repeat destruct J as [<-|J]; try contradiction J; auto 10.
  - intros id id' q _ _ H H'. destruct (K id q H) as [[-> ->]|[-> ->]], (K id' _ H') as [[-> Q]|[-> Q]]; try reflexivity; discriminate Q.
Qed.
Print Assumptions C70_partial.
Print Assumptions C70_symbolic_partial.

(** What the variant [none] has is not shown. *)
Definition ex_choice (r : semid) : type_system :=
  [(1, TPrim P_UNIT); (2, TPrim P_U8); (3, TUnion [(mkVariant "none" 0, r); (mkVariant "some" 1, 2)])].
Theorem C70_refuted : exists s s', s <> s' /\ forall pt st id_text id_full sys_text,
  show_sys pt st id_text id_full sys_text s = show_sys pt st id_text id_full sys_text s'.
Proof.
  exists (ex_choice 1), (ex_choice 2). split; [discriminate|]. intros pt st it ifl sx. unfold show_sys.
  replace (sys_id (ex_choice 2)) with (sys_id (ex_choice 1)) by (vm_compute; reflexivity). reflexivity.
Qed.
(** If a name is given to two types, it is not shown which of them is referred to. *)
Definition ex_same (r : semid) : symbolic_sys := mkSymSys
  (mkSymbols [mkDep 77 "Other"] [mkSymbol 1 (Some (mkFqn "Other" "Side")); mkSymbol 2 (Some (mkFqn "Other" "Side"))])
  [(1, TPrim P_U16); (2, TPrim P_U8); (3, TList r (mkSizing 0 255))].
Theorem C70_symbolic_refuted : exists s s', ss_types s <> ss_types s' /\ forall pt st id_text id_full sys_plus,
  show_symsys pt st id_text id_full sys_plus s = show_symsys pt st id_text id_full sys_plus s'.
Proof.
  exists (ex_same 1), (ex_same 2). split; [discriminate|]. intros pt st it ifl sx. unfold show_symsys.
  replace (sys_id (ss_types (ex_same 2))) with (sys_id (ss_types (ex_same 1))) by (vm_compute; reflexivity). reflexivity.
Qed.
Print Assumptions C70_refuted.
Print Assumptions C70_symbolic_refuted.

(** ** C71 *)

(** Compiled libraries with the same text have the same name, id, dependencies and definitions, up to wrappers, if
    the definitions are clear (as for C63). Missing: definitions which are not clear (see below). *)
Theorem C71_partial : forall pt st id_full lib_text mnemonic l l',
  prims_legible pt -> sizings_legible st -> (forall id, ~ In x0a (lib_text id)) -> mnemonics_legible mnemonic ->
  clear_compiled id_full lib_text pt l -> clear_compiled id_full lib_text pt l' ->
  show_lib pt st id_full lib_text mnemonic l = show_lib pt st id_full lib_text mnemonic l' ->
  l_name l = l_name l' /\ lib_text (lib_id l) = lib_text (lib_id l')
  /\ map (fun d => (d_name d, mnemonic (d_id d))) (l_deps l) = map (fun d => (d_name d, mnemonic (d_id d))) (l_deps l')
  /\ map (fun e => (fst e, sketch (TrEmbedded (source_ty id_full lib_text (snd e))))) (l_types l)
     = map (fun e => (fst e, sketch (TrEmbedded (source_ty id_full lib_text (snd e))))) (l_types l').
Proof. intros pt st ifl lt mn l l' P S X M C C' E. exact (compiled_unique pt st ifl lt mn P S X M l l' C C' E). Qed.
Definition ex_compiled : type_lib := mkLib "Example" [mkDep 77 "Other"; mkDep 88 "Unused"] [("Other", [(5, "Word")])]
  [("Area"%string, TStruct [("side", RNamed 3); ("marks", RInline (TList (RInline (TTuple [RNamed 4; RExtern (mkExtern 77 5)])) (mkSizing 0 255)))]);
   ("Side"%string, TTuple [RInline (TPrim P_U8)])].
Example C71_case : clear_compiled ex_id ex_id prim_sty ex_compiled
  /\ sketch (TrEmbedded (source_ty ex_id ex_id (TTuple [RNamed 3; RNamed 4]))) <> sketch (TrEmbedded (source_ty ex_id ex_id (TTuple [RNamed 4; RNamed 4]))).
Proof.
  assert (L : forall id, label (sbytes (bstring (ex_id id)))) by (intros id; rewrite sbytes_bstring; apply ex_id_legible).
  assert (Nm : forall id, clear_item prim_sty (TrNamed (bstring (ex_id id)))).
  { intros id. destruct (proj1 ex_id_legible id) as (A & B & C). apply item_named; rewrite ?sbytes_bstring; auto.
    intros E. apply B. now rewrite <- E, sbytes_bstring. }
  split; [|discriminate]. split; [split; [discriminate|reflexivity]|].
  split; [repeat constructor; discriminate|]. repeat apply Forall_cons; try apply Forall_nil; cbn [fst snd]; (split; [split; [discriminate|reflexivity]|]).
  - apply clear_simple, content_struct; [discriminate|]. repeat apply Forall_cons; try apply Forall_nil; cbn [fst snd]; (split; [split; [discriminate|reflexivity]|]).
    + apply Nm.
    + apply item_list, content_tuple. repeat apply Forall_cons; try apply Forall_nil; [apply Nm|apply item_extern; apply L].
  - apply clear_simple, content_item, item_wrapper, item_prim. reflexivity.
Qed.
Print Assumptions C71_partial.
(** As for C63, an optional tuple is shown like a tuple with the last item optional. *)
Definition ex_opt {I} (u r : gref I) : ty (gref I) := TUnion [(mkVariant "none" 0, u); (mkVariant "some" 1, r)].
Theorem C71_refuted : exists t t' : ty lib_ref, (forall id_full lib_text,
    sketch (TrEmbedded (source_ty id_full lib_text t)) <> sketch (TrEmbedded (source_ty id_full lib_text t')))
  /\ forall pt st id_full lib_text, show_lib_ty pt st id_full lib_text t = show_lib_ty pt st id_full lib_text t'.
Proof.
  exists (TTuple [RInline (TPrim P_BYTE); RInline (ex_opt (RInline (TPrim P_UNIT)) (RInline (TPrim P_U16)))]),
    (TTuple [RInline (ex_opt (RInline (TPrim P_UNIT)) (RInline (TTuple [RInline (TPrim P_BYTE); RInline (TPrim P_U16)])))]).
  split; [intros; discriminate|]. intros pt st ifl lt. cbn. rewrite <- !app_assoc. reflexivity.
Qed.
Print Assumptions C71_refuted.
