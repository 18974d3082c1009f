(** Which compiled libraries can be turned back to their sources, and saved as such: C36, C74. *)
From Coq Require Import NArith List Bool String Strings.Byte Sorted Lia.
From Verif Require Import Base Sha256 Ty Ids TypeSys LibCodec Build Spec SpecIds SpecLib LibCodecProofs LibCodecProofs3 BuildProofs MapLemmas Compile SpecCompile Sty Files SpecFiles
  CompileProofs CompileProofs2 CompileProofs3 PropCompile PropFiles.
Import ListNotations.
Local Open Scope N_scope.
Local Open Scope list_scope.
Local Opaque tagged_hash.

(** ** References which can be turned into names *)

(** The type with the id is one of the library; the library of an external reference is a dependency, for the name of
    which the type is listed among fewer than 65535 external types; definitions in place have such references only. *)
Definition gref_told {I} (l : type_lib) (inner : I -> Prop) (r : gref I) : Prop :=
  match r with
  | RInline t => inner t
  | RNamed id => exists n t, In (n, t) (l_types l) /\ id = lib_type_id (n, t)
  | RExtern e => exists d types name, In d (l_deps l) /\ d_id d = er_lib e /\ In (d_name d, types) (l_extern l)
                 /\ In (er_id e, name) types /\ lenN types < 2 ^ 16 - 1
  end.
Definition ty_told {R} (ok : R -> Prop) (t : ty R) : Prop := Forall ok (refs t).
Definition ref2_told (l : type_lib) : inline_ref2 -> Prop := gref_told l (fun e : Empty_set => match e with end).
Definition ref1_told (l : type_lib) : inline_ref1 -> Prop := gref_told l (ty_told (ref2_told l)).
Definition ref0_told (l : type_lib) : inline_ref -> Prop := gref_told l (ty_told (ref1_told l)).
Definition libref_told (l : type_lib) : lib_ref -> Prop := gref_told l (ty_told (ref0_told l)).

(** ** Deciding *)

Definition decides {E S A B} (s : S) (P : A -> Prop) (f : A -> S -> outcome E B * S) : Prop :=
  forall a, (P a /\ exists x, f a s = (Ok x, s)) \/ (~ P a /\ exists e s', f a s = (Err e, s')).

Lemma decides_map {E S A B C} (s : S) P (f : A -> S -> outcome E B * S) (g : B -> C) :
  decides s P f -> decides s P (fun a s => map_fst g (f a s)).
Proof.
  intros D a. destruct (D a) as [[H (x & ->)]|[H (e & s' & ->)]]; [left|right]; split; auto; cbn; eauto.
Qed.
Lemma decides_list {E S A B} (s : S) P (f : A -> S -> outcome E B * S) : decides s P f -> decides s (Forall P) (map_state f).
Proof.
  intros D l. induction l as [|a l IH]; cbn [map_state]; [left; split; [constructor|eauto]|].
  destruct (D a) as [[H (x & ->)]|[H (e & s' & ->)]].
  - destruct IH as [[F (y & ->)]|[F (e & s' & ->)]]; [left; split; [now constructor|eauto]|right; split; [|eauto]].
    intros X. inversion X; contradiction.
  - right. split; [|eauto]. intros X. inversion X; contradiction.
Qed.
Lemma decides_pairs {E S K A B} (s : S) P (f : A -> S -> outcome E B * S) : decides s P f ->
  decides s (fun l => Forall P (map snd l)) (map_state (fun '(k, r) s => map_fst (fun r' => (k : K, r')) (f r s))).
Proof.
  intros D l. assert (D' : decides s (fun a : K * A => P (snd a)) (fun '(k, r) s => map_fst (fun r' => (k, r')) (f r s))).
  { intros [k r]. destruct (D r) as [[H (x & Q)]|[H (e & s' & Q)]]; rewrite Q; [left|right]; split; auto; cbn; eauto. }
  pose proof (decides_list s _ _ D' l) as X. rewrite Forall_map. exact X.
Qed.
Lemma decides_ty {E S A B} (s : S) P (f : A -> S -> outcome E B * S) : decides s P f -> decides s (ty_told P) (translate_ty f).
Proof.
  intros D t. unfold ty_told.
  assert (N : forall x : ty B, (Forall P [] /\ exists y, (@Ok E _ x, s) = (Ok y, s)) \/ (~ Forall P [] /\ exists e s', (@Ok E _ x, s) = (Err e, s')))
    by (intros x; left; split; [constructor|eauto]).
  assert (O : forall r (g : B -> ty B), (Forall P [r] /\ exists y, map_fst g (f r s) = (Ok y, s)) \/ (~ Forall P [r] /\ exists e s', map_fst g (f r s) = (Err e, s'))).
  { intros r g. destruct (decides_map s P f g D r) as [[H X]|[H X]]; [left|right]; (split; [|exact X]); [now repeat constructor|]. intros Y. inversion Y; contradiction. }
  destruct t; cbn [refs translate_ty]; auto.
  - exact (decides_map s _ _ (@TUnion B) (decides_pairs s P f D) vs).
  - exact (decides_map s _ _ (@TTuple B) (decides_list s P f D) fs).
  - exact (decides_map s _ _ (@TStruct B) (decides_pairs s P f D) fs).
  - destruct (D k) as [[H (x & ->)]|[H (e & s' & ->)]].
    + destruct (O r (fun r' => TMap x r' s0)) as [[Y X]|[Y X]]; [left|right]; (split; [|exact X]); [now constructor|].
      intros Z. inversion Z; contradiction.
    + right. split; [|eauto]. intros Z. inversion Z; contradiction.
Qed.

Lemma reverse_index_some (types : list (string * ty lib_ref)) : forall m, msorted N.compare m -> forall id,
  (om_get N.compare id m <> None \/ exists n t, In (n, t) types /\ id = lib_type_id (n, t)) ->
  om_get N.compare id (fold_left (fun m nt => om_insert N.compare (lib_type_id nt) (fst nt) m) types m) <> None.
Proof.
  induction types as [|nt types IH]; intros m SM id; cbn [fold_left].
  - intros [H|(n & t & [] & _)]. exact H.
  - intros H. apply IH; [now apply (mins_sorted _ N_lawful)|].
    rewrite (mget_ins _ N_lawful) by exact SM. destruct (N.compare id (lib_type_id nt)) eqn:C; [left; discriminate| |].
    + destruct H as [H|(n & t & [->|I] & ->)]; [now left| |right; eauto]. rewrite N.compare_refl in C. discriminate C.
    + destruct H as [H|(n & t & [->|I] & ->)]; [now left| |right; eauto]. rewrite N.compare_refl in C. discriminate C.
Qed.
Lemma dep_index_back (deps : list dependency) : forall m, msorted N.compare m -> forall id n,
  om_get N.compare id (fold_left (fun m d => om_insert N.compare (d_id d) (d_name d) m) deps m) = Some n ->
  om_get N.compare id m = Some n \/ exists d, In d deps /\ d_id d = id /\ d_name d = n.
Proof.
  induction deps as [|d deps IH]; intros m SM id n; cbn [fold_left]; [auto|].
  intros G. apply IH in G; [|now apply (mins_sorted _ N_lawful)].
  destruct G as [G|(d' & I & X)]; [|right; exists d'; cbn; tauto].
  rewrite (mget_ins _ N_lawful) in G by exact SM. destruct (N.compare id (d_id d)) eqn:C; auto.
  apply N.compare_eq in C. injection G as <-. right. exists d. cbn. auto.
Qed.

Section Told.
Context (l : type_lib).
Hypothesis ID : NoDup (map d_id (l_deps l)).
Hypothesis SB : msorted String.compare (l_extern l).
Hypothesis SBI : Forall (fun e => msorted N.compare (snd e)) (l_extern l).
Hypothesis LI : Forall (fun e => lenN (snd e) <= 2 ^ 16 - 1) (l_extern l).
Hypothesis LB : lenN (l_extern l) <= u8_max.
Notation ctx := (symbol_index l).
Notation b := (l_extern l).

Lemma removed_shorter lib types : In (lib, types) b -> lenN (map_remove lib b) =? u8_max = false.
Proof.
  intros IX. apply N.eqb_neq, N.lt_neq. eapply N.lt_le_trans; [|exact LB]. unfold lenN, map_remove. apply in_split in IX as (x & c & ->).
  rewrite filter_app, !app_length. cbn [filter fst]. rewrite String.eqb_refl. cbn [negb].
  pose proof (filter_shorter (fun e0 => negb (fst e0 =? lib)%string) x).
  pose proof (filter_shorter (fun e0 => negb (fst e0 =? lib)%string) c). cbn [List.length]. lia.
Qed.

Lemma external_decided e : let told := exists d types name, In d (l_deps l) /\ d_id d = er_lib e /\ In (d_name d, types) b
                 /\ In (er_id e, name) types /\ lenN types < 2 ^ 16 - 1 in
  (told /\ exists x, symbol_external ctx e b = (Ok x, b)) \/ (~ told /\ exists er s', symbol_external ctx e b = (Err er, s')).
Proof.
  intros told. unfold symbol_external. cbn [symbol_index sc_libs].
  assert (U : forall d n, In d (l_deps l) -> d_id d = er_lib e ->
     om_get N.compare (er_lib e) (fold_left (fun m d => om_insert N.compare (d_id d) (d_name d) m) (l_deps l) []) = n -> n = Some (d_name d)).
  { intros d n I E <-. rewrite <- E. apply dep_index; auto. constructor. }
  destruct (om_get N.compare (er_lib e) (fold_left _ (l_deps l) [])) as [lib|] eqn:G.
  2: { right. split; [|eauto]. intros (d & types & name & I & E & _). discriminate (U d None I E eq_refl). }
  apply dep_index_back in G as H; [|constructor]. destruct H as [H|(d & I & E & N)]; [discriminate H|].
  assert (UT : forall d' types, In d' (l_deps l) -> d_id d' = er_lib e -> In (d_name d', types) b -> om_get String.compare lib b = Some types).
  { intros d' types I' E' J. pose proof (U d' _ I' E' eq_refl) as X. injection X as ->. now apply (mget_In _ string_lawful). }
  destruct (om_get String.compare lib b) as [index|] eqn:GL.
  2: { right. split; [|eauto]. intros (d' & types & name & I' & E' & J & _). discriminate (UT _ _ I' E' J). }
  pose proof GL as JL. apply (mget_In _ string_lawful) in JL; [|exact SB].
  assert (SI : msorted N.compare index) by (rewrite Forall_forall in SBI; exact (SBI _ JL)).
  assert (UI : forall types, Some index = Some types -> types = index) by (intros types [= ->]; reflexivity).
  destruct (om_get N.compare (er_id e) index) as [name|] eqn:GI.
  2: { right. split; [|eauto]. intros (d' & types & name & I' & E' & J & K & _). rewrite (UI _ (UT _ _ I' E' J)) in K.
       apply (mget_In _ N_lawful) in K; [|exact SI]. rewrite K in GI. discriminate GI. }
  pose proof GI as KI. apply (mget_In _ N_lawful) in KI; [|exact SI].
  unfold confined_insert. rewrite (mins_same _ N_lawful) by assumption.
  assert (L : lenN index <= 2 ^ 16 - 1) by (rewrite Forall_forall in LI; exact (LI _ JL)).
  match goal with |- context [match (if ?c then Err Oversize else Ok index) with _ => _ end] => destruct c eqn:Q end;
    [apply N.eqb_eq in Q|apply N.eqb_neq in Q].
  - right. split; [|eauto]. intros (d' & types & nm & I' & E' & J & _ & L'). rewrite (UI _ (UT _ _ I' E' J)) in L'. unfold semid, u16_max in *. lia.
  - match goal with |- context [match (if ?c then Err Oversize else _) with _ => _ end] => replace c with false by (symmetry; exact (removed_shorter _ _ JL)) end.
    rewrite remove_insert by assumption.
    left. split; [|eauto]. exists d, index, name. subst lib. repeat (split; [assumption|]). unfold semid, u16_max in *. lia.
Qed.
Lemma gref_decided {I} (inner : I -> Prop) emb : decides b inner emb -> decides b (gref_told l inner) (symbol_gref ctx emb).
Proof.
  intros D [i|id|e]; cbn [gref_told symbol_gref].
  - apply D.
  - unfold symbol_named. cbn [symbol_index sc_reverse].
    destruct (om_get N.compare id (fold_left _ (l_types l) [])) as [n|] eqn:G.
    + left. split; [|eauto]. apply reverse_index in G; [|constructor]. destruct G as [G|(t & I' & E)]; [discriminate G|eauto].
    + right. split; [|eauto]. intros H. revert G. apply reverse_index_some; [constructor|]. right. exact H.
  - apply external_decided.
Qed.
Lemma embedded_decided {R} (ok : R -> Prop) f : decides b ok f -> decides b (ty_told ok) (symbol_embedded f).
Proof. intros D. exact (decides_map b _ _ TrEmbedded (decides_ty b ok f D)). Qed.
Lemma libref_decided : decides b (libref_told l) (symbol_libref ctx).
Proof. apply gref_decided, embedded_decided, gref_decided, embedded_decided, gref_decided, embedded_decided, gref_decided. intros []. Qed.
Lemma symbolic_decided :
  (Forall (fun nt => ty_told (libref_told l) (snd nt)) (l_types l) /\ exists s, to_symbolic l = Ok s)
  \/ (~ Forall (fun nt => ty_told (libref_told l) (snd nt)) (l_types l) /\ exists e, to_symbolic l = Err e).
Proof.
  assert (D : decides b (fun nt : string * ty lib_ref => ty_told (libref_told l) (snd nt))
     (fun nt s => map_fst (fun t => (fst nt, t)) (translate_ty (symbol_libref ctx) (snd nt) s))).
  { intros [n t]. cbn [fst snd]. exact (decides_map b _ _ (fun t => (n, t)) (decides_ty b _ _ libref_decided) t). }
  unfold to_symbolic. cbv zeta. destruct (decides_list b _ _ D (l_types l)) as [[H (x & E)]|[H (e & s & E)]]; [left|right]; (split; [exact H|]);
    (match type of E with ?x = _ => match goal with |- context [match ?y with _ => _ end] => change y with x end end); rewrite E; eauto.
Qed.
End Told.

Lemma wf_decided l : lib_wf l ->
  (Forall (fun nt => ty_told (libref_told l) (snd nt)) (l_types l) /\ exists s, to_symbolic l = Ok s)
  \/ (~ Forall (fun nt => ty_told (libref_told l) (snd nt)) (l_types l) /\ exists e, to_symbolic l = Err e).
Proof.
  intros (_ & (_ & SD & _) & ((_ & LE) & SE & FE) & _). apply symbolic_decided.
  - now apply dsorted_NoDup.
  - exact SE.
  - eapply Forall_impl; [|exact FE]. cbn. intros e (_ & _ & X & _). exact X.
  - eapply Forall_impl; [|exact FE]. cbn. intros e (_ & [_ X] & _). exact X.
  - exact LE.
Qed.

(** ** C36 *)

(** A library is turned back to a source exactly when all types it uses are its own or are listed; all others are
    refused. *)
Theorem C36_exact : forall l, lib_wf l ->
  ((exists s, to_symbolic l = Ok s) <-> Forall (fun nt => Forall (libref_told l) (refs (snd nt))) (l_types l))
  /\ ((exists e, to_symbolic l = Err e) <-> ~ Forall (fun nt => Forall (libref_told l) (refs (snd nt))) (l_types l)).
Proof.
  intros l W. destruct (wf_decided l W) as [[H (s & E)]|[H (e & E)]]; rewrite E; unfold ty_told in H; split; split; eauto; try contradiction.
  - intros [e X]. discriminate X.
  - intros [s X]. discriminate X.
Qed.
Example C36_exact_case : lib_wf ex_compiled /\ Forall (fun nt => Forall (libref_told ex_compiled) (refs (snd nt))) (l_types ex_compiled)
  /\ lib_wf dangling /\ ~ Forall (fun nt => Forall (libref_told dangling) (refs (snd nt))) (l_types dangling).
Proof.
  assert (W : lib_wf ex_compiled) by (apply (lib_distinct ex_compiled [] (enc_lib ex_compiled)); vm_compute; reflexivity).
  assert (W' : lib_wf dangling) by (apply (lib_distinct dangling [] (enc_lib dangling)); vm_compute; reflexivity).
  split; [exact W|]. split; [apply C36_exact; [exact W|]; eexists; apply ex_compiled_symbolic|]. split; [exact W'|].
  apply C36_exact; [exact W'|].
  assert (E : match to_symbolic dangling with Err _ => True | _ => False end) by (vm_compute; exact I).
  destruct (to_symbolic dangling) as [y|e| |]; try contradiction E. eauto.
Qed.
Print Assumptions C36_exact.

(** ** C74 *)

(** A library is saved exactly when the file can be created and it is not too large for the binary form, or can be
    turned back to a source. Otherwise the content of the file does not depend on what was there before: it is lost. *)
Section External.
Context (id_text prim_text : N -> bytes) (sizing_text : sizing -> bytes) (mnemonic : N -> bytes)
  (armor : type_lib -> bytes) (written : bytes -> nat) (creatable : bytes -> bool).
Notation save_lib := (serialize_lib id_text prim_text sizing_text mnemonic armor written creatable).
Theorem C74_exact : forall f dir ver header l, lib_wf l ->
  let path := in_dir dir (file_name (l_name l) ver f) in
  ((forall w, exists w', save_lib f (Some dir) ver header l w = (w', Ok tt))
   <-> creatable path = true /\
       match f with
       | Binary => lenN (enc_lib l) <= 2 ^ 24 - 1
       | Source => Forall (fun nt => Forall (libref_told l) (refs (snd nt))) (l_types l)
       | Armored => True
       end)
  /\ (creatable path = true -> exists data r, forall w, exists w', save_lib f (Some dir) ver header l w = (w', r) /\ read_file w' path = Some data).
Proof.
  intros f dir ver header l W path. unfold serialize_lib, emit. fold path. split.
  - destruct (creatable path).
    2: { split; [|intros [X _]; discriminate X]. intros H. destruct (H (mkWorld (fun _ => None) [])) as [w' X]. discriminate X. }
    assert (S : forall d : bytes * outcome io_error unit, (forall w, exists w', (save path (fst d) w, snd d) = (w', Ok tt)) <-> snd d = Ok tt).
    { intros d. split; [intros H; destruct (H (mkWorld (fun _ => None) [])) as [w' X]; now apply pair_equal_spec in X|].
      intros H w. exists (save path (fst d) w). now rewrite H. }
    rewrite S. destruct f; cbn [lib_data].
    + destruct (wf_decided l W) as [[H (s & E)]|[H (e & E)]]; rewrite E; cbn [snd]; unfold ty_told in H; split; auto; try discriminate; intros [_ X]; contradiction.
    + change u24_max with (2 ^ 24 - 1). destruct (N.leb_spec (lenN (enc_lib l)) (2 ^ 24 - 1)) as [L|L]; cbn [snd]; split; auto; try discriminate; intros [_ X]; lia.
    + cbn [snd]. tauto.
  - intros C. rewrite C. eexists. eexists. intros w. eexists. split; [reflexivity|]. apply saved_same.
Qed.
End External.
Print Assumptions C74_exact.
Example C74_exact_case : forall creatable, creatable (in_dir (sbytes "stl") (file_name "Example" (sbytes "1") Source)) = true ->
  ~ (forall w, exists w', serialize_lib no_text no_text no_text no_text no_text (@List.length _) creatable Source (Some (sbytes "stl")) (sbytes "1") None dangling w = (w', Ok tt))
  /\ forall w, exists w', serialize_lib no_text no_text no_text no_text no_text (@List.length _) creatable Source (Some (sbytes "stl")) (sbytes "1") None ex_compiled w = (w', Ok tt).
Proof.
  intros creatable C. destruct C36_exact_case as (W & H & W' & H'). split.
  - intros X. apply C74_exact in X; [|exact W']. now destruct X.
  - apply C74_exact; [exact W|]. split; [exact C|exact H].
Qed.
