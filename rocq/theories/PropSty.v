(** Properties of the source text of libraries and of versions: C62-C64. *)
From Coq Require Import NArith Arith List Bool String Ascii Strings.Byte Lia.
From Coq Require HexadecimalString HexadecimalN DecimalString.
From Verif Require Import Base Sha256 Ty Ids TypeSys LibCodec SpecIds Compile SpecCompile Spec SpecLib Ston Sty SpecSty StyProofs
  CompileProofs CompileProofs2 CompileProofs3 TranspileProofs TranspileProofs3 PropCompile.
From Verif Require StonProofs IdProofs PropIds.
Import ListNotations.
Local Open Scope string_scope.
Local Open Scope N_scope.
Local Open Scope list_scope.

(** ** The text of primitives and sizes found in the files stl/*.sty is legible *)
Definition codes : list N := map N.of_nat (seq 0 256).
Lemma codes_all c : c < 256 -> In c codes.
Proof. intros H. apply in_map_iff. exists (N.to_nat c). split; [apply N2Nat.id|]. apply in_seq. lia. Qed.
Definition read_prim (s : bytes) : option N :=
  match string_of_list_byte s with
  | "()"%string => Some 0
  | "Byte"%string => Some 0x40
  | "F16b"%string => Some 0xC0
  | String a s =>
      match DecimalString.NilEmpty.uint_of_string s with
      | Some u => let n := N.of_uint u / 8 in
                  Some ((if (a =? "U")%char then 0 else if (a =? "I")%char then 0x40 else if (a =? "N")%char then 0x80 else 0xC0)
                        + if n <? 32 then n else n / 16 + 30)
      | None => None
      end
  | EmptyString => None
  end.
Lemma prim_sty_legible : prims_legible prim_sty.
Proof.
  split.
  - assert (T : forallb (fun c => match prim_sty c with
      | [] => false
      | _ => (c =? 0) || (forallb word_byte (prim_sty c) && negb (Byte.eqb (last (prim_sty c) x00) x65 && (c <? 0x40)) && negb (existsb (Byte.eqb x63) (prim_sty c))) end) codes = true) by (vm_compute; reflexivity).
    rewrite forallb_forall in T. intros c B. specialize (T c (codes_all c B)). destruct (prim_sty c) as [|b s] eqn:P; [discriminate T|]. rewrite <- P in *.
    apply orb_true_iff in T as [T|T].
    + left. apply N.eqb_eq in T. subst c. reflexivity.
    + right. apply andb_true_iff in T as [T X]. apply andb_true_iff in T as [T _]. split; [split; [rewrite P; discriminate|exact T]|].
      intros E. rewrite E in X. discriminate X.
  - assert (T : forallb (fun c => match read_prim (prim_sty c) with Some c' => c =? c' | None => false end) codes = true) by (vm_compute; reflexivity).
    rewrite forallb_forall in T. intros c c' B B' E. pose proof (T c (codes_all c B)) as A. pose proof (T c' (codes_all c' B')) as A'.
    rewrite E in A. destruct (read_prim (prim_sty c')) as [k|]; [|discriminate A]. apply N.eqb_eq in A, A'. congruence.
Qed.

Lemma hex_word d : forallb word_byte (sbytes (HexadecimalString.NilEmpty.string_of_uint d)) = true.
Proof. induction d; cbn; auto. Qed.
Lemma show_hex_word n : forallb word_byte (show_hex n) = true.
Proof. unfold show_hex. rewrite !forallb_app, hex_word. destruct (n <? 16); reflexivity. Qed.
Lemma show_hex_inj n m : show_hex n = show_hex m -> n = m.
Proof.
  unfold show_hex. intros E. apply app_inv_head in E.
  assert (R : forall k, (if k <? 16 then sbytes "0" else []) ++ sbytes (HexadecimalString.NilEmpty.string_of_uint (N.to_hex_uint k))
    = sbytes (HexadecimalString.NilEmpty.string_of_uint (if k <? 16 then Hexadecimal.D0 (N.to_hex_uint k) else N.to_hex_uint k))).
  { intros k. destruct (k <? 16); reflexivity. }
  rewrite !R in E. apply sbytes_inj in E. apply (f_equal HexadecimalString.NilEmpty.uint_of_string) in E. rewrite !HexadecimalString.NilEmpty.usu in E.
  injection E as E. apply (f_equal N.of_hex_uint) in E.
  assert (V : forall k, N.of_hex_uint (if k <? 16 then Hexadecimal.D0 (N.to_hex_uint k) else N.to_hex_uint k) = k).
  { intros k. destruct (k <? 16); [change (N.of_hex_uint (Hexadecimal.D0 (N.to_hex_uint k))) with (N.of_hex_uint (N.to_hex_uint k))|]; apply HexadecimalN.Unsigned.of_to. }
  now rewrite !V in E.
Qed.
Lemma show_hex_cons n : exists s, show_hex n = x30 :: s.
Proof. eexists. reflexivity. Qed.
Local Opaque show_hex.
Lemma sizing_sty_legible : sizings_legible sizing_sty.
Proof.
  assert (P : forall w, forallb word_byte w = true -> forall b, In b w -> ~ In b (sbytes " ,()[]{}" ++ [x0a])).
  { intros w F b I J. rewrite forallb_forall in F. specialize (F b I). cbn in J. repeat destruct J as [<-|J]; try discriminate F. exact J. }
  assert (D : forall b, In b (sbytes "..") -> ~ In b (sbytes " ,()[]{}" ++ [x0a])).
  { intros b I J. cbn in I, J. destruct I as [<-|[<-|[]]]; repeat destruct J as [J|J]; try discriminate J; exact J. }
  assert (dot : sbytes ".." = x2e :: x2e :: []) by reflexivity.
  split; [|split].
  - intros [a b]. unfold sizing_sty. cbn [s_min s_max]. destruct (b =? u16_max), (a =? 0); [now left|right; eexists; split; [reflexivity|]..];
      intros x I; repeat (apply in_app_iff in I as [I|I]); try (now apply D);
      try (eapply P; [|exact I]; first [apply show_hex_word|apply show_N_word]); destruct I.
  - intros [a b] [a' b'] E. unfold sizing_sty in E. cbn [s_min s_max] in E.
    destruct (N.eqb_spec b u16_max) as [Eb|B], (N.eqb_spec b' u16_max) as [Eb'|B'], (N.eqb_spec a 0) as [->|A], (N.eqb_spec a' 0) as [->|A'];
      try (subst; reflexivity); try discriminate E; apply app_inv_head in E; rewrite ?dot in E; cbn [app] in E;
      try (apply (f_equal (@List.rev _)) in E; discriminate E).
    + apply word_split in E as [E _]; [|reflexivity|reflexivity|apply show_N_word..]. apply StonProofs.show_N_inj in E. now subst.
    + exfalso. destruct (show_N_word a) as [NE W]. destruct (show_N a) as [|x s]; [now destruct NE|]. injection E as -> _. discriminate W.
    + exfalso. apply word_split in E as [_ E]; [|reflexivity|reflexivity|apply show_N_word..]. apply (f_equal (skipn 2)) in E. cbn [skipn] in E. destruct (show_hex_cons b) as (q & Q); destruct (show_hex_cons b') as (q' & Q'); congruence.
    + exfalso. destruct (show_N_word a') as [NE W]. destruct (show_N a') as [|x s]; [now destruct NE|]. injection E as <- _. discriminate W.
    + exfalso. apply word_split in E as [_ E]; [|reflexivity|reflexivity|apply show_N_word..]. apply (f_equal (skipn 2)) in E. cbn [skipn] in E. destruct (show_hex_cons b) as (q & Q); destruct (show_hex_cons b') as (q' & Q'); congruence.
    + apply (f_equal (skipn 2)) in E. cbn [skipn] in E. apply show_hex_inj in E. now subst.
    + exfalso. destruct (show_N_word a') as [NE W]. destruct (show_N a') as [|x s]; [now destruct NE|]. injection E as <- _. discriminate W.
    + exfalso. destruct (show_N_word a) as [NE W]. destruct (show_N a) as [|x s]; [now destruct NE|]. injection E as -> _. discriminate W.
    + apply word_split in E as [E X]; [|reflexivity|reflexivity|apply show_N_word..]. apply StonProofs.show_N_inj in E. apply (f_equal (skipn 2)) in X. cbn [skipn] in X. apply show_hex_inj in X. now subst.
  - intros [a b] n E. assert (I : In x2e (sbytes " ^ " ++ show_N n) -> False).
    { intros I. apply in_app_iff in I as [I|I]; [cbn in I; repeat destruct I as [I|I]; try discriminate I; exact I|].
      destruct (show_N_word n) as [_ F]. rewrite forallb_forall in F. discriminate (F _ I). }
    unfold sizing_sty in E. cbn [s_min s_max] in E. destruct (b =? u16_max), (a =? 0); [discriminate E|apply I; rewrite <- E, ?in_app_iff; cbn; auto 10..].
Qed.

(** ** C62 *)

(** What is annotated in the text of a library. *)
Lemma entry_shape pt st mn n t : exists z, sty_entry pt st mn (n, t)
  = sbytes "@mnemonic(" ++ mn (sem_id_named commit_tref n t) ++ sbytes ")" ++ [x0a] ++ sbytes "data " ++ sbytes n ++ sbytes " " ++ z.
Proof.
  unfold sty_entry. cbn [fst snd]. generalize (mn (sem_id_named commit_tref n t)). intros m. unfold pad.
  assert (B : exists y, blanks (17 - String.length n) ++ sbytes " : " = sbytes " " ++ y) by (destruct (17 - String.length n)%nat; cbn; eauto).
  destruct B as (y & B). eexists. rewrite <- !app_assoc. rewrite (app_assoc (blanks _)), B, <- !app_assoc. reflexivity.
Qed.
Lemma text_annotated pt st mn s n t : In (n, t) (y_types s) -> annotated (sty_lib pt st mn s) n (mn (sem_id_named commit_tref n t)).
Proof.
  intros I. destruct (entry_shape pt st mn n t) as (z & Z).
  assert (H : exists a b, sty_lib pt st mn s = a ++ sty_entry pt st mn (n, t) ++ b).
  { apply in_split in I as (l & r & E). unfold sty_lib. rewrite E, flat_map_app. cbn [flat_map].
    generalize (sty_entry pt st mn (n, t)), (flat_map (sty_entry pt st mn) l), (flat_map (sty_entry pt st mn) r). intros e x y.
    rewrite !app_assoc, <- (app_assoc _ e y). eauto. }
  destruct H as (a & b & ->). exists a, (z ++ b). rewrite Z. rewrite <- !app_assoc. reflexivity.
Qed.

(** The annotation of a definition without names of other types of the library is the id which the type has in the
    compiled library. Missing: definitions with such names (see below). *)
Lemma ref_commit names (r : tref) : (forall m, ~ mentions r m) ->
  (forall r', libref_compiled names r r' -> commit_tref r = commit_libref r')
  /\ (forall r', ref0_compiled names r r' -> commit_tref r = commit_ref0 r')
  /\ (forall r', ref1_compiled names r r' -> commit_tref r = commit_ref1 r')
  /\ (forall r', ref2_compiled names r r' -> commit_tref r = commit_ref2 r').
Proof.
  induction r as [t IH|n|e] using tref_induction; intros M.
  - assert (H : forall r, In r (refs t) -> forall m, ~ mentions r m) by (intros r I m X; exact (M m (mentions_embedded t r m I X))).
    rewrite Forall_forall in IH.
    split; [|split; [|split]]; intros [t'| |] R; try destruct R; cbn [commit_tref]; apply related_commit;
      (eapply ty_related_weaken; [|exact R]); intros a b I Rab; now apply (IH a I (H a I)).
  - destruct (M n (mentions_named n)).
  - split; [|split; [|split]]; intros [t'| |e'] R; try contradiction R; destruct R as [_ R];
      unfold commit_libref, commit_ref0, commit_ref1, commit_ref2; cbn [commit_tref commit_gref]; now rewrite R.
Qed.
Theorem C62_partial : forall pt st mn fuel dbg s l n t, lib_ordered s -> compile fuel dbg s = Ok l ->
  In (n, t) (y_types s) -> (forall r m, In r (refs t) -> ~ mentions r m) ->
  exists t', In (n, t') (l_types l) /\ annotated (sty_lib pt st mn s) n (mn (lib_type_id (n, t'))).
Proof.
  intros pt st mn fuel dbg s l n t O C I M. destruct (compiled_type _ _ _ _ (C33 _ _ _ _ O C) I) as (t' & I' & R). exists t'. split; [exact I'|].
  replace (lib_type_id (n, t')) with (sem_id_named commit_tref n t); [now apply text_annotated|].
  unfold lib_type_id, sem_id_named, sem_id_inner, sem_message. cbn [fst snd]. do 2 f_equal. apply related_commit.
  eapply ty_related_weaken; [|exact R]. intros a b Ia Rab. now apply (proj1 (ref_commit (named_in l) a (fun m => M a m Ia))).
Qed.
(** A type with a type in place and a type of another library. *)
Definition ex_shown : sym_lib := mkSymLib "Example" [mkDep 77 "Other"] [("Other", [(5, "Word")])]
  [("Mark", TTuple [TrEmbedded (TList (TrExtern (mkSymRef "Other" "Word" 77 5)) (mkSizing 0 255)); TrEmbedded (TPrim P_U8)])].
Example C62_case : exists l t, lib_ordered ex_shown /\ compile 2 true ex_shown = Ok l /\ In ("Mark"%string, t) (y_types ex_shown)
  /\ (forall r m, In r (refs t) -> ~ mentions r m).
Proof.
  eexists. eexists. split; [split; repeat constructor|]. split; [vm_compute; reflexivity|]. split; [left; reflexivity|].
  intros r m [<-|[<-|[]]] M; inversion M as [|? q ? I N]; subst; [destruct I as [<-|[]]; inversion N|destruct I].
Qed.
Print Assumptions C62_partial.

(** A definition with the name of another type of the library: what is annotated is not the id of the type. The
    library is the text of its own compiled form. *)
Definition ex_named : sym_lib := mkSymLib "Example" [] [] [("Mark", TTuple [TrNamed "Side"]); ("Side", TPrim P_U8)].
Theorem C62_refuted : exists s l n t' id, symlib_wf 3 s /\ (forall dbg, compile 2 dbg s = Ok l) /\ to_symbolic l = Ok s
  /\ In (n, t') (l_types l)
  /\ (forall pt st mn, annotated (sty_lib pt st mn s) n (mn id)) /\ id <> lib_type_id (n, t').
Proof.
  exists ex_named. pose (side := sem_id_named commit_libref "Side" (TPrim P_U8)).
  exists (mkLib "Example" [] [] [("Mark"%string, TTuple [RNamed side]); ("Side"%string, TPrim P_U8)]), "Mark"%string, (TTuple [RNamed side]),
    (sem_id_named commit_tref "Mark" (TTuple [TrNamed "Side"])).
  split; [apply (LibCodecProofs3.symlib_distinct 3 ex_named [] (enc_symlib ex_named)); vm_compute; reflexivity|].
  split; [intros []; vm_compute; reflexivity|]. split; [vm_compute; reflexivity|]. split; [left; reflexivity|].
  split; [intros pt st mn; apply text_annotated; left; reflexivity|]. vm_compute. discriminate.
Qed.
Print Assumptions C62_refuted.

(** The messages with names in place of ids have other lengths. *)
Definition shorter {A B} (Q : A -> Prop) (ca : A -> bytes) (cb : B -> bytes) (a : A) (b : B) : Prop :=
  (List.length (ca a) <= List.length (cb b))%nat /\ (Q a -> (List.length (ca a) < List.length (cb b))%nat).
Lemma shorter_list {A B} (Q : A -> Prop) (ca : A -> bytes) (cb : B -> bytes) l l' : Forall2 (shorter Q ca cb) l l' ->
  shorter (fun l => exists a, In a l /\ Q a) (flat_map ca) (flat_map cb) l l'.
Proof.
  unfold shorter. induction 1 as [|a b l l' [L S] H [IL IS]]; cbn [flat_map]; [split; [lia|intros (? & [] & _)]|].
  rewrite !app_length. split; [lia|]. intros (x & [<-|I] & X); [specialize (S X); lia|]. assert (exists a, In a l /\ Q a) as Y by eauto. specialize (IS Y). lia.
Qed.
Lemma related_shorter {A B} (Q : A -> Prop) (ca : A -> bytes) (cb : B -> bytes) (t : ty A) (t' : ty B) :
  ty_related (shorter Q ca cb) t t' -> shorter (fun t => exists a, In a (refs t) /\ Q a) (commit_ty ca) (commit_ty cb) t t'.
Proof.
  assert (P : forall {X} (cx : X -> bytes) l l', Forall2 (fun (a : X * A) (b : X * B) => fst a = fst b /\ shorter Q ca cb (snd a) (snd b)) l l' ->
    shorter (fun l => exists a, In a (map snd l) /\ Q a) (flat_map (fun v => cx (fst v) ++ ca (snd v))) (flat_map (fun v => cx (fst v) ++ cb (snd v))) l l').
  { intros X cx l l' H. unfold shorter in *. induction H as [|a b l l' [E [L S]] H [IL IS]]; cbn [flat_map map]; [split; [lia|intros (? & [] & _)]|].
    rewrite !app_length, E. split; [lia|]. intros (x & [<-|I] & Y); [specialize (S Y); lia|]. assert (exists a, In a (map snd l) /\ Q a) as Z by eauto. specialize (IS Z). lia. }
  unfold commit_ty. destruct t, t'; cbn [ty_related refs cls]; try contradiction; intros H; unfold shorter; cbn [List.length].
  - subst. split; [lia|intros (? & [] & _)].
  - split; [lia|intros (? & [] & _)].
  - subst. split; [lia|intros (? & [] & _)].
  - destruct (P _ commit_variant _ _ H) as [L S]. split; [lia|]. intros Y. specialize (S Y). lia.
  - destruct (shorter_list _ _ _ _ _ H) as [L S]. split; [lia|]. intros Y. specialize (S Y). lia.
  - destruct (P _ commit_name _ _ H) as [L S]. split; [lia|]. intros Y. specialize (S Y). lia.
  - destruct H as [[L S] ->]. rewrite !app_length. split; [lia|]. intros (x & [<-|[]] & Y). specialize (S Y). lia.
  - destruct H as [[L S] ->]. rewrite !app_length. split; [lia|]. intros (x & [<-|[]] & Y). specialize (S Y). lia.
  - destruct H as [[L S] ->]. rewrite !app_length. split; [lia|]. intros (x & [<-|[]] & Y). specialize (S Y). lia.
  - destruct H as [[L S] [[L2 S2] ->]]. rewrite !app_length. split; [lia|]. intros (x & [<-|[<-|[]]] & Y); [specialize (S Y)|specialize (S2 Y)]; lia.
Qed.
Lemma ref_shorter names (r : tref) : (forall m, mentions r m -> slen m < 31) ->
  let Q r := exists m, mentions r m in
  (forall r', libref_compiled names r r' -> shorter Q commit_tref commit_libref r r')
  /\ (forall r', ref0_compiled names r r' -> shorter Q commit_tref commit_ref0 r r')
  /\ (forall r', ref1_compiled names r r' -> shorter Q commit_tref commit_ref1 r r')
  /\ (forall r', ref2_compiled names r r' -> shorter Q commit_tref commit_ref2 r r').
Proof.
  intros M Q. induction r as [t IH|n|e] using tref_induction.
  - assert (H : forall r, In r (refs t) -> forall m, mentions r m -> slen m < 31) by (intros r I m X; exact (M m (mentions_embedded t r m I X))).
    rewrite Forall_forall in IH.
    assert (G : forall B (cb : B -> bytes) t', shorter (fun t => exists a, In a (refs t) /\ Q a) (commit_ty commit_tref) (commit_ty cb) t t' ->
      (List.length (commit_ty commit_tref t) <= List.length (commit_ty cb t'))%nat
      /\ (Q (TrEmbedded t) -> (List.length (commit_ty commit_tref t) < List.length (commit_ty cb t'))%nat)).
    { intros B cb t' [L S]. split; [exact L|]. intros (m & X). apply S. inversion X as [|? q ? I N]; subst. exists q. split; [exact I|]. now exists m. }
    split; [|split; [|split]]; intros [t'| |] R; try destruct R; unfold shorter; cbn [commit_tref commit_libref commit_ref0 commit_ref1 commit_ref2 commit_gref];
      apply G, related_shorter; (eapply ty_related_weaken; [|exact R]); intros a b I Rab; now apply (IH a I (H a I)).
  - pose proof (M n (mentions_named n)) as L.
    assert (G : forall id, (List.length (commit_name n) < List.length (commit_id id))%nat).
    { intros id. unfold commit_name, commit_id, id_bytes. rewrite be_length. cbn [List.length]. rewrite sbytes_length. unfold slen in L. lia. }
    split; [|split; [|split]]; intros [t'|id|e'] R; try contradiction R; unfold shorter; cbn [commit_tref commit_libref commit_ref0 commit_ref1 commit_ref2 commit_gref];
      specialize (G id); split; intros; lia.
  - split; [|split; [|split]]; intros [t'| |e'] R; try contradiction R; destruct R as [_ R]; unfold shorter;
      unfold commit_libref, commit_ref0, commit_ref1, commit_ref2; cbn [commit_tref commit_gref]; rewrite R; (split; [lia|intros (m & X); inversion X]).
Qed.
Lemma lib_type_id_named n t : lib_type_id (n, t) = sem_id_named commit_libref n t.
Proof. unfold lib_type_id. cbn [fst snd]. reflexivity. Qed.
Lemma same_ids {A B} (ca : A -> bytes) (cb : B -> bytes) n t t' : sem_id_named ca n t = sem_id_named cb n t' ->
  List.length (commit_ty ca t) = List.length (commit_ty cb t') \/ exists m m', collision m m'.
Proof.
  intros E. rewrite !PropIds.sem_id_named_eq in E. apply IdProofs.tagged_hash_inj in E as [E|E]; [left|right; eauto].
  apply (f_equal (@List.length byte)) in E. unfold sem_message in E. rewrite !app_length in E. lia.
Qed.
(** A definition with names of other types of the library, of at most 30 letters each, is always annotated with an
    id which is not the one of the type, as far as the hash function has no collisions. *)
Theorem C62_named : forall pt st mn fuel dbg s l n t, lib_ordered s -> compile fuel dbg s = Ok l ->
  In (n, t) (y_types s) -> (exists r m, In r (refs t) /\ mentions r m) ->
  (forall r m, In r (refs t) -> mentions r m -> slen m < 31) ->
  exists t' id, In (n, t') (l_types l) /\ annotated (sty_lib pt st mn s) n (mn id)
    /\ (id <> lib_type_id (n, t') \/ exists m m', collision m m').
Proof.
  intros pt st mn fuel dbg s l n t O C I (r & m & Ir & Mr) M. destruct (compiled_type _ _ _ _ (C33 _ _ _ _ O C) I) as (t' & I' & R).
  exists t', (sem_id_named commit_tref n t). split; [exact I'|]. split; [now apply text_annotated|].
  destruct (N.eq_dec (sem_id_named commit_tref n t) (lib_type_id (n, t'))) as [E|E]; [right|left; exact E].
  rewrite lib_type_id_named in E. apply same_ids in E as [E|E]; [exfalso|exact E].
  destruct (related_shorter (fun r => exists m, mentions r m) commit_tref commit_libref t t') as [_ S].
  { eapply ty_related_weaken; [|exact R]. intros a b Ia Rab. now apply (proj1 (ref_shorter (named_in l) a (fun m => M a m Ia))). }
  assert (X : exists a, In a (refs t) /\ exists m, mentions a m) by (exists r; split; [exact Ir|now exists m]). specialize (S X). lia.
Qed.
Example C62_named_case : exists l t, lib_ordered ex_named /\ compile 2 true ex_named = Ok l /\ In ("Mark"%string, t) (y_types ex_named)
  /\ (exists r m, In r (refs t) /\ mentions r m) /\ (forall r m, In r (refs t) -> mentions r m -> slen m < 31).
Proof.
  eexists. eexists. split; [split; repeat constructor|]. split; [vm_compute; reflexivity|]. split; [left; reflexivity|].
  split; [exists (TrNamed "Side"), "Side"%string; split; [now left|constructor]|].
  intros r m [<-|[]] M; inversion M; subst. reflexivity.
Qed.
Print Assumptions C62_named.

(** ** C63 *)

(** Definitions with the same text are the same, up to wrappers and to the ids of types of other libraries, if they
    are clear: no optional tuples and structures, no enums and unions inside of other definitions than unions, names
    which are not names of primitives. Missing: definitions which are not clear (see below). *)
Theorem C63_partial : forall pt st t t', prims_legible pt -> sizings_legible st -> clear_type pt t -> clear_type pt t' ->
  sty_ref pt st (TrEmbedded t) = sty_ref pt st (TrEmbedded t') -> sketch (TrEmbedded t) = sketch (TrEmbedded t').
Proof.
  intros pt st t t' P S C C' E. apply (StyProofs.type_unique pt st P S t t' [] []); auto; try exact I. now rewrite !app_nil_r.
Qed.
(** The same for libraries, together with their dependencies. *)
Theorem C63_library_partial : forall pt st mn s s', prims_legible pt -> sizings_legible st -> mnemonics_legible mn ->
  clear_lib pt s -> clear_lib pt s' -> sty_lib pt st mn s = sty_lib pt st mn s' ->
  y_name s = y_name s' /\ imports mn s = imports mn s'
  /\ map (fun e => (fst e, sketch (TrEmbedded (snd e)))) (y_types s) = map (fun e => (fst e, sketch (TrEmbedded (snd e)))) (y_types s').
Proof. intros pt st mn s s' P S M C C' E. now apply (lib_unique pt st P S mn M). Qed.
Definition ex_clear : sym_lib := mkSymLib "Example" [mkDep 77 "Other"; mkDep 88 "Unused"] [("Other", [(5, "Word")])]
  [("Area", TStruct [("side", TrNamed "Side"); ("marks", TrEmbedded (TList (TrEmbedded (TTuple [TrNamed "Mark"; TrEmbedded (TPrim P_U8)])) (mkSizing 0 255)))]);
   ("Mark", TUnion [(mkVariant "plain" 0, TrEmbedded (TPrim P_UNIT)); (mkVariant "coloured" 5, TrEmbedded (TEnum [mkVariant "red" 1; mkVariant "green" 2]))]);
   ("Side", TTuple [TrEmbedded (optional (TrExtern (mkSymRef "Other" "Word" 77 5))); TrEmbedded (TArray (TrEmbedded (TPrim P_BYTE)) 4)])].
Lemma no_prim (n : string) : forallb (fun c => negb (String.eqb n (string_of_list_byte (prim_sty c)))) codes = true ->
  forall c, c < 256 -> sbytes n <> prim_sty c.
Proof.
  intros T c B E. rewrite forallb_forall in T. specialize (T c (codes_all c B)). rewrite <- E in T. unfold sbytes in T.
  rewrite string_of_list_byte_of_string, String.eqb_refl in T. discriminate T.
Qed.
Example C63_case : prims_legible prim_sty /\ sizings_legible sizing_sty /\ mnemonics_legible show_N /\ clear_lib prim_sty ex_clear
  /\ Forall (fun e => clear_type prim_sty (snd e)) (y_types ex_clear).
Proof.
  assert (W : forall s, forallb word_byte (sbytes s) = true -> s <> ""%string -> word (sbytes s)).
  { intros s F N. split; [|exact F]. intros E. apply N. apply sbytes_inj. exact E. }
  assert (Nm : forall n, forallb word_byte (sbytes n) = true -> n <> ""%string -> n <> "Unicode"%string ->
    forallb (fun c => negb (String.eqb n (string_of_list_byte (prim_sty c)))) codes = true -> clear_item prim_sty (TrNamed n)).
  { intros n F N U T. apply item_named; [now apply word_label, W|exact U|now apply no_prim]. }
  assert (C : clear_lib prim_sty ex_clear).
  { unfold clear_lib, ex_clear. cbn [y_name y_deps y_extern y_types].
    split; [apply W; [reflexivity|discriminate]|]. split; [repeat constructor; try discriminate|]. split; [repeat constructor; discriminate|].
    repeat apply Forall_cons; try apply Forall_nil; cbn [fst snd]; (split; [apply W; [reflexivity|discriminate]|]).
    - apply clear_simple, content_struct; [discriminate|]. repeat apply Forall_cons; try apply Forall_nil; cbn [fst snd]; (split; [apply W; [reflexivity|discriminate]|]).
      + apply Nm; (reflexivity || discriminate).
      + apply item_list, content_tuple. repeat apply Forall_cons; try apply Forall_nil; [apply Nm; (reflexivity || discriminate)|apply item_prim; reflexivity].
    - apply clear_union; [discriminate|reflexivity|]. repeat apply Forall_cons; try apply Forall_nil; cbn [fst snd]; (split; [apply W; [reflexivity|discriminate]|]).
      + apply variant_item, item_prim. reflexivity.
      + apply SpecSty.variant_type, clear_enum; [discriminate|]. repeat apply Forall_cons; try apply Forall_nil; apply W; (reflexivity || discriminate).
    - apply clear_simple, content_tuple. repeat apply Forall_cons; try apply Forall_nil.
      + apply item_option, item_extern; apply word_label, W; (reflexivity || discriminate).
      + apply item_array, content_item, item_prim. reflexivity. }
  split; [apply prim_sty_legible|]. split; [apply sizing_sty_legible|]. split.
  - intros id I. destruct (show_N_word id) as [_ F]. rewrite forallb_forall in F. discriminate (F _ I).
  - split; [exact C|]. eapply Forall_impl; [|apply C]. now intros e [_ T].
Qed.
Print Assumptions C63_partial.
Print Assumptions C63_library_partial.

(** An optional tuple is shown like a tuple with the last item optional; the content of the variant [none] of what
    looks like an optional is not shown; wrapped types are shown like the types. All are types of values with
    different encodings, or with different ids. *)
Definition ex_byte : tref := TrEmbedded (TPrim P_BYTE).
Definition ex_u16 : tref := TrEmbedded (TPrim P_U16).
Theorem C63_refuted : exists t t', sketch (TrEmbedded t) <> sketch (TrEmbedded t')
  /\ forall pt st, sty_ref pt st (TrEmbedded t) = sty_ref pt st (TrEmbedded t').
Proof.
  exists (TTuple [ex_byte; TrEmbedded (optional ex_u16)]), (TTuple [TrEmbedded (optional (TrEmbedded (TTuple [ex_byte; ex_u16])))]).
  split; [discriminate|]. intros pt st. cbn [sty_ref sty_ty ex_byte ex_u16 optional map join]. rewrite <- !app_assoc. reflexivity.
Qed.
Theorem C63_none_refuted : exists t t', sketch (TrEmbedded t) <> sketch (TrEmbedded t')
  /\ forall pt st, sty_ref pt st (TrEmbedded t) = sty_ref pt st (TrEmbedded t').
Proof.
  exists (optional ex_byte), (TUnion [(mkVariant "none" 0, ex_u16); (mkVariant "some" 1, ex_byte)]).
  split; [discriminate|]. reflexivity.
Qed.
Theorem C63_wrapper_refuted : exists t t', sem_message commit_tref None t <> sem_message commit_tref None t'
  /\ forall pt st, sty_ref pt st (TrEmbedded t) = sty_ref pt st (TrEmbedded t').
Proof.
  exists (TUnion [(mkVariant "a" 0, ex_byte); (mkVariant "b" 1, ex_u16)]),
    (TUnion [(mkVariant "a" 0, ex_byte); (mkVariant "b" 1, TrEmbedded (TTuple [ex_u16]))]).
  split; [vm_compute; discriminate|]. reflexivity.
Qed.
Print Assumptions C63_refuted.
Print Assumptions C63_none_refuted.
Print Assumptions C63_wrapper_refuted.

(** ** C64 *)

(** What is shown is the text of the version in which the pre-release is taken for the build metadata, and the
    build metadata for the pre-release. *)
Lemma dotted_join mark l : (match l with [] => [] | _ => sbytes mark end) ++ join (sbytes ".") l = dotted mark l.
Proof.
  destruct l as [|a l]; [reflexivity|]. cbn [dotted]. f_equal. revert a. induction l as [|b l IH]; intros a; [cbn; now rewrite app_nil_r|].
  change (join (sbytes ".") (a :: b :: l)) with (a ++ sbytes "." ++ join (sbytes ".") (b :: l)). rewrite IH. cbn [flat_map]. now rewrite <- !app_assoc.
Qed.
Theorem C64_swapped : forall v, show_version v
  = semver_text (ver_major v) (ver_minor v) (ver_patch v) (map show_build (ver_build v)) (map show_pre (ver_pre v)).
Proof.
  intros v. unfold show_version, semver_text. do 5 f_equal. rewrite <- (dotted_join "-"), <- (dotted_join "+"), <- !app_assoc.
  destruct (ver_build v), (ver_pre v); reflexivity.
Qed.
(** So it is the text of the version if there is neither, *)
Theorem C64_partial : forall v, ver_pre v = [] -> ver_build v = [] ->
  show_version v = semver_text (ver_major v) (ver_minor v) (ver_patch v) (map show_pre (ver_pre v)) (map show_build (ver_build v)).
Proof. intros v P B. rewrite C64_swapped, P, B. reflexivity. Qed.
Example C64_case : show_version (mkVersion 0 1 12 [] []) = sbytes "0.1.12".
Proof. reflexivity. Qed.
(** but a pre-release is shown like a release with build metadata, and the other way round. *)
Theorem C64_refuted : exists v v', ver_pre v <> [] /\ ver_build v = [] /\ ver_pre v' = []
  /\ show_version v <> semver_text (ver_major v) (ver_minor v) (ver_patch v) (map show_pre (ver_pre v)) (map show_build (ver_build v))
  /\ show_version v = semver_text (ver_major v') (ver_minor v') (ver_patch v') (map show_pre (ver_pre v')) (map show_build (ver_build v')).
Proof.
  exists (mkVersion 1 0 0 [PreIdent "beta"; PreDigits 2] []), (mkVersion 1 0 0 [] [BuildIdent "beta"; BuildDigits "2"]).
  split; [discriminate|]. do 2 (split; [reflexivity|]). split; [vm_compute; discriminate|reflexivity].
Qed.
(** What is shown is the text of the version exactly when pre-release and build metadata have the same text; that is for
    identifiers without dots and plus signs, as all identifiers of versions are. *)
Lemma cut_at (m : byte) x x' y y' : ~ In m x -> ~ In m x' -> x ++ m :: y = x' ++ m :: y' -> x = x' /\ y = y'.
Proof.
  revert x'. induction x as [|b x IH]; intros [|b' x'] N N' E; cbn in E.
  - injection E as E. auto.
  - injection E as E _. exfalso. apply N'. left. congruence.
  - injection E as E _. exfalso. apply N. left. congruence.
  - injection E as -> E. destruct (IH x') as [-> ->]; auto; intros I; [apply N|apply N']; now right.
Qed.
Definition plain_id (i : bytes) : Prop := forall b, In b i -> b <> x2e /\ b <> x2b.
Lemma dots_inj : forall l l', Forall plain_id l -> Forall plain_id l' ->
  flat_map (fun i => sbytes "." ++ i) l = flat_map (fun i => sbytes "." ++ i) l' -> l = l'.
Proof.
  assert (S : sbytes "." = [x2e]) by reflexivity. rewrite S. clear S.
  induction l as [|i l IH]; intros [|i' l'] F F' E; [reflexivity|discriminate E|discriminate E|].
  apply Forall_cons_iff in F, F'. destruct F as [F1 F2], F' as [F1' F2']. cbn [flat_map app] in E. injection E as E.
  assert (H : i = i' /\ flat_map (fun i => [x2e] ++ i) l = flat_map (fun i => [x2e] ++ i) l').
  { revert E. cbn [app]. destruct l as [|j l], l' as [|j' l']; cbn [flat_map].
    - rewrite !app_nil_r. auto.
    - rewrite app_nil_r. intros E. exfalso. apply (fun I => proj1 (F1 x2e I) eq_refl). rewrite E. cbn [app]. apply in_elt.
    - rewrite app_nil_r. intros E. exfalso. apply (fun I => proj1 (F1' x2e I) eq_refl). rewrite <- E. cbn [app]. apply in_elt.
    - cbn [app]. intros E. apply cut_at in E; [| intros I; now apply F1 in I | intros I; now apply F1' in I]. destruct E as [-> E]. split; [reflexivity|]. now f_equal. }
  destruct H as [-> H]. f_equal. now apply IH.
Qed.
Lemma dotted_inj m l l' : Forall plain_id l -> Forall plain_id l' -> l <> [] -> l' <> [] -> dotted m l = dotted m l' -> l = l'.
Proof.
  intros F F' N N' E. destruct l as [|i l], l' as [|i' l']; try congruence. cbn [dotted] in E. apply app_inv_head in E.
  apply dots_inj; auto. cbn [flat_map]. now rewrite <- !app_assoc, E.
Qed.
Lemma dotted_plain m l : sbytes m = [x2d] -> Forall plain_id l -> ~ In x2b (dotted m l).
Proof.
  intros M F I. destruct l as [|i l]; [exact I|]. cbn [dotted] in I. rewrite M in I.
  apply Forall_cons_iff in F. destruct F as [F1 F2]. cbn [app] in I. destruct I as [I|I]; [discriminate|].
  apply in_app_or in I. destruct I as [I|I]; [now apply F1 in I|]. apply in_flat_map in I. destruct I as (j & J & I).
  rewrite Forall_forall in F2. cbn in I. destruct I as [I|I]; [discriminate|]. now apply (F2 j J) in I.
Qed.
Theorem C64_exact : forall v, Forall plain_id (map show_pre (ver_pre v)) -> Forall plain_id (map show_build (ver_build v)) ->
  (show_version v = semver_text (ver_major v) (ver_minor v) (ver_patch v) (map show_pre (ver_pre v)) (map show_build (ver_build v))
   <-> map show_pre (ver_pre v) = map show_build (ver_build v)).
Proof.
  intros v FP FB. rewrite C64_swapped. unfold semver_text. split; [|intros ->; reflexivity].
  intros E. apply app_inv_head in E. apply app_inv_head in E. apply app_inv_head in E. apply app_inv_head in E. apply app_inv_head in E.
  revert FP FB E. generalize (map show_pre (ver_pre v)) (map show_build (ver_build v)). clear v. intros P B FP FB E.
  destruct P as [|i P], B as [|j B]; [reflexivity|cbn in E; discriminate E|cbn in E; discriminate E|].
  assert (M : sbytes "-" = [x2d]) by reflexivity.
  assert (S : forall l, l <> [] -> exists y, dotted "+" l = x2b :: y) by (intros [|a l] N; [congruence|eexists; reflexivity]).
  destruct (S (i :: P)) as [y Y]; [discriminate|]. destruct (S (j :: B)) as [y' Y']; [discriminate|].
  rewrite Y, Y' in E. apply cut_at in E; [|now apply dotted_plain|now apply dotted_plain]. destruct E as [E _]. symmetry.
  apply dotted_inj in E; auto; discriminate.
Qed.
Example C64_exact_case : let v := mkVersion 1 0 0 [PreIdent "beta"; PreDigits 2] [BuildIdent "beta"; BuildDigits "2"] in
  show_version v = semver_text (ver_major v) (ver_minor v) (ver_patch v) (map show_pre (ver_pre v)) (map show_build (ver_build v)).
Proof.
  intros v. apply C64_exact; [| |reflexivity];
    (constructor; [|constructor; [|constructor]]); intros b I; cbn in I;
    repeat match goal with H : _ \/ _ |- _ => destruct H as [H|H] end; subst; try contradiction; split; discriminate.
Qed.
Print Assumptions C64_exact.
Print Assumptions C64_swapped.
Print Assumptions C64_partial.
Print Assumptions C64_refuted.
