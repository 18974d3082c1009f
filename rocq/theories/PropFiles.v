(** Properties of files with libraries, of file formats and arguments: C74, C75. *)
From Coq Require Import NArith List Bool String Strings.Byte Lia.
From Verif Require Import Base Sha256 Ty Ids TypeSys LibCodec SpecIds SpecLib LibCodecProofs LibCodecProofs3 Compile SpecCompile Sty SpecSty PropLib PropCompile LibPrefix Files SpecFiles.
Import ListNotations.
Local Open Scope N_scope.
Local Open Scope list_scope.
Local Opaque tagged_hash.

Lemma bytes_eqb_spec a : forall b, reflect (a = b) (bytes_eqb a b).
Proof.
  induction a as [|x a IH]; intros [|y b]; cbn; try (constructor; discriminate); [now constructor|].
  destruct (Byte.eqb x y) eqn:E; cbn.
  - apply Byte.byte_dec_bl in E. subst. destruct (IH b); constructor; congruence.
  - constructor. intros H. injection H as -> _. rewrite (Byte.byte_dec_lb (eq_refl y)) in E. discriminate E.
Qed.

(** ** C75: names of formats and arguments *)

Theorem C75_formats : forall s f, format_of_text s = Some f <-> s = format_text f.
Proof.
  intros s f. unfold format_of_text. split.
  - destruct (bytes_eqb_spec s (sbytes "stl")); [intros H; injection H as <-; assumption|].
    destruct (bytes_eqb_spec s (sbytes "sta")); [intros H; injection H as <-; assumption|].
    destruct (bytes_eqb_spec s (sbytes "sty")); [intros H; injection H as <-; assumption|discriminate].
  - intros ->. destruct f; reflexivity.
Qed.
Example C75_formats_case : format_of_text (sbytes "stl") = Some Binary /\ format_of_text (sbytes "STL") = None.
Proof. split; reflexivity. Qed.
Print Assumptions C75_formats.

Lemma trim_dashed : forall n s, (List.length s <= n)%nat -> dashed (trim_dashes s) s.
Proof.
  induction n as [|n IH]; intros s L.
  - destruct s; [constructor|cbn in L; lia].
  - destruct s as [|a [|b r]]; [constructor|destruct a; constructor|].
    destruct (byte_eq_dec a x2d) as [->|NA].
    + destruct (byte_eq_dec b x2d) as [->|NB].
      * change (trim_dashes (x2d :: x2d :: r)) with (trim_dashes r). apply (dashed_more (trim_dashes r) r). apply IH. cbn in L. lia.
      * replace (trim_dashes (x2d :: b :: r)) with (x2d :: b :: r); [constructor|]. destruct b; try reflexivity. now destruct NB.
    + replace (trim_dashes (a :: b :: r)) with (a :: b :: r); [constructor|]. destruct a; try reflexivity. now destruct NA.
Qed.
Lemma dashed_trim f s : dashed (format_text f) s -> trim_dashes s = format_text f.
Proof. induction 1 as [|r H IH]; [destruct f; reflexivity|exact IH]. Qed.
Lemma format_dashed s f : format_of_text (trim_dashes s) = Some f <-> dashed (format_text f) s.
Proof.
  split.
  - intros H. apply C75_formats in H. rewrite <- H. eapply trim_dashed. apply le_n.
  - intros H. apply C75_formats. now apply dashed_trim.
Qed.

(** The arguments which are accepted, and what they mean; all others make the program panic. *)
Theorem C75 : forall args, (forall f d, parse_args args = Ok (f, d) <-> asks args f d)
  /\ (parse_args args = Panic <-> ~ exists f d, asks args f d).
Proof.
  intros args.
  assert (A : forall f d, parse_args args = Ok (f, d) <-> asks args f d).
  { intros f d. split.
    - unfold parse_args. destruct args as [|p [|a [|dir [|x r]]]]; cbn [nth_error].
      + destruct (format_of_text (sbytes "sty")); discriminate.
      + change (format_of_text (sbytes "sty")) with (Some Source). intros H. injection H as <- <-. constructor.
      + destruct (format_of_text (trim_dashes a)) as [g|] eqn:F; [|discriminate]. intros H. injection H as <- <-. constructor. now apply format_dashed.
      + destruct (format_of_text (trim_dashes a)) as [g|] eqn:F; [|discriminate]. intros H. injection H as <- <-. constructor. now apply format_dashed.
      + destruct (format_of_text (trim_dashes a)); discriminate.
    - intros H. destruct H as [p|p a f H|p a f dir H]; [reflexivity| |]; unfold parse_args; cbn [nth_error]; apply format_dashed in H; now rewrite H. }
  split; [exact A|]. split.
  - intros P (f & d & H). apply A in H. congruence.
  - intros N. destruct (parse_args args) as [[f d]|e| |] eqn:P; [|destruct e|reflexivity|].
    + destruct N. exists f, d. now apply A.
    + exfalso. clear -P. unfold parse_args in P. destruct (format_of_text _); [|discriminate P]. destruct args as [|? [|? [|? [|]]]]; discriminate P.
Qed.
Example C75_case :
  parse_args [sbytes "stlib"; sbytes "--stl"; sbytes "out"] = Ok (Binary, Some (sbytes "out"))
  /\ asks [sbytes "stlib"; sbytes "--stl"; sbytes "out"] Binary (Some (sbytes "out"))
  /\ parse_args [sbytes "stlib"; sbytes "-stl"] = Panic.
Proof. repeat split. apply asks_dir. apply (dashed_more _ (sbytes "stl")). constructor. Qed.
Print Assumptions C75.

(** The meaning is unique. *)
Theorem C75_unique : forall args f d f' d', asks args f d -> asks args f' d' -> f = f' /\ d = d'.
Proof.
  intros args f d f' d' H H'. apply (proj1 (C75 args)) in H. apply (proj1 (C75 args)) in H'. rewrite H in H'. now injection H'.
Qed.
Print Assumptions C75_unique.

(** ** C74: files *)

Lemma at_free n : type_name n -> ~ In x40 (sbytes n).
Proof.
  intros (x & r & E & U & F & _) I. rewrite E in I. destruct I as [->|I].
  - unfold upper in U. change (Byte.to_N x40) with 64 in U. lia.
  - rewrite Forall_forall in F. specialize (F _ I). unfold name_char in F. change (Byte.to_N x40) with 64 in F. lia.
Qed.
Lemma split_at (x : byte) a : forall a' b b', ~ In x a -> ~ In x a' -> a ++ x :: b = a' ++ x :: b' -> a = a' /\ b = b'.
Proof.
  induction a as [|y a IH]; intros [|z a'] b b' N N' H; cbn in *; injection H; intros; subst; auto; try (exfalso; tauto).
  destruct (IH a' b b') as [-> ->]; auto.
Qed.
Lemma format_length f : List.length (format_text f) = 3%nat.
Proof. destruct f; reflexivity. Qed.
Lemma format_text_inj f g : format_text f = format_text g -> f = g.
Proof. destruct f, g; intros H; try reflexivity; discriminate H. Qed.

(** Files for libraries with different names, of different versions or in different formats are different. *)
Theorem C74_names : forall dir n n' v v' f f', type_name n -> type_name n' ->
  in_dir dir (file_name n v f) = in_dir dir (file_name n' v' f') -> n = n' /\ v = v' /\ f = f'.
Proof.
  intros dir n n' v v' f f' T T' H. unfold in_dir in H. apply app_inv_head in H. apply app_inv_head in H.
  unfold file_name in H. change (sbytes "@") with [x40] in H. cbn [app] in H.
  apply split_at in H as [A B]; try (now apply at_free).
  split; [now apply sbytes_inj|]. rewrite !app_assoc in B.
  assert (L : List.length (v ++ sbytes ".") = List.length (v' ++ sbytes ".")).
  { apply (f_equal (@List.length _)) in B. rewrite !app_length in B. rewrite !format_length in B. rewrite !app_length. lia. }
  assert (S : forall (a a' b b' : bytes), List.length a = List.length a' -> a ++ b = a' ++ b' -> a = a' /\ b = b').
  { clear. induction a as [|x a IH]; intros [|y a'] b b' L H; cbn in *; try discriminate L; [auto|]. injection H as <- H. destruct (IH a' b b') as [<- <-]; auto. }
  destruct (S _ _ _ _ L B) as [V F]. split; [now apply app_inv_tail in V|now apply format_text_inj].
Qed.
Example C74_names_case : type_name "Bitcoin" /\ in_dir (sbytes "stl") (file_name "Bitcoin" (sbytes "0.1.0") Binary) = sbytes "stl/Bitcoin@0.1.0.stl".
Proof.
  split; [|reflexivity]. exists x42, (sbytes "itcoin"). split; [reflexivity|]. split; [left; cbv; split; discriminate|].
  split; [|cbv; discriminate]. repeat constructor; unfold name_char; vm_compute; intuition discriminate.
Qed.
Print Assumptions C74_names.

Section External.
Context (id_text prim_text : N -> bytes) (sizing_text : sizing -> bytes) (mnemonic : N -> bytes)
  (armor : type_lib -> bytes) (written : bytes -> nat) (creatable : bytes -> bool).
Notation save_lib := (serialize_lib id_text prim_text sizing_text mnemonic armor written creatable).
Notation save_sym := (serialize_sym id_text prim_text sizing_text mnemonic creatable).

Lemma saved path data w p : read_file (save path data w) p = if bytes_eqb p path then Some data else read_file w p.
Proof. reflexivity. Qed.
Lemma saved_same path data w : read_file (save path data w) path = Some data.
Proof. rewrite saved. destruct (bytes_eqb_spec path path); congruence. Qed.
Lemma saved_other path data w : only_changes w (save path data w) path.
Proof. split; [|reflexivity]. intros p N. rewrite saved. destruct (bytes_eqb_spec p path); congruence. Qed.
Lemma same_world w path : only_changes w w path.
Proof. split; auto. Qed.

(** A library saved in the binary format is loaded again the same, and nothing else is changed. *)
Theorem C74 : forall dir ver header l w w', lib_wf l -> save_lib Binary (Some dir) ver header l w = (w', Ok tt) ->
  let path := in_dir dir (file_name (l_name l) ver Binary) in
  read_file w' path = Some (enc_lib l) /\ load_lib w' path = Some l /\ only_changes w w' path.
Proof.
  intros dir ver header l w w' W S path. unfold serialize_lib, emit, lib_data in S. fold path in S.
  destruct (creatable path); [|discriminate S].
  destruct (lenN (enc_lib l) <=? u24_max) eqn:L; cbn [fst snd] in S; [|discriminate S]. injection S as <-.
  split; [apply saved_same|]. split; [|apply saved_other].
  unfold load_lib. rewrite saved_same. cbn [obind]. rewrite L. now apply (C31_deserialize l [] (mkSymSys (mkSymbols [] []) [])).
Qed.

(** Libraries saved one after another. *)
Inductive saves (dir : bytes) (header : option bytes) : world -> list (type_lib * bytes) -> world -> Prop :=
| saves_none w : saves dir header w [] w
| saves_next w l ver w1 ls w2 : save_lib Binary (Some dir) ver header l w = (w1, Ok tt) -> saves dir header w1 ls w2 ->
    saves dir header w ((l, ver) :: ls) w2.

Lemma load_unchanged w w' path p : only_changes w w' path -> p <> path -> load_lib w' p = load_lib w p.
Proof. intros [O _] N. unfold load_lib. now rewrite O. Qed.

(** All of them are loaded again, if their names or versions differ. *)
Theorem C74_all : forall dir header w ls w', saves dir header w ls w' ->
  Forall (fun e => lib_wf (fst e)) ls -> NoDup (map (fun e => (l_name (fst e), snd e)) ls) ->
  forall l ver, In (l, ver) ls -> load_lib w' (in_dir dir (file_name (l_name l) ver Binary)) = Some l.
Proof.
  intros dir header w ls w' H F N.
  assert (Both : (forall l ver, In (l, ver) ls -> load_lib w' (in_dir dir (file_name (l_name l) ver Binary)) = Some l)
    /\ forall n ver, type_name n -> ~ In (n, ver) (map (fun e => (l_name (fst e), snd e)) ls) ->
         load_lib w' (in_dir dir (file_name n ver Binary)) = load_lib w (in_dir dir (file_name n ver Binary))).
  { induction H as [w|w l v w1 ls w2 S H IH]; [split; [intros l v []|auto]|].
    inversion F as [|? ? W F']; subst. cbn [fst] in W. cbn [map fst snd] in N |- *. inversion N as [|? ? NI N']; subst.
    destruct (C74 _ _ _ _ _ _ W S) as (_ & L & O). destruct (IH F' N') as [A B]. split.
    - intros l' v' [E|I]; [|now apply A]. injection E as <- <-. rewrite B; [exact L|apply W|exact NI].
    - intros n ver T NE. rewrite B; [|exact T|intros X; apply NE; now right]. eapply load_unchanged; [exact O|].
      intros E. apply C74_names in E as (-> & -> & _); [|exact T|apply W]. apply NE. now left. }
  apply Both.
Qed.

(** Whatever the result is, no file but the named one is changed, and nothing at all, if the file cannot be created. *)
Theorem C74_others : forall f dir ver header l w w' r, save_lib f (Some dir) ver header l w = (w', r) ->
  let path := in_dir dir (file_name (l_name l) ver f) in
  only_changes w w' path /\ (r = Err CreateFailed <-> creatable path = false) /\ (r = Err CreateFailed -> w' = w).
Proof.
  intros f dir ver header l w w' r S path. unfold serialize_lib, emit in S. fold path in S. destruct (creatable path) eqn:C.
  - injection S as <- <-. split; [apply saved_other|].
    assert (D : snd (lib_data id_text prim_text sizing_text mnemonic armor written f ver
                       match header with Some h => h | None => [] end l) <> Err CreateFailed).
    { destruct f; cbn [lib_data].
      - destruct (to_symbolic l); discriminate.
      - destruct (lenN (enc_lib l) <=? u24_max); discriminate.
      - discriminate. }
    split; [split; [intros H; now destruct (D H)|discriminate]|intros H; now destruct (D H)].
  - injection S as <- <-. split; [apply same_world|]. split; [tauto|auto].
Qed.

(** Without a directory the same is printed, and no file is changed. *)
Theorem C74_printed : forall f ver header l w w' r, save_lib f None ver header l w = (w', r) ->
  (forall p, read_file w' p = read_file w p)
  /\ exists data, w_printed w' = w_printed w ++ data
     /\ forall dir, let path := in_dir dir (file_name (l_name l) ver f) in
          creatable path = true -> exists w1, save_lib f (Some dir) ver header l w = (w1, r) /\ read_file w1 path = Some data.
Proof.
  intros f ver header l w w' r S. unfold serialize_lib, emit in S |- *. injection S as <- <-. split; [reflexivity|].
  eexists. split; [reflexivity|]. intros dir. cbv zeta. intros C. rewrite C. eexists. split; [reflexivity|apply saved_same].
Qed.

(** The source text of a compiled library is saved, if the file can be created: after a comment with its id, name and
    version comes the text of the source. *)
Theorem C74_source : forall k fuel dbg s l dir ver header w, symlib_wf k s -> externs_listed s ->
  Forall (fun e => lenN (snd e) < 2 ^ 16 - 1) (y_extern s) -> compile fuel dbg s = Ok l ->
  let path := in_dir dir (file_name (y_name s) ver Source) in creatable path = true ->
  (exists w', save_lib Source (Some dir) ver header l w = (w', Ok tt) /\ only_changes w w' path
     /\ read_file w' path = Some (
          sbytes "{-" ++ [x0a] ++ sbytes "  Id: " ++ id_text (lib_id l) ++ [x0a] ++ sbytes "  Name: " ++ sbytes (y_name s) ++ [x0a]
          ++ sbytes "  Version: " ++ ver ++ match header with Some h => h | None => [] end ++ [x0a] ++ sbytes "-}" ++ [x0a; x0a]
          ++ sty_lib prim_text sizing_text mnemonic (mkSymLib (y_name s) (l_deps l) (y_extern s) (y_types s)) ++ [x0a]))
  \/ exists n t n' t', In (n, t) (l_types l) /\ In (n', t') (l_types l)
       /\ collision (tagged_message SEM_ID_TAG (sem_message commit_libref (Some n) t))
                    (tagged_message SEM_ID_TAG (sem_message commit_libref (Some n') t')).
Proof.
  intros k fuel dbg s l dir ver header w W XL LI C path CR.
  destruct (C36_source k fuel dbg s l W XL LI C) as [Y|X]; [left|right; exact X].
  assert (N : l_name l = y_name s) by (apply (C33 fuel dbg s l); [|exact C]; destruct W as (_ & (_ & SD & _) & _ & (_ & SY & _)); split; [exact SY|exact SD]).
  unfold serialize_lib, emit, lib_data. rewrite N, Y. fold path. rewrite CR. cbn [fst snd].
  eexists. split; [reflexivity|]. split; [apply saved_other|]. rewrite saved_same. unfold comment. rewrite <- !app_assoc. reflexivity.
Qed.

(** Whenever a save of the source text is reported as successful, the text of the symbolic form follows the comment. *)
Theorem C74_saved : forall dir ver header l w w', save_lib Source (Some dir) ver header l w = (w', Ok tt) ->
  exists s, to_symbolic l = Ok s /\ read_file w' (in_dir dir (file_name (l_name l) ver Source)) = Some (
          sbytes "{-" ++ [x0a] ++ sbytes "  Id: " ++ id_text (lib_id l) ++ [x0a] ++ sbytes "  Name: " ++ sbytes (l_name l) ++ [x0a]
          ++ sbytes "  Version: " ++ ver ++ match header with Some h => h | None => [] end ++ [x0a] ++ sbytes "-}" ++ [x0a; x0a]
          ++ sty_lib prim_text sizing_text mnemonic s ++ [x0a]).
Proof.
  intros dir ver header l w w' S. unfold serialize_lib, emit, lib_data in S. destruct (creatable _); [|discriminate S].
  destruct (to_symbolic l) as [s|e| |]; cbn [fst snd] in S; try discriminate S. apply pair_equal_spec in S as [<- _]. exists s. split; [reflexivity|].
  rewrite saved_same. f_equal. unfold comment. rewrite <- !app_assoc. reflexivity.
Qed.

(** Saving of a symbolic library never panics; its text follows a comment with its name and version. *)
Theorem C74_symbolic : forall s dir ver header w,
  let path := in_dir dir (file_name (y_name s) ver Source) in
  let text := sbytes "{-" ++ [x0a] ++ sbytes "  Name: " ++ sbytes (y_name s) ++ [x0a]
          ++ sbytes "  Version: " ++ ver ++ match header with Some h => h | None => [] end ++ [x0a] ++ sbytes "-}" ++ [x0a; x0a]
          ++ sty_lib prim_text sizing_text mnemonic s ++ [x0a] in
  (creatable path = true -> exists w', save_sym (Some dir) ver header s w = (w', Ok tt) /\ only_changes w w' path /\ read_file w' path = Some text)
  /\ (creatable path = false -> save_sym (Some dir) ver header s w = (w, Err CreateFailed))
  /\ (exists w', save_sym None ver header s w = (w', Ok tt) /\ w_printed w' = w_printed w ++ text /\ forall p, read_file w' p = read_file w p).
Proof.
  intros s dir ver header w path text. unfold serialize_sym, emit. fold path.
  assert (E : comment id_text None (y_name s) ver match header with Some h => h | None => [] end ++ sty_lib prim_text sizing_text mnemonic s ++ [x0a] = text).
  { unfold comment, text. rewrite <- !app_assoc. reflexivity. }
  cbn [fst snd]. split; [|split].
  - intros ->. eexists. split; [reflexivity|]. split; [apply saved_other|]. rewrite saved_same. exact (f_equal Some E).
  - intros ->. reflexivity.
  - eexists. split; [reflexivity|]. split; [exact (f_equal (app (w_printed w)) E)|reflexivity].
Qed.

(** A save which fails destroys the file which was there before: a library with a type missing gets only a comment. *)
Definition dangling : type_lib := mkLib "Example" [] [] [("Area"%string, TTuple [RNamed 5])].
Theorem C74_refuted : lib_wf dangling /\ forall dir ver header w,
  let path := in_dir dir (file_name "Example" ver Source) in creatable path = true ->
  exists w', save_lib Source (Some dir) ver header dangling w = (w', Panic)
    /\ read_file w' path = Some (
          sbytes "{-" ++ [x0a] ++ sbytes "  Id: " ++ id_text (lib_id dangling) ++ [x0a] ++ sbytes "  Name: Example" ++ [x0a]
          ++ sbytes "  Version: " ++ ver ++ match header with Some h => h | None => [] end ++ [x0a] ++ sbytes "-}" ++ [x0a; x0a]).
Proof.
  split.
  - apply (lib_distinct dangling [] (enc_lib dangling)); vm_compute; reflexivity.
  - intros dir ver header w path C. unfold serialize_lib, emit, lib_data.
    assert (E : match to_symbolic dangling with Err _ => True | _ => False end) by (vm_compute; exact I).
    destruct (to_symbolic dangling) as [y|e| |]; try contradiction E. clear E.
    change (l_name dangling) with "Example"%string. fold path. rewrite C. cbn [fst snd].
    eexists. split; [reflexivity|]. rewrite saved_same. unfold comment. rewrite <- !app_assoc. reflexivity.
Qed.
End External.

Print Assumptions C74.
Print Assumptions C74_all.
Print Assumptions C74_others.
Print Assumptions C74_printed.
Print Assumptions C74_source.
Print Assumptions C74_saved.
Print Assumptions C74_symbolic.
Print Assumptions C74_refuted.

(** Two versions of a library are saved in turn. *)
Definition no_text {A} (_ : A) : bytes := [].
Example C74_case : lib_wf ex_compiled /\ exists w1 w2,
  serialize_lib no_text no_text no_text no_text no_text (@List.length _) (fun _ => true) Binary (Some (sbytes "stl")) (sbytes "1") None dangling (mkWorld (fun _ => None) []) = (w1, Ok tt)
  /\ serialize_lib no_text no_text no_text no_text no_text (@List.length _) (fun _ => true) Binary (Some (sbytes "stl")) (sbytes "2") None ex_compiled w1 = (w2, Ok tt)
  /\ load_lib w2 (sbytes "stl/Example@1.stl") = Some dangling /\ load_lib w2 (sbytes "stl/Example@2.stl") = Some ex_compiled
  /\ load_lib w2 (sbytes "stl/Example@3.stl") = None.
Proof.
  split; [apply (lib_distinct ex_compiled [] (enc_lib ex_compiled)); vm_compute; reflexivity|].
  eexists. eexists. split; [vm_compute; reflexivity|]. split; [vm_compute; reflexivity|]. vm_compute. auto.
Qed.
Example C74_all_case : exists w, saves no_text no_text no_text no_text no_text (@List.length _) (fun _ => true) (sbytes "stl") None (mkWorld (fun _ => None) [])
    [(dangling, sbytes "1"); (ex_compiled, sbytes "2")] w
  /\ Forall (fun e => lib_wf (fst e)) [(dangling, sbytes "1"); (ex_compiled, sbytes "2")]
  /\ NoDup (map (fun e => (l_name (fst e), snd e)) [(dangling, sbytes "1"); (ex_compiled, sbytes "2")]).
Proof.
  eexists. split; [eapply saves_next; [vm_compute; reflexivity|]; eapply saves_next; [vm_compute; reflexivity|]; constructor|].
  split; [constructor; [|constructor; [|constructor]]|].
  - apply (C74_refuted no_text no_text no_text no_text no_text (@List.length _) (fun _ => true)).
  - apply C74_case.
  - constructor; [intros [H|[]]; discriminate H|]. constructor; [intros []|constructor].
Qed.
Example C74_source_case : symlib_wf 3 ex_source /\ externs_listed ex_source /\ compile 3 true ex_source = Ok ex_compiled
  /\ Forall (fun e => lenN (snd e) < 2 ^ 16 - 1) (y_extern ex_source).
Proof. exact C36_source_case. Qed.

Example C74_saved_case : exists w, serialize_lib no_text no_text no_text no_text no_text (@List.length _) (fun _ => true)
  Source (Some (sbytes "stl")) (sbytes "1") None ex_compiled (mkWorld (fun _ => None) []) = (w, Ok tt).
Proof. eexists. vm_compute. reflexivity. Qed.

(** ** C76: data which are accepted have no other data which are accepted as a beginning *)

Theorem C76 : forall b x,
  (forall l l', deserialize dec_lib b = Some l -> deserialize dec_lib (b ++ x) = Some l' -> x = [])
  /\ (forall s s', deserialize dec_sys b = Some s -> deserialize dec_sys (b ++ x) = Some s' -> x = [])
  /\ (forall s s', deserialize dec_symbols b = Some s -> deserialize dec_symbols (b ++ x) = Some s' -> x = [])
  /\ (forall s s', deserialize dec_symsys b = Some s -> deserialize dec_symsys (b ++ x) = Some s' -> x = [])
  /\ (forall depth s s', deserialize (dec_symlib depth) b = Some s -> deserialize (dec_symlib depth) (b ++ x) = Some s' -> x = []).
Proof.
  intros b x. repeat split; intros *; apply local_free.
  - apply local_lib.
  - apply local_sys.
  - apply local_symbols.
  - apply local_symsys.
  - apply local_symlib.
Qed.
Print Assumptions C76.

(** So a file which was written only in part is never loaded, nor one with something after the end. *)
Theorem C76_truncated : forall l p x w path, lib_wf l -> enc_lib l = p ++ x -> x <> [] -> read_file w path = Some p -> load_lib w path = None.
Proof.
  intros l p x w path W E N R. unfold load_lib. rewrite R. cbn [obind]. destruct (lenN p <=? u24_max); [|reflexivity].
  destruct (deserialize dec_lib p) as [l'|] eqn:D; [|reflexivity]. destruct N.
  apply (proj1 (C76 p x) l' l D). rewrite <- E. now apply (C31_deserialize l [] (mkSymSys (mkSymbols [] []) [])).
Qed.
Theorem C76_extended : forall l x w path, lib_wf l -> x <> [] -> read_file w path = Some (enc_lib l ++ x) -> load_lib w path = None.
Proof.
  intros l x w path W N R. unfold load_lib. rewrite R. cbn [obind]. destruct (lenN (enc_lib l ++ x) <=? u24_max); [|reflexivity].
  destruct (deserialize dec_lib (enc_lib l ++ x)) as [l'|] eqn:D; [|reflexivity]. destruct N.
  refine (proj1 (C76 (enc_lib l) x) l l' _ D). now apply (C31_deserialize l [] (mkSymSys (mkSymbols [] []) [])).
Qed.
Example C76_case : lib_wf ex_compiled /\ (exists p x, enc_lib ex_compiled = p ++ x /\ x <> [] /\ lenN p = 100).
Proof. split; [apply C74_case|]. exists (firstn 100 (enc_lib ex_compiled)), (skipn 100 (enc_lib ex_compiled)). vm_compute. repeat split. discriminate. Qed.
Print Assumptions C76_truncated.
Print Assumptions C76_extended.
