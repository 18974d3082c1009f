(** Properties of the binary format of libraries, type systems and symbol tables. *)
From Coq Require Import NArith List Bool String Strings.Byte Sorted Lia.
From Verif Require Import Base Sha256 Ty Ids TypeSys Typify LibCodec SpecIds SpecLib LibCodecProofs BTreeProofs LibCodecProofs2 LibCodecProofs3 Artifacts.
Import ListNotations.
Local Open Scope string_scope.
Local Open Scope N_scope.

(** ** C31: what is encoded is decoded *)

(** Decoding the encoding of a well-formed library followed by any data gives the library and consumes
    exactly its bytes. *)
Theorem C31_library : forall l trailing, lib_wf l -> dec_lib (enc_lib l ++ trailing)%list = Some (l, trailing).
Proof. intros l r W. now apply codec_lib. Qed.

(** The same for symbolic libraries whose definitions in place are nested to any depth [n]; decoding
    recurses as deep. *)
Lemma tref_wf_mono n m r : (n <= m)%nat -> tref_wf n r -> tref_wf m r.
Proof.
  revert m r; induction n as [|n IH]; intros m r L W; [destruct W|]. destruct m as [|m]; [lia|]. assert (L' : (n <= m)%nat) by lia.
  destruct r as [t|s|s]; cbn [tref_with] in *; auto. destruct t; cbn [ty_with] in *; auto.
  - destruct W as [A B]. split; auto. eapply Forall_impl; [|exact B]. auto.
  - destruct W as [A B]. split; auto. eapply Forall_impl; [|exact B]. auto.
  - destruct W as (A & B & C). repeat split; try tauto; try apply A. eapply Forall_impl; [|exact C]. auto.
  - destruct W as [A B]. auto.
  - destruct W as [A B]. auto.
  - destruct W as [A B]. auto.
  - destruct W as (A & B & C). auto.
Qed.
Theorem C31_symbolic : forall n l trailing, symlib_wf n l ->
  forall depth, (n <= depth)%nat -> dec_symlib depth (enc_symlib l ++ trailing)%list = Some (l, trailing).
Proof.
  intros n l r (A & B & C & D & E & F) m L. apply codec_symlib. repeat split; auto; try apply B; try apply C; try apply D.
  eapply Forall_impl; [|exact F]. intros e [G H]. split; auto.
  assert (X : tref_wf (S m) (TrEmbedded (snd e))); [|exact X]. apply (tref_wf_mono (S n)); [lia|exact H].
Qed.

Theorem C31_system : forall s trailing, system_wf s -> dec_sys (enc_sys s ++ trailing)%list = Some (s, trailing).
Proof. intros l r W. now apply codec_sys. Qed.

Theorem C31_symbols : forall s trailing, symbols_wf s -> dec_symbols (enc_symbols s ++ trailing)%list = Some (s, trailing).
Proof. intros l r W. now apply codec_symbols. Qed.

Theorem C31_symbolic_system : forall s trailing, symsys_wf s -> dec_symsys (enc_symsys s ++ trailing)%list = Some (s, trailing).
Proof. intros l r W. now apply codec_symsys. Qed.

(** Deserialization, which requires all data to be consumed, restores the object. *)
Theorem C31_deserialize : forall l s y,
  (lib_wf l -> deserialize dec_lib (enc_lib l) = Some l)
  /\ (system_wf s -> deserialize dec_sys (enc_sys s) = Some s)
  /\ (symsys_wf y -> deserialize dec_symsys (enc_symsys y) = Some y).
Proof.
  intros l s y. unfold deserialize. repeat split; intros W.
  - rewrite <- (app_nil_r (enc_lib l)), (proj1 codec_lib) by assumption. reflexivity.
  - rewrite <- (app_nil_r (enc_sys s)), (proj1 codec_sys) by assumption. reflexivity.
  - rewrite <- (app_nil_r (enc_symsys y)), (proj1 codec_symsys) by assumption. reflexivity.
Qed.

(** The libraries shipped with the code are well-formed. *)
Example C31_example : exists l, lib_wf l /\ enc_lib l = strict_types_bytes /\ lenN (l_types l) = 59.
Proof.
  assert (E : match dec_lib strict_types_bytes with Some (l, []) => (lenN (l_types l) =? 59) = true | _ => False end) by (vm_compute; reflexivity).
  destruct (dec_lib strict_types_bytes) as [[l [|]]|] eqn:D; try contradiction. exists l.
  pose proof strict_types_decodes as X. unfold deserialize in X. rewrite D in X. cbn [obind] in X. destruct X as (X & _).
  apply N.eqb_eq in E. assert (N : match dec_lib strict_types_bytes with Some (l, _) => forallb nodupb (lib_names l) | None => false end = true) by (vm_compute; reflexivity).
  rewrite D in N. apply lib_distinct in D; auto.
Qed.

(** A symbolic library with a definition in place within another one. *)
Definition sym_example : sym_lib :=
  mkSymLib "Lib" [mkDep 5 "Dep"] [("Dep", [(7, "Ext")])]
    [("A", TTuple [TrEmbedded (TList (TrEmbedded (TTuple [TrNamed "B"; TrExtern (mkSymRef "Dep" "Ext" 5 7)])) (mkSizing 0 9))]);
     ("B", TEnum [mkVariant "x" 0; mkVariant "y" 200])]%string.
Example C31_symbolic_example : symlib_wf 3 sym_example.
Proof.
  destruct (dec_symlib 3 (enc_symlib sym_example)) as [[l r]|] eqn:D; [|exfalso; vm_compute in D; discriminate].
  assert (E : Some (l, r) = Some (sym_example, [])) by (rewrite <- D; vm_compute; reflexivity). injection E as -> ->.
  now apply symlib_distinct in D.
Qed.

Definition symsys_example : symbolic_sys :=
  mkSymSys (mkSymbols [mkDep 5 "Dep"] [mkSymbol 3 None; mkSymbol 7 (Some (mkFqn "Dep" "Ext"))])
    [(3, TUnion [(mkVariant "none" 0, 9); (mkVariant "some" 1, 7)]); (7, TStruct [("a", 9); ("b", 3)]%string); (9, TPrim 0)].
Example C31_system_example : symsys_wf symsys_example.
Proof.
  destruct (dec_symsys (enc_symsys symsys_example)) as [[l r]|] eqn:D; [|exfalso; vm_compute in D; discriminate].
  assert (E : Some (l, r) = Some (symsys_example, [])) by (rewrite <- D; vm_compute; reflexivity). injection E as -> ->.
  now apply symsys_distinct in D.
Qed.

(** ** C32: canonicity *)

(** The full statement is false: a union with a repeated variant name is accepted, one of the two
    variants is lost, and two different byte strings are decoded to the same library (type system). *)
Definition union_sys (names : list string) : bytes :=
  (enc_uint 3 1 ++ enc_id 7 ++ b8 4 :: enc_list 1 (fun e => enc_uint 1 (fst e) ++ enc_name (snd e) ++ enc_id 9)
    (combine [0; 1; 2] names))%list.
Theorem C32_refuted : exists b b' s, b <> b'
  /\ deserialize dec_sys b = Some s /\ deserialize dec_sys b' = Some s /\ system_wf s /\ enc_sys s <> b.
Proof.
  exists (union_sys ["a"; "b"; "a"]%string), (union_sys ["a"; "b"; "b"]%string), [(7, TUnion [(mkVariant "a" 0, 9); (mkVariant "b" 1, 9)])].
  split; [vm_compute; discriminate|]. split; [vm_compute; reflexivity|]. split; [vm_compute; reflexivity|]. split.
  - destruct (dec_sys (union_sys ["a"; "b"]%string)) as [[l r]|] eqn:D; [|exfalso; vm_compute in D; discriminate].
    assert (E : Some (l, r) = Some ([(7, TUnion [(mkVariant "a" 0, 9); (mkVariant "b" 1, 9)])], [])) by (rewrite <- D; vm_compute; reflexivity).
    injection E as -> ->. now apply system_distinct in D.
  - vm_compute. discriminate.
Qed.

(** The same for libraries. *)
Definition union_lib (names : list string) : bytes :=
  (enc_name "Lib" ++ [b8 0; b8 0] ++ enc_uint 2 1 ++ enc_name "Ty" ++ b8 4 :: enc_list 1 (fun e => enc_uint 1 (fst e) ++ enc_name (snd e) ++ b8 1 :: enc_id 9)
    (combine [0; 1; 2] names))%list.
Theorem C32_library_refuted : exists b b' l, b <> b'
  /\ deserialize dec_lib b = Some l /\ deserialize dec_lib b' = Some l /\ lib_wf l /\ enc_lib l <> b.
Proof.
  exists (union_lib ["a"; "b"; "a"]%string), (union_lib ["a"; "b"; "b"]%string),
    (mkLib "Lib" [] [] [("Ty"%string, TUnion [(mkVariant "a" 0, RNamed 9); (mkVariant "b" 1, RNamed 9)])]).
  split; [vm_compute; discriminate|]. split; [vm_compute; reflexivity|]. split; [vm_compute; reflexivity|]. split.
  - destruct (dec_lib (union_lib ["a"; "b"]%string)) as [[l r]|] eqn:D; [|exfalso; vm_compute in D; discriminate].
    assert (E : Some (l, r) = Some (mkLib "Lib" [] [] [("Ty"%string, TUnion [(mkVariant "a" 0, RNamed 9); (mkVariant "b" 1, RNamed 9)])], [])) by (rewrite <- D; vm_compute; reflexivity).
    injection E as -> ->. now apply lib_distinct in D.
  - vm_compute. discriminate.
Qed.

(** Names of variants may even repeat in what is decoded, in an enumeration or union with more than eleven variants: the
    search tree does not compare all of them. *)
Theorem C32_names_refuted : exists b s, deserialize dec_sys b = Some s /\ b = enc_sys s /\ ~ system_wf s.
Proof.
  set (vs := map (fun e => (mkVariant (fst e) (snd e), 9))
    (combine ["a"; "b"; "c"; "d"; "e"; "f"; "g"; "h"; "i"; "j"; "k"; "l"; "a"]%string [0; 1; 2; 3; 4; 5; 6; 7; 8; 9; 10; 11; 12])).
  exists (enc_sys [(7, TUnion vs)]), [(7, TUnion vs)]. split; [vm_compute; reflexivity|]. split; [reflexivity|].
  intros (_ & _ & F). inversion F as [|? ? [_ W] _]; subst. cbn [snd ty_with] in W. destruct W as [(_ & _ & N & _) _].
  cbn in N. inversion N as [|? ? N1 _]; subst. apply N1. cbn. tauto.
Qed.

(** Part of the statement which holds: what is decoded is well-formed, except that names of variants may repeat when
    there are more than eleven; and re-encoding it gives the bytes read, or fewer bytes (when repeated variant names
    were dropped). So the encoding is the shortest of the byte strings decoded to the object, and the only one of its
    length. Missing: byte strings which decode only by dropping variants are not rejected. *)
Lemma codec_deserialize {A} (ok ok' : A -> Prop) enc dec b a : codec2 ok ok' enc dec -> deserialize dec b = Some a ->
  ok' a /\ (b = enc a \/ lenN (enc a) < lenN b).
Proof.
  intros C E. unfold deserialize in E. destruct (dec b) as [[x r]|] eqn:D; cbn [obind] in E; [|discriminate].
  destruct r; [|discriminate]. injection E as ->. apply C in D as [O Q]. split; auto.
  rewrite app_nil_r in Q. cbn [List.length] in Q. unfold lenN. destruct Q; [auto|right; lia].
Qed.
Theorem C32_library_partial : forall b l, deserialize dec_lib b = Some l -> lib_with few_distinct l /\ (b = enc_lib l \/ lenN (enc_lib l) < lenN b).
Proof. intros b l. apply (codec_deserialize lib_wf), codec_lib. Qed.
Theorem C32_system_partial : forall b s, deserialize dec_sys b = Some s -> system_with few_distinct s /\ (b = enc_sys s \/ lenN (enc_sys s) < lenN b).
Proof. intros b l. apply (codec_deserialize system_wf), codec_sys. Qed.
Theorem C32_symbolic_partial : forall depth b l, deserialize (dec_symlib depth) b = Some l ->
  symlib_with few_distinct depth l /\ (b = enc_symlib l \/ lenN (enc_symlib l) < lenN b).
Proof. intros n b l. apply (codec_deserialize (symlib_wf n)), codec_symlib. Qed.
Theorem C32_symbolic_system_partial : forall b s, deserialize dec_symsys b = Some s ->
  symsys_with few_distinct s /\ (b = enc_symsys s \/ lenN (enc_symsys s) < lenN b).
Proof. intros b l. apply (codec_deserialize symsys_wf), codec_symsys. Qed.

(** With at most eleven variants in each enumeration and union, what is decoded is well-formed, so it is decoded again
    from its encoding. *)
Theorem C32_few_partial : forall b l s,
  (deserialize dec_lib b = Some l -> Forall (fun names => lenN names <= 11) (lib_names l) -> lib_wf l /\ deserialize dec_lib (enc_lib l) = Some l)
  /\ (deserialize dec_symsys b = Some s -> Forall (fun names => lenN names <= 11) (system_names (ss_types s)) ->
      symsys_wf s /\ deserialize dec_symsys (enc_symsys s) = Some s).
Proof.
  intros b l s. split; intros D F.
  - assert (W : lib_wf l). { apply C32_library_partial in D as [W _]. apply (lib_change few_distinct (fun names => lenN names <= 11)); [unfold few_distinct; auto|exact W|exact F]. }
    split; [exact W|]. now apply (C31_deserialize l [] s).
  - assert (W : symsys_wf s). { apply C32_symbolic_system_partial in D as [[A W] _]. split; [exact A|]. apply (system_change few_distinct (fun names => lenN names <= 11)); [unfold few_distinct; auto|exact W|exact F]. }
    split; [exact W|]. now apply (C31_deserialize l [] s).
Qed.

(** Libraries and type systems without enumerations and unions are decoded only from their encoding. *)
Theorem C32_plain_partial : forall b b' l l', deserialize dec_lib b = Some l -> deserialize dec_lib b' = Some l' ->
  lib_plain l -> b = enc_lib l /\ (l = l' -> b = b').
Proof.
  intros b b' l l' E E' P. unfold deserialize in *.
  destruct (dec_lib b) as [[x r]|] eqn:D; cbn [obind] in E; [|discriminate].
  destruct (dec_lib b') as [[x' r']|] eqn:D'; cbn [obind] in E'; [|discriminate].
  destruct r; [|discriminate]. destruct r'; [|discriminate]. injection E as ->. injection E' as ->.
  apply exact_lib in D; [|exact P]. rewrite app_nil_r in D. split; [exact D|]. intros ->.
  apply exact_lib in D'; [|exact P]. rewrite app_nil_r in D'. congruence.
Qed.
Theorem C32_plain_system_partial : forall b s, deserialize dec_sys b = Some s -> system_plain s -> b = enc_sys s.
Proof.
  intros b s E P. unfold deserialize in *. destruct (dec_sys b) as [[x r]|] eqn:D; cbn [obind] in E; [|discriminate].
  destruct r; [|discriminate]. injection E as ->. apply exact_sys in D; [|exact P]. now rewrite app_nil_r in D.
Qed.

(** Symbol tables are canonical. *)
Theorem C32_symbols : forall b s, deserialize dec_symbols b = Some s -> b = enc_symbols s /\ symbols_wf s.
Proof.
  intros b s E. unfold deserialize in *. destruct (dec_symbols b) as [[x r]|] eqn:D; cbn [obind] in E; [|discriminate].
  destruct r; [|discriminate]. injection E as ->. pose proof D as D'. apply exact_symbols in D; [|exact I]. rewrite app_nil_r in D. split; auto.
  now apply codec_symbols in D'.
Qed.

(** The shipped library decodes; a library with structures, lists and maps is decoded from one string only. *)
Example C32_example : exists l, deserialize dec_lib strict_types_bytes = Some l.
Proof. pose proof strict_types_decodes as X. destruct (deserialize dec_lib strict_types_bytes) as [l|]; [eauto|contradiction]. Qed.
Definition plain_lib : type_lib :=
  mkLib "Lib" [mkDep 5 "Dep"] [("Dep", [(7, "Ext")])]
    [("A", TStruct [("x", RNamed 8); ("y", RExtern (mkExtern 5 7))]);
     ("B", TMap (RInline (TPrim P_U8)) (RInline (TList (RInline (TTuple [RNamed 8])) (mkSizing 0 255))) (mkSizing 1 5))]%string.
Example C32_plain_example : deserialize dec_lib (enc_lib plain_lib) = Some plain_lib /\ lib_plain plain_lib.
Proof. split; [vm_compute; reflexivity|]. repeat constructor. Qed.
Example C32_symbols_example : deserialize dec_symbols (enc_symbols (ss_symbols symsys_example)) = Some (ss_symbols symsys_example).
Proof. vm_compute. reflexivity. Qed.

Print Assumptions C31_library.
Print Assumptions C31_symbolic.
Print Assumptions C31_system.
Print Assumptions C31_symbols.
Print Assumptions C31_symbolic_system.
Print Assumptions C31_deserialize.
Print Assumptions C32_refuted.
Print Assumptions C32_library_refuted.
Print Assumptions C32_names_refuted.
Print Assumptions C32_few_partial.
Print Assumptions C32_library_partial.
Print Assumptions C32_system_partial.
Print Assumptions C32_symbolic_partial.
Print Assumptions C32_symbolic_system_partial.
Print Assumptions C32_plain_partial.
Print Assumptions C32_plain_system_partial.
Print Assumptions C32_symbols.
