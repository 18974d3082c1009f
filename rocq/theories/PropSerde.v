(** Properties of the exchange of values with self-describing formats: C59, C60. *)
From Coq Require Import NArith ZArith List Bool String Ascii Strings.Byte Permutation Lia.
From Verif Require Import Base Ty Ids Val TypeSys Encode Decode DecodeShort Typify Spec SpecTypify CodecLemmas CodecProofs ExampleSys
  TypifyProofs TypifyProofs4 PropTypify Serde SpecSerde SerdeProofs.
Import ListNotations.
Local Open Scope N_scope.

(** A type system with the types of the example and a structure. *)
Definition st_root : ty semid := TStruct
  [("num"%string, i_i8); ("color"%string, i_color); ("opt"%string, i_option); ("text"%string, i_text);
   ("word"%string, i_word); ("list"%string, i_list)].
Definition si_root := Eval vm_compute in uid st_root.
Definition st_new : ty semid := TTuple [si_root].
Definition si_new := Eval vm_compute in uid st_new.
Definition s_sys : type_system := Eval vm_compute in build (st_root :: st_new :: ex_types).

Lemma s_sys_wf : wf_sys s_sys.
Proof.
  apply wf_sys_entries.
  - unfold s_sys. repeat (apply Forall_cons; [wf_entry|]). constructor.
  - unfold s_sys at 2. repeat (apply Forall_cons; [vm_compute; try exact I; reflexivity|]). constructor.
  - rewrite unit_id_val. intros t H. vm_compute in H. injection H as <-. reflexivity.
Qed.
Lemma s_sys_known : known_ids s_sys.
Proof.
  unfold known_ids. rewrite byte_id_val, u8_id_val, unicode_id_val.
  repeat split; intros t H; vm_compute in H; injection H as <-; reflexivity.
Qed.
Lemma s_sys_byte_strings : byte_in_strings_only s_sys.
Proof.
  intros id t r H. revert r.
  apply (sys_entries s_sys (fun _ t => forall r, In r (refs t) -> sys_find s_sys r = Some (TPrim P_BYTE) ->
    byte_item r /\ ((exists len, t = TArray r len) \/ (exists s, t = TList r s /\ s_max s < 2 ^ 32)))) with (id := id);
    [|exact H]. clear id t H.
  unfold s_sys at 2. 
  repeat (apply Forall_cons; [cbn [fst snd refs map]; intros r I F;
    repeat (destruct I as [<-|I]; [first [exfalso; vm_compute in F; discriminate F
      | split; [left; rewrite byte_id_val; reflexivity|first [left; eexists; reflexivity|right; eexists; split; reflexivity]]]|]);
    destruct I|]). constructor.
Qed.
Lemma s_sys_names : names_valid s_sys.
Proof.
  intros id t. apply (sys_entries s_sys (fun _ t => match t with
    | TStruct fs => Forall (fun f => identifier (fst f)) fs
    | TEnum vs => Forall (fun v => identifier (v_name v)) vs
    | TUnion vs => Forall (fun v => identifier (v_name (fst v))) vs
    | _ => True
    end)).
  unfold s_sys. repeat (apply Forall_cons; [cbn; try exact I; repeat (apply Forall_cons; [apply ok_identifier; vm_compute; reflexivity|]); constructor|]).
  constructor.
Qed.
Lemma s_sys_arrays : no_empty_arrays s_sys.
Proof.
  intros id r H. apply (sys_entries s_sys (fun _ t => t <> TArray r 0)) in H; [now apply H|].
  unfold s_sys. repeat (apply Forall_cons; [discriminate|]). constructor.
Qed.

(** ** C59: writing a value with serde and reading it back *)

(** Full statement: a value of a type, written with serde into a document, read back from it as a value and typified
    for the same type, is the same value. Proved for values without sets, maps and bytes, without lists and tuples
    of two items of which the first looks like the tag of a variant, and without enum variants of one letter.
    The text form of numbers of 1024 bits is any text longer than a name. *)
Theorem C59_reread_partial : forall big_text read_big c sys id v,
  wf_sys sys -> known_ids sys -> byte_in_strings_only sys -> names_valid sys -> no_empty_arrays sys ->
  (forall s n, read_big s = Some n -> 100 < slen s) ->
  sys_find sys id <> Some (TPrim P_BYTE) ->
  has_type (mkMode true false) c sys id v -> documentable read_big v ->
  exists w, read read_big (ser big_text v) = Some w
    /\ returns (fun fuel => typify fuel sys w id) (Ok (mkTyped id v)).
Proof.
  intros bt rb c sys id v W K B V NE RB N T D.
  destruct (reread_typed bt rb c sys W K B V NE RB id v T N D) as (w & R & TY). exists w. split; [exact R|].
  exists (vdepth v). intros fuel L. unfold typify. rewrite (TY fuel L). reflexivity.
Qed.
Print Assumptions C59_reread_partial.

Definition s_value : sval := VTuple [VStruct
  [("num"%string, VNum (Int 7)); ("color"%string, VEnum (Name "green"));
   ("opt"%string, VUnion (Name "some") (VNum (Uint 3))); ("text"%string, VStr "any text"); ("word"%string, VStr "abc");
   ("list"%string, VList [VTuple [VNum (Uint 300); VUnion (Name "none") VUnit]])]].
Lemma s_text_typed : has_type (mkMode true false) ex_config s_sys i_text (VStr "any text").
Proof.
  eapply HT_text; [found|found|reflexivity|apply not_byte_item; discriminate|unfold unicode_item; symmetry; apply unicode_id_val|reflexivity|apply Utf8Proofs.utf8_spec; vm_compute; reflexivity|].
  repeat split; vm_compute; try reflexivity; discriminate.
Qed.
Lemma s_word_typed : has_type (mkMode true false) ex_config s_sys i_word (VStr "abc").
Proof.
  eapply (HT_rstring _ _ _ _ _ [97; 98; 99] [97; 98; 99] 1 4); [found| | | |].
  - econstructor; [reflexivity|found|reflexivity|found|found|reflexivity].
  - repeat constructor; vm_compute; reflexivity.
  - repeat split; vm_compute; try reflexivity; discriminate.
  - intros _. split; repeat constructor; vm_compute; tauto.
Qed.
Lemma s_value_typed : has_type (mkMode true false) ex_config s_sys si_new s_value.
Proof.
  eapply HT_tuple; [found|intros a1 a2 mn mx [f r x t1 t2 E' _ _ F _ _]; discriminate E'|].
  apply Forall2_cons; [|constructor]. eapply HT_struct; [found|reflexivity|].
  cbn [map snd]. repeat (apply Forall2_cons); [..|constructor].
  - eapply HT_int; [found|reflexivity|]. split; [discriminate|reflexivity].
  - eapply (HT_enum _ _ _ _ _ (mkVariant "green" 5)); [found|right; left; reflexivity].
  - eapply (HT_union _ _ _ _ _ (mkVariant "some" 1)); [found|right; left; reflexivity|]. eapply HT_uint; [found|reflexivity|reflexivity].
  - exact s_text_typed.
  - exact s_word_typed.
  - eapply HT_list; [found|found|reflexivity| | |].
    + intros _. split; [apply not_byte_item; discriminate|apply not_unicode_item; discriminate].
    + repeat split; vm_compute; try reflexivity; discriminate.
    + apply Forall_cons; [|constructor]. eapply HT_tuple; [found| |].
      * intros a1 a2 mn mx. eapply sys_find_none_tuple2; [reflexivity|]. intros r s H. vm_compute in H. discriminate H.
      * repeat (apply Forall2_cons); [..|constructor]; [eapply HT_uint; [found|reflexivity|reflexivity]|].
        eapply (HT_union _ _ _ _ _ (mkVariant "none" 0)); [found|left; reflexivity|]. apply HT_unit. found.
Qed.
Example C59_case : documentable (fun _ => None) s_value
  /\ read (fun _ => None) (ser (fun _ => ""%string) s_value) <> Some s_value.
Proof.
  split; [|vm_compute; discriminate].
  cbn. repeat split; try (vm_compute; discriminate); try (intros a b E; discriminate E).
  intros a b E. injection E as <- <-. vm_compute. discriminate.
Qed.

(** The full statement fails: a pair which begins with a small number is read back as a variant of a union and
    rejected ... *)
Theorem C59_pairs_refuted : exists c sys id v, wf_sys sys /\ has_type (mkMode true false) c sys id v
  /\ forall big_text read_big w fuel tv, read read_big (ser big_text v) = Some w -> typify fuel sys w id <> Ok tv.
Proof.
  exists ex_config, s_sys, i_pair, (VTuple [VNum (Uint 1); VUnion (Name "none") VUnit]). split; [exact s_sys_wf|]. split.
  - eapply HT_tuple; [found| |].
    + intros a1 a2 mn mx. eapply sys_find_none_tuple2; [reflexivity|]. intros r s H. vm_compute in H. discriminate H.
    + repeat (apply Forall2_cons); [..|constructor]; [eapply HT_uint; [found|reflexivity|reflexivity]|].
      eapply (HT_union _ _ _ _ _ (mkVariant "none" 0)); [found|left; reflexivity|]. apply HT_unit. found.
  - intros bt rb w fuel tv R. cbn in R. injection R as <-. destruct fuel as [|fuel]; vm_compute; discriminate.
Qed.
Print Assumptions C59_pairs_refuted.

(** ... bytes are silently replaced by the bytes of their hexadecimal text ... *)
Theorem C59_bytes_refuted : exists c sys id v v', wf_sys sys /\ has_type (mkMode true false) c sys id v /\ v <> v'
  /\ forall big_text read_big, (forall s n, read_big s = Some n -> 100 < slen s) ->
     exists w, read read_big (ser big_text v) = Some w /\ returns (fun fuel => typify fuel sys w id) (Ok (mkTyped id v')).
Proof.
  exists ex_config, s_sys, i_blob, (VBytes [xde; xad]), (VBytes (sbytes "dead")). split; [exact s_sys_wf|]. split; [|split].
  - eapply HT_bytes; [found|found|reflexivity|left; symmetry; apply byte_id_val|reflexivity|].
    repeat split; vm_compute; try reflexivity; discriminate.
  - discriminate.
  - intros bt rb RB. exists (VStr "dead"). split; [|by_compute]. cbn [ser read]. change (to_hex [xde; xad]) with "dead"%string.
    destruct (rb "dead"%string) as [n|] eqn:E; [|reflexivity]. apply RB in E. vm_compute in E. discriminate E.
Qed.
Print Assumptions C59_bytes_refuted.

(** ... a variant with the name of one letter which is the code of a letter stays text, which is another value and
    cannot be serialized ... *)
Theorem C59_letters_refuted : exists c sys id v v', wf_sys sys /\ has_type (mkMode true false) c sys id v /\ v <> v'
  /\ forall big_text read_big, (forall s n, read_big s = Some n -> 100 < slen s) ->
     exists w, read read_big (ser big_text v) = Some w /\ returns (fun fuel => typify fuel sys w id) (Ok (mkTyped id v'))
       /\ forall ce max_len, strict_serialize_value max_len ce sys (mkTyped id v') = Panic.
Proof.
  exists ex_config, s_sys, i_letter, (VEnum (Name "a")), (VStr "a"). split; [exact s_sys_wf|]. split; [|split].
  - eapply (HT_enum _ _ _ _ _ (mkVariant "a" 97)); [found|left; reflexivity].
  - discriminate.
  - intros bt rb RB. exists (VStr "a"). split; [|split; [by_compute|]].
    + cbn [ser read ser_tag]. destruct (rb "a"%string) as [n|] eqn:E; [|reflexivity]. apply RB in E. vm_compute in E. discriminate E.
    + intros [] max_len; vm_compute; reflexivity.
Qed.
Print Assumptions C59_letters_refuted.

(** ... and no set and no map is ever accepted back. *)
Theorem C59_collections_refuted : forall big_text read_big sys id t v w fuel tv,
  type_of sys id = Some t ->
  ((exists r sz l, t = TSet r sz /\ v = VSet l) \/ (exists k r sz l, t = TMap k r sz /\ v = VMap l)) ->
  read read_big (ser big_text v) = Some w -> typify fuel sys w id <> Ok tv.
Proof.
  intros bt rb sys id t v w fuel tv TO TV R.
  assert (S : exists l, ser bt v = DSeq l) by (destruct TV as [(r & sz & l & _ & ->)|(k & r & sz & l & _ & ->)]; cbn; eauto).
  destruct S as [l S]. rewrite S in R.
  assert (L : (exists l', w = VList l') \/ exists g x, w = VUnion g x).
  { clear -R. cbn [read] in R. destruct l as [|a [|b [|? ?]]]; try (left; match type of R with option_map _ ?o = _ => destruct o; [|discriminate R] end; injection R as <-; eauto).
    destruct (read_tag a); [destruct (read rb b) eqn:E; [right; injection R as <-; eauto|]|];
      (left; match type of R with option_map _ ?o = _ => destruct o; [|discriminate R] end; injection R as <-; eauto). }
  unfold typify. destruct fuel as [|fuel]; [discriminate|]. cbn [typify_val]. rewrite TO. cbn [ok_or bind].
  destruct TV as [(r & sz & l' & -> & _)|(k & r & sz & l' & -> & _)], L as [(l'' & ->)|(g & x & ->)]; discriminate.
Qed.
Print Assumptions C59_collections_refuted.
Example C59_collections_case : exists w, type_of s_sys i_set = Some t_set
  /\ read (fun _ => None) (ser (fun _ => ""%string) (VSet [VNum (Uint 1)])) = Some w.
Proof. eexists. split; [found|vm_compute; reflexivity]. Qed.

(** ** C60: values given as JSON, YAML or TOML documents *)

(** Full statement: a document which describes a value of a type in the natural way is converted into a notation of the
    value: after typification it is serialized into the bytes of the value, which deserialize into the value.
    Proved for documents of the specification: without sets and unions other than optionals, and for TOML with
    integers for signed numbers only. *)
Theorem C60_documents_partial : forall toml c ce sys id d w,
  wf_sys sys -> known_ids sys -> natural toml c sys id d w ->
  has_type (mkMode true false) c sys id w
  /\ exists v tv bs,
    convert toml d = Ok v
    /\ returns (fun fuel => typify fuel sys v id) (Ok tv)
    /\ (forall max_len, lenN bs <= max_len ->
          strict_serialize_value max_len ce sys tv = Ok bs
          /\ strict_serialize_value max_len ce sys (mkTyped id w) = Ok bs)
    /\ (lenN bs <= u32_max ->
          returns (fun fuel => strict_deserialize_type fuel c sys id bs) (Ok (mkTyped id w))).
Proof.
  intros toml c ce sys id d w W K N. destruct (natural_gives toml c sys id d w N) as (v & F & D).
  destruct (C41_notations c ce sys id v w W K D) as (T & tv & bs & A & B & C). split; [exact T|]. exists v, tv, bs. auto.
Qed.
Print Assumptions C60_documents_partial.

Example C60_case : natural false ex_config s_sys si_new
  (DMap [(DStr "opt", DNum 300); (DStr "color", DStr "green"); (DStr "num", DNum (-7)); (DStr "word", DStr "abc");
         (DStr "text", DStr "any text"); (DStr "list", DSeq [DSeq [DNum 1; DNull]; DSeq [DNum 2; DNum 3]])])
  (VTuple [VStruct
    [("num"%string, VNum (Int (-7))); ("color"%string, VEnum (Name "green"));
     ("opt"%string, VUnion (Name "some") (VNum (Uint 300))); ("text"%string, VStr "any text"); ("word"%string, VStr "abc");
     ("list"%string, VList [VTuple [VNum (Uint 1); VUnion (Name "none") VUnit];
                            VTuple [VNum (Uint 2); VUnion (Name "some") (VNum (Uint 3))]])]]).
Proof.
  eapply ND_newtype; [found|discriminate|].
  eapply (ND_struct _ _ _ _ [("num"%string, i_i8); ("color"%string, i_color); ("opt"%string, i_option); ("text"%string, i_text);
   ("word"%string, i_word); ("list"%string, i_list)] _
   [("num"%string, (DNum (-7), VNum (Int (-7)))); ("color"%string, (DStr "green", VEnum (Name "green")));
    ("opt"%string, (DNum 300, VUnion (Name "some") (VNum (Uint 300)))); ("text"%string, (DStr "any text", VStr "any text"));
    ("word"%string, (DStr "abc", VStr "abc"));
    ("list"%string, (DSeq [DSeq [DNum 1; DNull]; DSeq [DNum 2; DNum 3]],
       VList [VTuple [VNum (Uint 1); VUnion (Name "none") VUnit]; VTuple [VNum (Uint 2); VUnion (Name "some") (VNum (Uint 3))]]))]).
  - found.
  - reflexivity.
  - repeat (apply Forall_cons; [apply ok_identifier; vm_compute; reflexivity|]). constructor.
  - cbn [map snd]. repeat (apply Forall2_cons); [..|constructor]; cbn [fst snd].
    + eapply ND_int; [found|reflexivity|]. split; [discriminate|reflexivity].
    + eapply (ND_enum _ _ _ _ _ (mkVariant "green" 5)); [found|right; left; reflexivity|apply ok_identifier; vm_compute; reflexivity|discriminate].
    + eapply ND_some; [found|discriminate|]. eapply (ND_uint _ _ _ _ _ _ 300); [reflexivity|found|reflexivity|reflexivity].
    + apply ND_text. exact s_text_typed.
    + apply ND_text. exact s_word_typed.
    + eapply (ND_list _ _ _ _ _ _ _ _
        [(DSeq [DNum 1; DNull], VTuple [VNum (Uint 1); VUnion (Name "none") VUnit]);
         (DSeq [DNum 2; DNum 3], VTuple [VNum (Uint 2); VUnion (Name "some") (VNum (Uint 3))])]); [found|found|reflexivity| | |].
      * intros _. split; [apply not_byte_item; discriminate|apply not_unicode_item; discriminate].
      * repeat split; vm_compute; try reflexivity; discriminate.
      * assert (NR : forall a1 a2 mn mx, ~ restricted_string s_sys [i_u16; i_option] a1 a2 mn mx).
        { intros a1 a2 mn mx. eapply sys_find_none_tuple2; [reflexivity|]. intros r s H. vm_compute in H. discriminate H. }
        repeat apply Forall_cons; [..|constructor]; cbn [fst snd].
        -- eapply (ND_tuple _ _ _ _ _ [(DNum 1, VNum (Uint 1)); (DNull, VUnion (Name "none") VUnit)]); [found|exact NR|].
           repeat (apply Forall2_cons); [..|constructor]; cbn [fst snd];
             [eapply (ND_uint _ _ _ _ _ _ 1); [reflexivity|found|reflexivity|reflexivity]|eapply ND_none; [reflexivity|found|found]].
        -- eapply (ND_tuple _ _ _ _ _ [(DNum 2, VNum (Uint 2)); (DNum 3, VUnion (Name "some") (VNum (Uint 3)))]); [found|exact NR|].
           repeat (apply Forall2_cons); [..|constructor]; cbn [fst snd];
             [eapply (ND_uint _ _ _ _ _ _ 2); [reflexivity|found|reflexivity|reflexivity]|].
           eapply ND_some; [found|discriminate|]. eapply (ND_uint _ _ _ _ _ _ 3); [reflexivity|found|reflexivity|reflexivity].
  - cbn.
    change (Permutation (nth 2 [(DStr "num", DNum (-7)); (DStr "color", DStr "green"); (DStr "opt", DNum 300)] (DNull, DNull)
      :: [(DStr "color", DStr "green"); (DStr "num", DNum (-7)); (DStr "word", DStr "abc"); (DStr "text", DStr "any text");
          (DStr "list", DSeq [DSeq [DNum 1; DNull]; DSeq [DNum 2; DNum 3]])])
      ([(DStr "num", DNum (-7)); (DStr "color", DStr "green")] ++ nth 2 [(DStr "num", DNum (-7)); (DStr "color", DStr "green"); (DStr "opt", DNum 300)] (DNull, DNull)
       :: [(DStr "text", DStr "any text"); (DStr "word", DStr "abc"); (DStr "list", DSeq [DSeq [DNum 1; DNull]; DSeq [DNum 2; DNum 3]])])).
    apply Permutation_cons_app. cbn. eapply Permutation_trans; [apply perm_swap|]. do 2 apply perm_skip. apply perm_swap.
Qed.

Example C60_toml_natural_case : natural true ex_config s_sys i_i8 (DNum 7) (VNum (Int 7)).
Proof. eapply ND_int; [found|reflexivity|]. split; [discriminate|reflexivity]. Qed.

(** The rest fails: no document is accepted for a set or for a union which is not an optional ... *)
Theorem C60_sets_refuted : forall toml sys id t d v fuel tv, type_of sys id = Some t ->
  ((exists r sz, t = TSet r sz)
   \/ (exists vs, t = TUnion vs /\ forall u r, vs <> [(mkVariant "none" 0, u); (mkVariant "some" 1, r)])) ->
  convert toml d = Ok v -> typify fuel sys v id <> Ok tv.
Proof.
  intros toml sys id t d v fuel tv TO TV F. destruct fuel as [|fuel]; [discriminate|].
  destruct TV as [(r & sz & ->)|(vs & -> & N)].
  - unfold typify. cbn [typify_val]. rewrite TO. cbn [ok_or bind typify_ty]. destruct v; try discriminate. exfalso. exact (proj1 (proj2 (proj2 (convert_not toml d))) _ F).
  - rewrite (C41_optionals_only fuel sys id vs v TO N); [discriminate|]. intros g w ->. exact (proj1 (convert_not toml d) _ _ F).
Qed.
Print Assumptions C60_sets_refuted.
Example C60_sets_case : type_of s_sys i_set = Some t_set /\ from_doc (DSeq [DNum 1; DNum 2]) = Ok (VList [VNum (Uint 1); VNum (Uint 2)]).
Proof. split; [found|reflexivity]. Qed.

(** ... numbers which are not integers stop the program ... *)
Theorem C60_floats_refuted : exists d, from_doc d = Panic /\ from_toml d = Panic.
Proof. exists (DMap [(DStr "rate", DFloat)]). split; reflexivity. Qed.
Print Assumptions C60_floats_refuted.

(** ... and an integer in a TOML document is never accepted where an unsigned number or a variant of an enum is
    expected (except the type Byte). *)
Theorem C60_toml_refuted : forall sys id t z v fuel tv, type_of sys id = Some t ->
  ((exists p w, t = TPrim p /\ p <> P_BYTE /\ uint_width p = Some w) \/ (exists vs, t = TEnum vs)) ->
  from_toml (DNum z) = Ok v -> typify fuel sys v id <> Ok tv.
Proof.
  intros sys id t z v fuel tv TO TV F. injection F as <-. unfold typify. destruct fuel as [|fuel]; [discriminate|]. cbn [typify_val]. rewrite TO.
  destruct TV as [(p & w & -> & NB & U)|(vs & ->)]; [|discriminate]. cbn [ok_or bind typify_ty].
  destruct (is_small_signed p) eqn:S; [|discriminate]. exfalso. unfold is_small_signed in S. apply andb_true_iff in S as [S1 S2].
  apply N.leb_le in S1. apply N.leb_le in S2. unfold uint_width in U.
  destruct ((1 <=? p) && (p <=? 8)) eqn:X; [apply andb_true_iff in X as [_ X]; apply N.leb_le in X; lia|].
  destruct (p =? 0x40) eqn:Y; [now apply NB, N.eqb_eq|discriminate U].
Qed.
Print Assumptions C60_toml_refuted.
Example C60_toml_case : type_of s_sys i_u16 = Some (TPrim P_U16) /\ uint_width P_U16 = Some 2.
Proof. split; [found|reflexivity]. Qed.
