(** Properties of data which Rust programs write, read by means of the libraries derived from their types: C72. *)
From Coq Require Import NArith ZArith List Bool String Strings.Byte Lia.
From Verif Require Import Base Ty Ids Val TypeSys Encode Decode ExampleSys SpecUtf8 Spec SpecIds LibCodec SpecLib Build SpecBuild SpecWire SpecTypify Compile Transpile SpecTranspile
  SpecRust MapLemmas TranspileProofs TranspileProofs3 RustProofs PropBuild PropTranspile PropWire.
Import ListNotations.
Local Open Scope string_scope.
Local Open Scope N_scope.
Local Opaque tagged_hash.

(** ** C72: data which Rust programs write are read with the libraries derived from their types *)

Lemma get_found sys id t : sys_get sys id = Some t -> sys_find sys id = Some t.
Proof.
  unfold sys_get, sys_find. induction sys as [|[k v] m IH]; cbn [om_get find fst]; [discriminate|].
  destruct (N.compare_spec id k) as [->|L|L].
  - rewrite N.eqb_refl. cbn. auto.
  - destruct (N.eqb_spec k id); [lia|]. exact IH.
  - destruct (N.eqb_spec k id); [lia|]. exact IH.
Qed.
Lemma real_ids : standard_ids st_id.
Proof. unfold standard_ids. rewrite byte_id_val, u8_id_val, unicode_id_val. repeat split; vm_compute; reflexivity. Qed.

(** A system built from derived libraries describes the Rust types. *)
Theorem C72_described : forall dbg jobs ls sys, Forall2 (derived_by dbg) jobs ls -> covered jobs -> consistent (libs_defs ls) ->
  build dbg ls = Ok sys ->
  forall j s lib n t, In j jobs -> involved (j_types j) s -> st_name s = Some (lib, n) -> part (meaning t) s ->
  describes (ss_types sys) t.
Proof.
  intros dbg jobs ls sys F CV CON B j s lib n t J I N P p PP.
  apply get_found. eapply C58; eauto. clear - P PP. remember (meaning t) as m eqn:E. clear E.
  induction P as [|? r ? ? I P IH]; [exact PP|]. econstructor; eauto.
Qed.
Print Assumptions C72_described.
(** What is read are the values which Rust programs write with the same bytes ... *)
Theorem C72_read_partial : forall c sys t, wf_sys sys -> known_ids sys -> describes sys t -> readable t ->
  forall v data,
  returns (fun fuel => strict_deserialize_type fuel c sys (st_id (meaning t)) data) (Ok (mkTyped (st_id (meaning t)) v))
  <-> written (cap c) t v data /\ lenN data <= u32_max.
Proof.
  intros c sys t W K D R v data. rewrite C50_deserialized by exact W.
  assert (A := format_agrees (cap c) sys K st_id real_ids t R D v data). unfold tid in A. rewrite A. reflexivity.
Qed.
Print Assumptions C72_read_partial.
(** ... and what is written is what a Rust program writes for the value, which can read it. *)
Theorem C72_write_partial : forall m c ce sys t, wf_sys sys -> known_ids sys -> describes sys t -> readable t ->
  forall v max_len bs, has_type m c sys (st_id (meaning t)) v ->
  strict_serialize_value max_len ce sys (mkTyped (st_id (meaning t)) v) = Ok bs -> written (cap c) t v bs.
Proof.
  intros m c ce sys t W K D R v max_len bs T E. apply (C50_serialized m c ce sys _ v max_len bs W T) in E.
  apply (format_agrees (cap c) sys K st_id real_ids t R D v bs). exact E.
Qed.
Print Assumptions C72_write_partial.

Lemma described_by sys t : Forall (fun p => sys_find sys (st_id p) = Some (map_ty st_id (st_body p))) (parts (meaning t)) -> describes sys t.
Proof. intros F p P. apply part_parts in P. rewrite Forall_forall in F. now apply F. Qed.

Definition ex_value : sval := VStruct [("side", VTuple [VNum (Uint 5)]); ("marks", VList [
  VUnion (Name "none") VUnit; VUnion (Name "pair") (VTuple [VTuple [VNum (Uint 1)]; VTuple [VNum (Uint 515)]]);
  VUnion (Name "kind") (VStruct [("kind", VEnum (Name "big")); ("word", VTuple [VNum (Uint 256)])])])].
Definition ex_data : bytes := [x05; x03; x00; x02; x01; x00; x03; x02; x01; x07; x00; x01].
Lemma ex_written mem : 3 <= mem -> written mem ex_area ex_value ex_data.
Proof.
  intros M. assert (W : forall a b n, n = le_number [a; b] -> written mem ex_word (VTuple [VNum (Uint n)]) [a; b]).
  { intros a b n ->. apply R_product, R_tuple; [discriminate|]. cbn [map snd]. change [a; b] with ([a; b] ++ [])%list. constructor; [|constructor].
    apply R_uint; [unfold P_U16; lia|reflexivity]. }
  apply R_product, R_struct; [discriminate|reflexivity|]. cbn [map snd].
  change ex_data with ([x05] ++ [x03; x00; x02; x01; x00; x03; x02; x01; x07; x00; x01] ++ [])%list.
  constructor; [|constructor; [|constructor]].
  - apply R_product, R_tuple; [discriminate|]. cbn [map snd]. change [x05] with ([x05] ++ [])%list. constructor; [|constructor].
    change 5 with (le_number [x05]). apply R_uint; [unfold P_U8; lia|reflexivity].
  - change [x03; x00; x02; x01; x00; x03; x02; x01; x07; x00; x01] with ([x03] ++ [x00; x02; x01; x00; x03; x02; x01; x07; x00; x01])%list.
    apply R_list; [reflexivity|reflexivity| |exact M|].
    + split; reflexivity.
    + change [x00; x02; x01; x00; x03; x02; x01; x07; x00; x01] with ([x00] ++ [x02; x01; x00; x03; x02] ++ [x01; x07; x00; x01] ++ [])%list.
      cbn [List.length repeat]. constructor; [|constructor; [|constructor; [|constructor]]].
      * eapply (R_union_unit mem _ _ _ _ (mkVariant "none" 0)); [left; reflexivity|reflexivity].
      * eapply (R_union mem _ _ _ _ (mkVariant "pair" 2)); [right; left; reflexivity|reflexivity|]. apply R_tuple; [discriminate|]. cbn [map snd].
        change [x01; x00; x03; x02] with ([x01; x00] ++ [x03; x02] ++ [])%list. constructor; [|constructor; [|constructor]]; now apply W.
      * eapply (R_union mem _ _ _ _ (mkVariant "kind" 1)); [right; right; left; reflexivity|reflexivity|].
        apply R_struct; [discriminate|reflexivity|]. cbn [map snd].
        change [x07; x00; x01] with ([x07] ++ [x00; x01] ++ [])%list. constructor; [|constructor; [|constructor]]; [|now apply W].
        apply (R_enum mem _ _ _ (mkVariant "big" 7)); [now left|reflexivity].
Qed.
Ltac concrete_wf := apply wf_sys_entries;
  [repeat (apply Forall_cons; [wf_entry|]); constructor
  |repeat (apply Forall_cons; [vm_compute; try exact I; reflexivity|]); constructor
  |rewrite unit_id_val; let H := fresh in intros ? H; vm_compute in H; first [discriminate H|injection H as <-; reflexivity]].
Ltac concrete_known := unfold known_ids; rewrite byte_id_val, u8_id_val, unicode_id_val;
  repeat split; let H := fresh in intros ? H; vm_compute in H; first [discriminate H|injection H as <-; reflexivity].
Example C72_case : exists sys, build true [ex_own; ex_other] = Ok sys /\ wf_sys (ss_types sys) /\ known_ids (ss_types sys)
  /\ describes (ss_types sys) ex_area /\ readable ex_area /\ written 1000 ex_area ex_value ex_data.
Proof.
  assert (X : exists sys, build true [ex_own; ex_other] = Ok sys /\ wf_sys (ss_types sys) /\ known_ids (ss_types sys)).
  { eexists. split; [vm_compute; reflexivity|]. cbn [ss_types]. split; [concrete_wf|concrete_known]. }
  destruct X as (sys & B & W & K). exists sys. split; [exact B|]. split; [exact W|]. split; [exact K|].
  destruct C58_case as (F & CV & CON & _). split; [|split].
  - eapply (C72_described true ex_jobs _ sys F CV CON B (mkJob "Own" ex_known [ex_area; ex_kind]) (meaning ex_area)); [now left| |reflexivity|constructor].
    exists ex_area. split; [now left|constructor].
  - clear. assert (P : forall p, p = P_U8 \/ p = P_U16 -> readable (RuPrim p)) by (intros p [-> | ->]; right; left; discriminate).
    cbn [readable ex_area ex_side ex_mark ex_kind ex_word all fst snd map]. repeat split; try discriminate; try (apply P; (left; reflexivity) || (right; reflexivity)).
  - apply ex_written. vm_compute. discriminate.
Qed.

(** The full statement fails. A tuple of a character and a list of characters is taken for a restricted string: the first
    character for the length, the length of the list for the first character ... *)
Definition ex_letter : rust := RuEnum "Own" (Some "Letter") [mkVariant "space" 32; mkVariant "a" 97].
Definition ex_pair : rust := RuProduct "Own" (Some "Pair") true [("", ex_letter); ("", RuList ex_letter (mkSizing 0 100))].
Definition plain_sys (t : rust) : type_system := map (fun p => (st_id p, map_ty st_id (st_body p))) (parts (meaning t)).
Definition pair_sys : type_system := Eval vm_compute in plain_sys ex_pair.
Definition pair_id : semid := Eval vm_compute in st_id (meaning ex_pair).
Lemma pair_id_val : st_id (meaning ex_pair) = pair_id. Proof. vm_compute. reflexivity. Qed.
Definition letters : bytes := repeat x61 31.
Theorem C72_pair_refuted : exists sys t v w data, wf_sys sys /\ known_ids sys /\ describes sys t /\ describable t
  /\ (forall mem, 100 <= mem -> written mem t v data) /\ v <> w
  /\ forall c, 100 <= cap c -> returns (fun fuel => strict_deserialize_type fuel c sys (st_id (meaning t)) data) (Ok (mkTyped (st_id (meaning t)) w)).
Proof.
  exists pair_sys, ex_pair, (VTuple [VEnum (Name "space"); VStr (string_of_list_byte letters)]), (VStr (string_of_list_byte (x1f :: letters))), (x20 :: x1f :: letters).
  assert (W : wf_sys pair_sys).
  { unfold pair_sys. concrete_wf. }
  split; [exact W|]. split; [unfold pair_sys; concrete_known|]. split; [|split; [|split; [|split]]].
  - apply described_by. cbn [parts meaning ex_pair]. repeat (apply Forall_cons; [vm_compute; reflexivity|]). constructor.
  - cbn. unfold variants_ok, sized, lenN. cbn. repeat split; try lia; repeat constructor; cbn; intuition discriminate.
  - intros mem M. apply R_product, R_tuple; [discriminate|]. cbn [map snd].
    change (x20 :: x1f :: letters) with ([x20] ++ ([x1f] ++ letters) ++ [])%list. constructor; [|constructor; [|constructor]].
    + apply (R_enum mem _ _ _ (mkVariant "space" 32)); [now left|reflexivity].
    + apply R_chars; [reflexivity|split; reflexivity|cbn; lia|reflexivity|]. repeat constructor.
  - discriminate.
  - intros c M. rewrite pair_id_val. apply C50_deserialized; [exact W|]. split; [|vm_compute; discriminate].
    change (x20 :: x1f :: letters) with ([x20] ++ (x1f :: letters))%list.
    eapply (W_rstring _ _ _ _ _ _ 0 100); [vm_compute; reflexivity| |split; reflexivity|cbn; lia|reflexivity|].
    + eapply Restricted; [reflexivity|vm_compute; reflexivity|reflexivity|vm_compute; reflexivity|vm_compute; reflexivity|reflexivity].
    + repeat constructor.
Qed.
Print Assumptions C72_pair_refuted.

(** ... numbers of more than 64 bits and numbers which are not zero are not supported ... *)
Definition wide_sys : type_system := Eval vm_compute in plain_sys (RuProduct "Own" (Some "Wide") true [("", RuPrim P_U128)]).
Definition nonzero_sys : type_system := Eval vm_compute in plain_sys (RuProduct "Own" (Some "Divisor") true [("", RuPrim 0x81)]).
Definition not_read (p : N) (name : string) (sys : type_system) : Prop :=
  let t := RuProduct "Own" (Some name) true [("", RuPrim p)] in
  wf_sys sys /\ known_ids sys /\ describes sys t /\ describable t
  /\ exists v data, (forall mem, written mem t v data)
  /\ forall fuel c, strict_deserialize_type (S (S fuel)) c sys (st_id (meaning t)) data = Err (DNotImplemented p).
Theorem C72_number_refuted : not_read P_U128 "Wide" wide_sys /\ not_read 0x81 "Divisor" nonzero_sys.
Proof.
  assert (D : forall name p, describable (RuProduct "Own" (Some name) true [("", RuPrim p)])).
  { intros name p. cbn. unfold sized, lenN. cbn. repeat split; lia. }
  split.
  - split; [unfold wide_sys; concrete_wf|]. split; [unfold wide_sys; concrete_known|]. split; [|split; [apply D|]].
    + apply described_by. cbn [parts meaning]. repeat (apply Forall_cons; [vm_compute; reflexivity|]). constructor.
    + eexists (VTuple [VNum (Uint _)]), (repeat x01 16). split.
      * intros mem. apply R_product, R_tuple; [discriminate|]. cbn [map snd]. rewrite <- (app_nil_r (repeat x01 16)).
        constructor; [|constructor]. apply R_uint; [unfold P_U128; lia|reflexivity].
      * intros fuel c. vm_compute. reflexivity.
  - split; [unfold nonzero_sys; concrete_wf|]. split; [unfold nonzero_sys; concrete_known|]. split; [|split; [apply D|]].
    + apply described_by. cbn [parts meaning]. repeat (apply Forall_cons; [vm_compute; reflexivity|]). constructor.
    + eexists (VTuple [VNum (Uint _)]), [x01]. split.
      * intros mem. apply R_product, R_tuple; [discriminate|]. cbn [map snd]. rewrite <- (app_nil_r [x01]).
        constructor; [|constructor]. apply R_nonzero; [lia|reflexivity|vm_compute; discriminate].
      * intros fuel c. vm_compute. reflexivity.
Qed.
Print Assumptions C72_number_refuted.

(** ... and a text with a length of 64 bits stops the program, as a list of single characters. *)
Definition ex_book : rust := RuProduct "Own" (Some "Book") true [("", RuUnicode (mkSizing 0 0xFFFFFFFFFFFFFFFF))].
Definition book_sys : type_system := Eval vm_compute in plain_sys ex_book.
Theorem C72_text_refuted : exists sys t v data, wf_sys sys /\ known_ids sys /\ describes sys t /\ describable t
  /\ (forall mem, 100 <= mem -> written mem t v data)
  /\ forall fuel c, strict_deserialize_type (S (S (S fuel))) c sys (st_id (meaning t)) data = Panic.
Proof.
  exists book_sys, ex_book, (VTuple [VStr "a"]), ([x01; x00; x00; x00; x00; x00; x00; x00] ++ [x61])%list.
  split; [unfold book_sys; concrete_wf|]. split; [unfold book_sys; concrete_known|]. split; [|split; [|split]].
  - apply described_by. cbn [parts meaning ex_book]. repeat (apply Forall_cons; [vm_compute; reflexivity|]). constructor.
  - cbn. unfold sized, lenN. cbn. repeat split; lia.
  - intros mem M. apply R_product, R_tuple; [discriminate|]. cbn [map snd]. rewrite <- (app_nil_r ([x01; x00; x00; x00; x00; x00; x00; x00] ++ [x61])%list).
    constructor; [|constructor]. apply R_text; [split; reflexivity|cbn; lia|reflexivity|]. exists [97]. split; [repeat constructor|reflexivity].
  - intros fuel [d [|[p|p|]]]; vm_compute; reflexivity.
Qed.
Print Assumptions C72_text_refuted.
