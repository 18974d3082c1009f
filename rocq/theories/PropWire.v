(** The binary format of values: C50; consequences: C02, C07. *)
From Coq Require Import NArith ZArith List Bool String Ascii Strings.Byte Lia.
From Verif Require Import Base Ty Ids Val TypeSys Encode Decode Spec CodecProofs SpecWire WireProofs WireUnique ExampleSys PropCodec.
Import ListNotations.
Local Open Scope N_scope.

(** ** C50: the bytes are those of the format *)

(** What serialization of a value of the type returns is the encoding given by the format ... *)
Theorem C50_serialized : forall m c ce sys id v max_len bs,
  wf_sys sys -> has_type m c sys id v -> strict_serialize_value max_len ce sys (mkTyped id v) = Ok bs ->
  wire (cap c) sys id v bs.
Proof.
  intros m c ce sys id v max_len bs W T E. apply serialize_inv in E as [E _]. exact (write_wire m c ce sys id v bs W T E).
Qed.
Print Assumptions C50_serialized.

(** ... and deserialization accepts exactly the encodings of the format, each as the value it stands for. *)
Theorem C50_deserialized : forall c sys id v data,
  wf_sys sys ->
  (returns (fun fuel => strict_deserialize_type fuel c sys id data) (Ok (mkTyped id v))
   <-> wire (cap c) sys id v data /\ lenN data <= u32_max).
Proof.
  intros c sys id v data W. split.
  - intros [n H]. apply (deserialize_wire c sys id data v W). exists n. apply H. lia.
  - intros [H L]. apply (wire_read _ _ W) in H as [n H]. exists n. intros fuel Hf.
    apply deserialize_all; [|assumption]. specialize (H fuel [] Hf). now rewrite app_nil_r in H.
Qed.
Print Assumptions C50_deserialized.

(** An encoding written by hand: the list of the pair (1000, none), then the pair (0, some 65535). *)
Example C50_case : wire (2 ^ 32) ex_sys i_list
  (VList [VTuple [VNum (Uint 1000); VUnion (Name "none") VUnit];
          VTuple [VNum (Uint 0); VUnion (Name "some") (VNum (Uint 65535))]])
  [x02; x00; xe8; x03; x00; x00; x00; x01; xff; xff].
Proof.
  apply (deserialize_wire ex_config ex_sys i_list _ _ ex_sys_wf). exists 9%nat. vm_compute. reflexivity.
Qed.

(** The same derived from the format itself. *)
Example C50_format : wire 10 [(1, TPrim P_U16); (2, TList 1 (mkSizing 0 300))] 2
  (VList [VNum (Uint 258); VNum (Uint 0)]) [x02; x00; x02; x01; x00; x00].
Proof.
  change [x02; x00; x02; x01; x00; x00] with ([x02; x00] ++ ([x02; x01] ++ [x00; x00] ++ []))%list.
  eapply (W_list _ _ 2 1 (TPrim P_U16) 0 300); try reflexivity; try discriminate.
  - intros _. rewrite <- (N.eqb_eq 1 unicode_id). unfold byte_item. rewrite <- !(N.eqb_eq 1).
    split; [intros [H|H]|intros H]; vm_compute in H; discriminate.
  - split; reflexivity.
  - change (VNum (Uint 258)) with (VNum (Uint (le_number [x02; x01]))).
    change (VNum (Uint 0)) with (VNum (Uint (le_number [x00; x00]))).
    constructor; [|constructor; [|constructor]]; eapply (W_uint _ _ 1 P_U16 2); reflexivity.
Qed.

(** What serialization can not do: exactly the values with a fixed-size array of other items than bytes. *)
Theorem C50_serializable : forall c ce sys id v,
  wf_sys sys -> has_type (mkMode true true) c sys id v ->
  ((exists max_len bs, strict_serialize_value max_len ce sys (mkTyped id v) = Ok bs)
   <-> has_type (mkMode true false) c sys id v).
Proof.
  intros c ce sys id v W T. split.
  - intros [max_len [bs E]]. apply serialize_inv in E as [E _]. exact (write_no_arrays _ _ _ _ _ _ W T _ E).
  - intros T'. destruct (rt_serialize (mkMode true false) c ce sys W (fun _ => eq_refl) eq_refl id v T') as [bs [E _]].
    exists (lenN bs), bs. apply E. lia.
Qed.
Print Assumptions C50_serializable.

Example C50_serializable_case :
  has_type (mkMode true true) ex_config ex_sys_arr i_array ex_array
  /\ ~ has_type (mkMode true false) ex_config ex_sys_arr i_array ex_array.
Proof.
  split; [exact ex_array_typed|]. intros H.
  apply (C50_serializable ex_config ex_config ex_sys_arr i_array ex_array ex_sys_arr_wf ex_array_typed) in H
    as [max_len [bs H]]. 
  unfold strict_serialize_value in H. replace (strict_write_value ex_config ex_sys_arr (mkTyped i_array ex_array))
    with (@Panic enc_error bytes) in H by (vm_compute; reflexivity). discriminate.
Qed.

(** ** C02, uniqueness for all type systems *)

(** No two different byte strings are accepted as the same value, whatever the types are. *)
Theorem C02_unique : forall c sys fuel fuel' id data data' tv,
  wf_sys sys ->
  strict_deserialize_type fuel c sys id data = Ok tv -> strict_deserialize_type fuel' c sys id data' = Ok tv ->
  data = data'.
Proof.
  intros c sys fuel fuel' id data data' tv W H H'.
  assert (E : tv = mkTyped id (tv_val tv)).
  { apply deserialize_inv in H as [_ [<- _]]. now destruct tv. }
  rewrite E in H, H'.
  destruct (proj1 (deserialize_wire c sys id data _ W) (ex_intro _ fuel H)) as [K _].
  destruct (proj1 (deserialize_wire c sys id data' _ W) (ex_intro _ fuel' H')) as [K' _].
  exact (wire_same _ _ W _ _ _ K _ K').
Qed.
(** A system with an array of numbers, where the value can not be serialized. *)
Example C02_unique_case : wf_sys ex_sys_arr
  /\ strict_deserialize_type 9 ex_config ex_sys_arr i_array [x01; x00; x02; x00]
     = Ok (mkTyped i_array (VList [VNum (Uint 1); VNum (Uint 2)])).
Proof. split; [exact ex_sys_arr_wf|]. vm_compute. reflexivity. Qed.
Print Assumptions C02_unique.

(** ** C07: when decoded sets and maps have repeated elements or keys *)

(** The data of a set are its length and the encodings of the elements. Elements are repeated exactly when one of
    these encodings is. *)
Theorem C07_set_exact : forall c sys fuel id r sz data l,
  wf_sys sys -> sys_find sys id = Some (TSet r sz) ->
  strict_deserialize_type fuel c sys id data = Ok (mkTyped id (VSet l)) ->
  exists p chunks, data = p ++ List.concat chunks /\ len_prefix (s_max sz) (lenN l) p
    /\ Forall2 (wire (cap c) sys r) l chunks /\ (NoDup l <-> NoDup chunks).
Proof.
  intros c sys fuel id r sz data l W F H.
  destruct (proj1 (deserialize_wire c sys id data _ W) (ex_intro _ fuel H)) as [K _].
  inversion K; subst; find F. 
  match goal with X : wires _ _ _ l _ |- _ => apply wires_items in X as [ch [-> X]]; rename X into HW end.
  exists p, ch. split; [reflexivity|]. split; [assumption|]. split; [exact HW|].
  apply (same_chunks (wire (cap c) sys r0)); [| |exact HW].
  - intros a b b' X Y. exact (wire_same _ _ W _ _ _ X _ Y).
  - intros a a' b X Y. exact (wire_value c sys r0 a a' b W X Y).
Qed.
(** The data of a map are its length and the encodings of the entries: key, then value. *)
Theorem C07_map_exact : forall c sys fuel id k r sz data l,
  wf_sys sys -> sys_find sys id = Some (TMap k r sz) ->
  strict_deserialize_type fuel c sys id data = Ok (mkTyped id (VMap l)) ->
  exists p chunks, data = p ++ List.concat (map (fun e => fst e ++ snd e) chunks) /\ len_prefix (s_max sz) (lenN l) p
    /\ Forall2 (fun e b => wire (cap c) sys k (fst e) (fst b) /\ wire (cap c) sys r (snd e) (snd b)) l chunks
    /\ (NoDup (map fst l) <-> NoDup (map fst chunks)).
Proof.
  intros c sys fuel id k r sz data l W F H.
  destruct (proj1 (deserialize_wire c sys id data _ W) (ex_intro _ fuel H)) as [K _].
  inversion K; subst; find F.
  match goal with X : wires _ _ _ (in_turn l) _ |- _ => apply wires_entries in X as [ch [-> X]]; rename X into HW end.
  exists p, ch. split; [reflexivity|]. split; [assumption|]. split; [exact HW|].
  apply (same_chunks (wire (cap c) sys k0)).
  - intros a b b' X Y. exact (wire_same _ _ W _ _ _ X _ Y).
  - intros a a' b X Y. exact (wire_value c sys k0 a a' b W X Y).
  - clear -HW. induction HW as [|e b l ch [H1 H2] HW IH]; constructor; assumption.
Qed.
Example C07_exact_case :
  sys_find ex_sys i_set = Some t_set
  /\ strict_deserialize_type 9 ex_config ex_sys i_set [x02; x07; x00; x08; x00] = Ok (mkTyped i_set (VSet [VNum (Uint 7); VNum (Uint 8)]))
  /\ sys_find ex_sys i_map = Some t_map
  /\ strict_deserialize_type 9 ex_config ex_sys i_map [x02; x05; x00; x00; x05; x01; x00; x61]
     = Ok (mkTyped i_map (VMap [(VEnum (Name "green"), VStr ""); (VEnum (Name "green"), VStr "a")])).
Proof. vm_compute. repeat split. Qed.
Print Assumptions C07_set_exact.
Print Assumptions C07_map_exact.
