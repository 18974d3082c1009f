(** Properties of typification of values: C08-C15, C41. *)
From Coq Require Import NArith ZArith List Bool String Ascii Strings.Byte Permutation Lia.
From Verif Require Import Base Ty Ids Val TypeSys Encode Decode DecodeShort Typify Spec SpecTypify SpecByteNumber TypifyExact CodecProofs ValLemmas ExampleSys
  TypifyProofs TypifyProofs2 TypifyProofs3 TypifyProofs4.
Import ListNotations.
Local Open Scope N_scope.

(** ** Facts on the example *)

Lemma sys_entries (sys : type_system) (P : semid -> ty semid -> Prop) : Forall (fun e => P (fst e) (snd e)) sys ->
  forall id t, sys_find sys id = Some t -> P id t.
Proof.
  intros F id t H. unfold sys_find in H.
  destruct (find (fun e => fst e =? id) sys) as [e|] eqn:E; [|discriminate]. injection H as <-.
  apply find_some in E as [I E]. apply N.eqb_eq in E. subst id. rewrite Forall_forall in F. now apply F.
Qed.

Lemma ex_sys_known : known_ids ex_sys.
Proof.
  unfold known_ids. rewrite byte_id_val, u8_id_val, unicode_id_val.
  repeat split; intros t H; vm_compute in H; injection H as <-; reflexivity.
Qed.

Lemma ex_sys_byte_strings : byte_in_strings_only ex_sys.
Proof.
  intros id t r H. revert r.
  apply (sys_entries ex_sys (fun _ t => forall r, In r (refs t) -> sys_find ex_sys r = Some (TPrim P_BYTE) ->
    byte_item r /\ ((exists len, t = TArray r len) \/ (exists s, t = TList r s /\ s_max s < 2 ^ 32)))) with (id := id);
    [|exact H]. clear id t H.
  unfold ex_sys at 2. 
  repeat (apply Forall_cons; [cbn [fst snd refs map]; intros r I F;
    repeat (destruct I as [<-|I]; [first [exfalso; vm_compute in F; discriminate F
      | split; [left; rewrite byte_id_val; reflexivity|first [left; eexists; reflexivity|right; eexists; split; reflexivity]]]|]);
    destruct I|]). constructor.
Qed.

(** ** C08: a value in the canonical form is kept *)

(** Proved for systems which use the number type Byte for byte strings only. *)
Theorem C08_identity_partial : forall c sys id v,
  wf_sys sys -> known_ids sys -> byte_in_strings_only sys -> sys_find sys id <> Some (TPrim P_BYTE) ->
  has_type (mkMode true true) c sys id v ->
  returns (fun fuel => typify fuel sys v id) (Ok (mkTyped id v)).
Proof.
  intros c sys id v W K B N T. exists (vdepth v). intros fuel L. unfold typify.
  rewrite (typify_typed true c sys W K B id v T N fuel L). reflexivity.
Qed.
Print Assumptions C08_identity_partial.

(** In particular a decoded value within the restrictions of its type. *)
Theorem C08_decoded_partial : forall c sys fuel id data tv,
  wf_sys sys -> known_ids sys -> byte_in_strings_only sys -> sys_find sys id <> Some (TPrim P_BYTE) ->
  strict_deserialize_type fuel c sys id data = Ok tv ->
  has_type (mkMode true true) c sys id (tv_val tv) ->
  returns (fun fuel => typify fuel sys (tv_val tv) id) (Ok tv).
Proof.
  intros c sys fuel id data tv W K B N H T. destruct (decode_typed c sys fuel id data tv W H) as [E _].
  destruct tv as [id' v]. cbn in *. subst id'. now apply (C08_identity_partial c).
Qed.
Print Assumptions C08_decoded_partial.

Lemma has_type_arrays s c sys id v : has_type (mkMode s false) c sys id v -> has_type (mkMode s true) c sys id v.
Proof. intros H. induction H using CodecLemmas.has_type_ind'; try (econstructor; eassumption). discriminate. Qed.

Example C08_case : returns (fun fuel => typify fuel ex_sys ex_value i_root) (Ok (mkTyped i_root ex_value)).
Proof.
  apply (C08_identity_partial ex_config); [exact ex_sys_wf|exact ex_sys_known|exact ex_sys_byte_strings| |].
  - vm_compute. discriminate.
  - apply has_type_arrays. exact ex_value_typed.
Qed.

(** The full statement fails: a number of the type Byte turns into a signed one. *)
Theorem C08_refuted : exists sys id v,
  wf_sys sys /\ known_ids sys /\ has_type (mkMode true false) ex_config sys id v
  /\ exists w, w <> v /\ returns (fun fuel => typify fuel sys v id) (Ok (mkTyped id w)).
Proof.
  exists ex_sys, i_byte, (VNum (Uint 5)). split; [exact ex_sys_wf|]. split; [exact ex_sys_known|]. split.
  - eapply HT_uint; [found|reflexivity|reflexivity].
  - exists (VNum (Int 5)). split; [discriminate|]. exists 1%nat. intros [|fuel] L; [lia|]. vm_compute. reflexivity.
Qed.
Print Assumptions C08_refuted.

(** Exactly the values in the canonical form which hold no number of the type Byte are kept. *)
Theorem C08_exact : forall c sys id v,
  wf_sys sys -> known_ids sys -> has_type (mkMode true true) c sys id v ->
  (returns (fun fuel => typify fuel sys v id) (Ok (mkTyped id v)) <-> ~ holds_byte sys id v).
Proof.
  intros c sys id v W K T. split.
  - intros [n R] H. specialize (R n (le_n n)). unfold typify in R. apply ReadLemmas.bind_Ok in R as (w & R & Q). injection Q as ->.
    exact (typify_not_kept true c sys W id v H T n R).
  - intros H. exists (vdepth v). intros fuel L. unfold typify. rewrite (typify_kept true c sys W K id v T H fuel L). reflexivity.
Qed.
Print Assumptions C08_exact.
Example C08_exact_case : has_type (mkMode true true) ex_config ex_sys i_root ex_value /\ ~ holds_byte ex_sys i_root ex_value
  /\ has_type (mkMode true true) ex_config ex_sys i_byte (VNum (Uint 5)) /\ holds_byte ex_sys i_byte (VNum (Uint 5)).
Proof.
  assert (T : has_type (mkMode true true) ex_config ex_sys i_root ex_value) by (apply has_type_arrays; exact ex_value_typed).
  split; [exact T|]. split; [exact (proj1 (C08_exact _ _ _ _ ex_sys_wf ex_sys_known T) C08_case)|].
  split; [eapply HT_uint; [found|reflexivity|reflexivity]|]. apply HB_number. found.
Qed.

(** ** C41: all the notations of a value *)

(** Whatever notation of a value is typified, its serialization is the one of the value: reading gives the
    value in the canonical form. *)
Theorem C41_notations : forall c ce sys id v w,
  wf_sys sys -> known_ids sys -> denotes c sys id v w ->
  has_type (mkMode true false) c sys id w
  /\ exists tv bs,
    returns (fun fuel => typify fuel sys v id) (Ok tv)
    /\ (forall max_len, lenN bs <= max_len ->
          strict_serialize_value max_len ce sys tv = Ok bs
          /\ strict_serialize_value max_len ce sys (mkTyped id w) = Ok bs)
    /\ (lenN bs <= u32_max ->
          returns (fun fuel => strict_deserialize_type fuel c sys id bs) (Ok (mkTyped id w))).
Proof.
  intros c ce sys id v w W K D. pose proof (denotes_typed c sys id v w W K D) as T. split; [exact T|].
  destruct (denotes_end_to_end' c ce sys id v w W K D) as (tv & bs & A & B & C). exists tv, bs. auto.
Qed.
Print Assumptions C41_notations.

(** A structure given as a map with fields in another order, with other notations inside. *)
Definition nt_root : ty semid := TStruct [("num"%string, i_i8); ("color"%string, i_color); ("opt"%string, i_option)].
Definition ni_root := Eval vm_compute in uid nt_root.
Definition nt_new : ty semid := TTuple [ni_root].
Definition ni_new := Eval vm_compute in uid nt_new.
Definition n_sys : type_system := Eval vm_compute in build (nt_root :: nt_new :: ex_types).

Lemma n_sys_wf : wf_sys n_sys.
Proof.
  apply wf_sys_entries.
  - unfold n_sys. repeat (apply Forall_cons; [wf_entry|]). constructor.
  - unfold n_sys at 2. repeat (apply Forall_cons; [vm_compute; try exact I; reflexivity|]). constructor.
  - rewrite unit_id_val. intros t H. vm_compute in H. injection H as <-. reflexivity.
Qed.
Lemma n_sys_known : known_ids n_sys.
Proof.
  unfold known_ids. rewrite byte_id_val, u8_id_val, unicode_id_val.
  repeat split; intros t H; vm_compute in H; injection H as <-; reflexivity.
Qed.

Example C41_case : denotes ex_config n_sys ni_new
  (VMap [(VStr "opt", VNum (Uint 300)); (VStr "color", VNum (Uint 5)); (VStr "num", VNum (Uint 7))])
  (VTuple [VStruct [("num"%string, VNum (Int 7)); ("color"%string, VEnum (Name "green"));
                    ("opt"%string, VUnion (Name "some") (VNum (Uint 300)))]]).
Proof.
  eapply DN_newtype; [found|discriminate|discriminate|].
  eapply (DN_struct_map _ _ _ [("num"%string, i_i8); ("color"%string, i_color); ("opt"%string, i_option)]
    _ [("num"%string, (VNum (Uint 7), VNum (Int 7))); ("color"%string, (VNum (Uint 5), VEnum (Name "green")));
       ("opt"%string, (VNum (Uint 300), VUnion (Name "some") (VNum (Uint 300))))]).
  - found.
  - reflexivity.
  - cbn [map snd]. repeat (apply Forall2_cons); [..|constructor]; cbn [fst snd].
    + eapply (DN_natural _ _ _ _ _ 7); [found|reflexivity|reflexivity].
    + eapply (DN_enum _ _ _ _ (mkVariant "green" 5)); [found|right; left; reflexivity|right; right; left; reflexivity].
    + eapply DN_content; [found|repeat split; discriminate|]. eapply DN_uint; [found|reflexivity|reflexivity].
  - cbn. eapply Permutation_trans; [apply perm_swap|]. eapply Permutation_trans; [|apply perm_swap].
    eapply Permutation_trans; [apply perm_skip, perm_swap|]. apply Permutation_refl.
  - repeat constructor; (eexists; eexists; split; [vm_compute; reflexivity|]); cbn;
      (split; [left; lia|split; [repeat constructor; lia|vm_compute; discriminate]]).
Qed.

(** The short notations of optionals are for optionals only: for another union anything but a union is rejected. *)
Theorem C41_optionals_only : forall fuel sys id vs v, type_of sys id = Some (TUnion vs) ->
  (forall u r, vs <> [(mkVariant "none" 0, u); (mkVariant "some" 1, r)]) -> (forall t w, v <> VUnion t w) ->
  typify (S fuel) sys v id = Err (TypeMismatch v (TUnion vs)).
Proof.
  intros fuel sys id vs v T N U. unfold typify. cbn [typify_val]. rewrite T. cbn [ok_or bind typify_ty].
  assert (O : is_option (TUnion vs) = false).
  { unfold is_option. cbn [as_some]. destruct vs as [|[[n0 t0] u] [|[[n1 t1] r] [|? ?]]]; try reflexivity. cbn [v_name v_tag].
    destruct ((n0 =? "none")%string && (t0 =? 0) && (n1 =? "some")%string && (t1 =? 1)) eqn:E; [|reflexivity].
    apply andb_prop in E as [E E4]. apply andb_prop in E as [E E3]. apply andb_prop in E as [E1 E2].
    apply String.eqb_eq in E1, E3. apply N.eqb_eq in E2, E4. subst. now destruct (N u r). }
  rewrite O. destruct v as [| | | | | |t w| | |l|]; try reflexivity; [now destruct (U t w)|].
  destruct l as [|? [|? [|? ?]]]; reflexivity.
Qed.
Print Assumptions C41_optionals_only.
Example C41_optionals_only_case : forall u r, [(mkVariant "none" 0, i_u8); (mkVariant "some" 3, i_u16)] <> [(mkVariant "none" 0, u); (mkVariant "some" 1, r)].
Proof. discriminate. Qed.

(** ** C09: typified values can be serialized *)

(** Proved for the notations described by the specification. *)
Theorem C09_serializable_partial : forall c ce sys id v w,
  wf_sys sys -> known_ids sys -> denotes c sys id v w ->
  exists tv bs, returns (fun fuel => typify fuel sys v id) (Ok tv)
    /\ forall max_len, strict_serialize_value max_len ce sys tv
         = if lenN bs <=? max_len then Ok bs else Err ResultOversize.
Proof.
  intros c ce sys id v w W K D. destruct (denotes_end_to_end c ce sys id v w W K D) as (tv & bs & A & B & _).
  exists tv, bs. split; [exact A|]. intros m. specialize (B (lenN bs) ltac:(lia)).
  unfold strict_serialize_value in *. apply ReadLemmas.bind_Ok in B as (b & B1 & B2). rewrite B1. cbn [bind].
  destruct (lenN b <=? lenN bs); [|discriminate]. injection B2 as <-. reflexivity.
Qed.
Print Assumptions C09_serializable_partial.

Ltac by_compute := exists 1%nat; intros [|[|fuel]] L; [lia|vm_compute; reflexivity|vm_compute; reflexivity].

(** The full statement fails in any build: for arrays of items other than bytes ... *)
Theorem C09_array_refuted : exists sys id v tv,
  wf_sys sys /\ returns (fun fuel => typify fuel sys v id) (Ok tv)
  /\ forall ce max_len, strict_serialize_value max_len ce sys tv = Panic.
Proof.
  exists ex_sys_arr, i_array, ex_array, (mkTyped i_array ex_array).
  split; [exact ex_sys_arr_wf|]. split; [by_compute|].
  intros ce max_len. unfold strict_serialize_value, strict_write_value, ex_array. cbn [tv_val tv_id write_val].
  replace (type_of ex_sys_arr i_array) with (Some (TArray i_u16 2)) by (vm_compute; reflexivity). reflexivity.
Qed.
Print Assumptions C09_array_refuted.

(** ... for enumerations given by a character which is a tag ... *)
Theorem C09_enum_refuted : exists sys id v tv,
  wf_sys sys /\ returns (fun fuel => typify fuel sys v id) (Ok tv)
  /\ forall ce max_len, strict_serialize_value max_len ce sys tv = Panic.
Proof.
  exists ex_sys, i_letter, (VStr "a"), (mkTyped i_letter (VStr "a")).
  split; [exact ex_sys_wf|]. split; [by_compute|].
  intros ce max_len. unfold strict_serialize_value, strict_write_value. cbn [tv_val tv_id write_val].
  replace (type_of ex_sys i_letter) with (Some t_letter) by (vm_compute; reflexivity). reflexivity.
Qed.
Print Assumptions C09_enum_refuted.

(** ... for text given for a pair which is not a restricted string ... *)
Theorem C09_pair_refuted : exists sys id v tv,
  wf_sys sys /\ returns (fun fuel => typify fuel sys v id) (Ok tv)
  /\ forall ce max_len, strict_serialize_value max_len ce sys tv = Panic.
Proof.
  exists ex_sys, i_pair, (VStr "ab"), (mkTyped i_pair (VStr "ab")).
  split; [exact ex_sys_wf|]. split; [by_compute|].
  intros [[] k] max_len; unfold strict_serialize_value.
  - replace (strict_write_value (mkConfig true k) ex_sys (mkTyped i_pair (VStr "ab"))) with (@Panic enc_error bytes)
      by (vm_compute; reflexivity). reflexivity.
  - replace (strict_write_value (mkConfig false k) ex_sys (mkTyped i_pair (VStr "ab"))) with (@Panic enc_error bytes)
      by (vm_compute; reflexivity). reflexivity.
Qed.
Print Assumptions C09_pair_refuted.

(** ... for numbers of more than 64 bits given as small ones ... *)
Definition u128_id := Eval vm_compute in uid (TPrim 16).
Theorem C09_number_refuted : exists sys id v tv,
  wf_sys sys /\ returns (fun fuel => typify fuel sys v id) (Ok tv)
  /\ forall ce max_len, strict_serialize_value max_len ce sys tv = Panic.
Proof.
  exists [(u128_id, TPrim 16)], u128_id, (VNum (Uint 1)), (mkTyped u128_id (VNum (Uint 1))).
  split.
  { apply wf_sys_entries.
    - repeat (apply Forall_cons; [wf_entry|]). constructor.
    - repeat (apply Forall_cons; [exact I|]). constructor.
    - rewrite unit_id_val. intros t H. vm_compute in H. discriminate. }
  split; [by_compute|].
  intros ce max_len. unfold strict_serialize_value, strict_write_value. cbn [tv_val tv_id write_val].
  replace (type_of [(u128_id, TPrim 16)] u128_id) with (Some (TPrim 16 : ty semid)) by (vm_compute; reflexivity). reflexivity.
Qed.
Print Assumptions C09_number_refuted.

(** ... and a map standing for a structure may lack fields (an error in release builds, a panic in debug
    ones). *)
Theorem C09_fields_refuted : exists sys id v tv,
  wf_sys sys /\ returns (fun fuel => typify fuel sys v id) (Ok tv)
  /\ forall ce max_len, strict_serialize_value max_len ce sys tv
       = if dbg ce then Panic else Err (MissingField "num").
Proof.
  exists ex_sys, i_root, (VMap []), (mkTyped i_root (VStruct [])).
  split; [exact ex_sys_wf|]. split; [by_compute|].
  intros [[] k] max_len; unfold strict_serialize_value.
  - replace (strict_write_value (mkConfig true k) ex_sys (mkTyped i_root (VStruct []))) with (@Panic enc_error bytes)
      by (vm_compute; reflexivity). reflexivity.
  - replace (strict_write_value (mkConfig false k) ex_sys (mkTyped i_root (VStruct [])))
      with (@Err enc_error bytes (MissingField "num")) by (vm_compute; reflexivity). reflexivity.
Qed.
Print Assumptions C09_fields_refuted.

(** ** C10: numbers *)

(** What happens to accepted numbers: unsigned ones are taken modulo 2^bits ... *)
Theorem C10_unsigned_partial : forall c fuel sys id p w num tv max_len,
  wf_sys sys -> sys_find sys id = Some (TPrim p) -> uint_width p = Some w -> p <> P_BYTE -> w <= max_len ->
  typify fuel sys (VNum num) id = Ok tv ->
  exists n bs, num = Uint n
    /\ strict_serialize_value max_len c sys tv = Ok bs
    /\ returns (fun fuel => strict_deserialize_type fuel c sys id bs) (Ok (mkTyped id (VNum (Uint (n mod 2 ^ (8 * w)))))).
Proof. exact unsigned_accepted. Qed.
Print Assumptions C10_unsigned_partial.

(** ... and signed ones are wrapped; non-negative ones may be given as unsigned. *)
Theorem C10_signed_partial : forall c fuel sys id p w num tv max_len,
  wf_sys sys -> sys_find sys id = Some (TPrim p) -> int_width p = Some w -> w <= max_len ->
  typify fuel sys (VNum num) id = Ok tv ->
  exists z z' q bs, (num = Int z \/ exists n, num = Uint n /\ z = Z.of_N n)
    /\ strict_serialize_value max_len c sys tv = Ok bs
    /\ returns (fun fuel => strict_deserialize_type fuel c sys id bs) (Ok (mkTyped id (VNum (Int z'))))
    /\ (- 2 ^ (8 * Z.of_N w - 1) <= z' < 2 ^ (8 * Z.of_N w - 1))%Z
    /\ z = (z' + q * 2 ^ (8 * Z.of_N w))%Z.
Proof. exact signed_accepted. Qed.
Print Assumptions C10_signed_partial.

(** So a number in the range of its type is kept. *)
Theorem C10_in_range_partial : forall c fuel sys id p w n tv max_len,
  wf_sys sys -> sys_find sys id = Some (TPrim p) -> w <= max_len ->
  typify fuel sys (VNum n) id = Ok tv ->
  (uint_width p = Some w /\ p <> P_BYTE /\ exists k, n = Uint k /\ k < 2 ^ (8 * w))
  \/ (int_width p = Some w /\ exists z, n = Int z /\ (- 2 ^ (8 * Z.of_N w - 1) <= z < 2 ^ (8 * Z.of_N w - 1))%Z) ->
  exists bs, strict_serialize_value max_len c sys tv = Ok bs
    /\ returns (fun fuel => strict_deserialize_type fuel c sys id bs) (Ok (mkTyped id (VNum n))).
Proof. exact in_range_kept. Qed.
Print Assumptions C10_in_range_partial.

Example C10_case :
  typify 1 ex_sys (VNum (Int (-200))) i_i8 = Ok (mkTyped i_i8 (VNum (Int (-200))))
  /\ strict_serialize_value 9 ex_config ex_sys (mkTyped i_i8 (VNum (Int (-200)))) = Ok [x38]
  /\ strict_deserialize_type 1 ex_config ex_sys i_i8 [x38] = Ok (mkTyped i_i8 (VNum (Int 56))).
Proof. vm_compute. auto. Qed.

(** The full statement fails: 256 for U8 is accepted and becomes 0. *)
Theorem C10_refuted : exists sys id n n' tv bs,
  wf_sys sys /\ sys_find sys id = Some (TPrim P_U8) /\ n <> n'
  /\ returns (fun fuel => typify fuel sys (VNum (Uint n)) id) (Ok tv)
  /\ (forall ce, strict_serialize_value 1 ce sys tv = Ok bs)
  /\ returns (fun fuel => strict_deserialize_type fuel ex_config sys id bs) (Ok (mkTyped id (VNum (Uint n')))).
Proof.
  exists ex_sys, i_u8, 256, 0, (mkTyped i_u8 (VNum (Uint 256))), [x00].
  split; [exact ex_sys_wf|]. split; [found|]. split; [discriminate|]. split; [by_compute|]. split; [|by_compute].
  intros ce. vm_compute. reflexivity.
Qed.
Print Assumptions C10_refuted.

(** So the accepted numbers which are kept are exactly those in the range of the type. *)
Theorem C10_unsigned_exact : forall c fuel sys id p w num tv max_len,
  wf_sys sys -> sys_find sys id = Some (TPrim p) -> uint_width p = Some w -> p <> P_BYTE -> w <= max_len ->
  typify fuel sys (VNum num) id = Ok tv ->
  exists n n' bs, num = Uint n
    /\ strict_serialize_value max_len c sys tv = Ok bs
    /\ returns (fun fuel => strict_deserialize_type fuel c sys id bs) (Ok (mkTyped id (VNum (Uint n'))))
    /\ (n' = n <-> n < 2 ^ (8 * w)).
Proof.
  intros c fuel sys id p w num tv max_len W F U B M T.
  destruct (C10_unsigned_partial c fuel sys id p w num tv max_len W F U B M T) as (n & bs & E & S & D).
  exists n, (n mod 2 ^ (8 * w)), bs. split; [exact E|]. split; [exact S|]. split; [exact D|].
  assert (P : 2 ^ (8 * w) <> 0) by (apply N.pow_nonzero; discriminate). split.
  - intros <-. apply N.mod_lt. exact P.
  - intros L. now apply N.mod_small.
Qed.
Print Assumptions C10_unsigned_exact.
Theorem C10_signed_exact : forall c fuel sys id p w num tv max_len,
  wf_sys sys -> sys_find sys id = Some (TPrim p) -> int_width p = Some w -> w <= max_len ->
  typify fuel sys (VNum num) id = Ok tv ->
  exists z z' bs, (num = Int z \/ exists n, num = Uint n /\ z = Z.of_N n)
    /\ strict_serialize_value max_len c sys tv = Ok bs
    /\ returns (fun fuel => strict_deserialize_type fuel c sys id bs) (Ok (mkTyped id (VNum (Int z'))))
    /\ (z' = z <-> (- 2 ^ (8 * Z.of_N w - 1) <= z < 2 ^ (8 * Z.of_N w - 1))%Z).
Proof.
  intros c fuel sys id p w num tv max_len W F U M T.
  destruct (C10_signed_partial c fuel sys id p w num tv max_len W F U M T) as (z & z' & q & bs & E & S & D & R & Q).
  exists z, z', bs. split; [exact E|]. split; [exact S|]. split; [exact D|].
  destruct (RoundTrip.int_width_cases p w U) as (_ & Bw & _).
  assert (H : (2 ^ (8 * Z.of_N w) = 2 * 2 ^ (8 * Z.of_N w - 1))%Z) by (rewrite <- Z.pow_succ_r by lia; f_equal; lia).
  split; [intros <-; exact R|]. intros L. rewrite H in Q. clear - Q L R.
  assert (q = 0)%Z by nia. subst q. lia.
Qed.
Print Assumptions C10_signed_exact.
Example C10_exact_case : exists z' bs,
  strict_serialize_value 9 ex_config ex_sys (mkTyped i_i8 (VNum (Int (-200)))) = Ok bs
  /\ returns (fun fuel => strict_deserialize_type fuel ex_config ex_sys i_i8 bs) (Ok (mkTyped i_i8 (VNum (Int z')))) /\ z' <> (-200)%Z.
Proof.
  assert (F : sys_find ex_sys i_i8 = Some (TPrim P_I8)) by found.
  destruct (C10_signed_exact ex_config 1 ex_sys i_i8 P_I8 1 (Int (-200)) (mkTyped i_i8 (VNum (Int (-200)))) 9 ex_sys_wf F) as (z & z' & bs & E & S & D & X);
    [reflexivity|lia|exact (proj1 C10_case)|]. destruct E as [E|[n [E _]]]; [|discriminate E]. injection E as <-.
  exists z', bs. split; [exact S|]. split; [exact D|]. clear S D. intros Q. destruct (proj1 X Q) as [Q1 _]. vm_compute in Q1. exact (Q1 eq_refl).
Qed.

(** ** C11: bounds of collections *)
Theorem C11_bounds : forall fuel sys v id tv t sz,
  typify fuel sys v id = Ok tv -> type_of sys id = Some t ->
  (exists r, t = TList r sz \/ t = TSet r sz \/ exists k, t = TMap k r sz) ->
  exists n, vsize (tv_val tv) = Some n /\ s_min sz <= n <= s_max sz.
Proof.
  intros fuel sys v id tv t sz H T E. unfold typify in H. apply ReadLemmas.bind_Ok in H as (w & H & Q). injection Q as <-.
  exact (typify_size fuel sys v id w t sz H T E).
Qed.
Print Assumptions C11_bounds.

(** Values whose number of elements is out of the bounds are reported so. *)
Theorem C11_rejected : forall fuel sys v id t sz n,
  type_of sys id = Some t -> vsize v = Some n -> ~ (s_min sz <= n <= s_max sz) ->
  (exists r, t = TList r sz \/ t = TSet r sz \/ exists k, t = TMap k r sz) ->
  exists e, typify (S fuel) sys v id = Err e
    /\ (e = OutOfBounds id n sz \/ e = TypeMismatch v t).
Proof. exact out_of_bounds. Qed.
Print Assumptions C11_rejected.

Example C11_case :
  typify 5 ex_sys (VList []) i_list = Err (OutOfBounds i_list 0 (mkSizing 1 300))
  /\ typify 5 ex_sys (VStr "abc") i_rest = Ok (mkTyped i_rest (VStr "abc"))
  /\ typify 5 ex_sys (VStr "abcab") i_rest = Err (OutOfBounds i_rest 5 (mkSizing 1 4)).
Proof. vm_compute. auto. Qed.

(** ** C12: lengths of arrays *)

(** Proved: never longer than the array, and unchanged. *)
Theorem C12_length_partial : forall fuel sys v id tv r len,
  typify fuel sys v id = Ok tv -> type_of sys id = Some (TArray r len) ->
  tv_val tv = v /\ exists n, vsize v = Some n /\ n <= len.
Proof.
  intros fuel sys v id tv r len H T. unfold typify in H. apply ReadLemmas.bind_Ok in H as (w & H & Q). injection Q as <-.
  destruct (typify_array fuel sys v id w r len H T) as [-> E]. split; [reflexivity|exact E].
Qed.
Print Assumptions C12_length_partial.

Example C12_case : typify 5 ex_sys (VBytes [x01; x02; x03; x04; x05]) i_bytes4
  = Err (OutOfBounds i_bytes4 5 (sizing_fixed 4)).
Proof. vm_compute. auto. Qed.

(** The full statement fails: three bytes for an array of four are accepted; serialization panics in debug
    builds and writes three bytes in release builds. *)
Theorem C12_refuted : exists sys id v tv r len n bs,
  wf_sys sys /\ sys_find sys id = Some (TArray r len) /\ vsize v = Some n /\ n < len
  /\ returns (fun fuel => typify fuel sys v id) (Ok tv) /\ vsize (tv_val tv) = Some n
  /\ (forall ce, strict_serialize_value 9 ce sys tv = if dbg ce then Panic else Ok bs)
  /\ forall fuel, strict_deserialize_type (S fuel) ex_config sys id bs = Err DEof.
Proof.
  exists ex_sys, i_bytes4, (VBytes [x01; x02; x03]), (mkTyped i_bytes4 (VBytes [x01; x02; x03])), i_byte, 4, 3, [x01; x02; x03].
  split; [exact ex_sys_wf|]. split; [found|]. split; [found|]. split; [lia|]. split; [by_compute|]. split; [found|].
  split; [intros [[] k]; vm_compute; reflexivity|]. intros fuel. vm_compute. reflexivity.
Qed.
Print Assumptions C12_refuted.

Lemma ascii_chars s : is_ascii s = true <-> Forall (fun b => Byte.to_N b < 128) (sbytes s).
Proof.
  unfold is_ascii, ascii_bytes. rewrite forallb_forall, Forall_forall. split; intros H b I; specialize (H b I); now apply N.ltb_lt.
Qed.

Lemma unicode_id_iff r : is_unicode_id r = true <-> r = unicode_id.
Proof. unfold is_unicode_id. rewrite N.eqb_eq. split; intros H; symmetry; exact H. Qed.

(** Exactly what is accepted for an array: lists of any items, text of ASCII characters (of any, for arrays of characters) and, for
    arrays of bytes, byte strings; not longer than the array. *)
Theorem C12_exact : forall fuel sys v id r len, type_of sys id = Some (TArray r len) ->
  (exists tv, typify (S fuel) sys v id = Ok tv) <->
  (exists l, v = VList l /\ lenN l <= len)
  \/ (exists b, v = VBytes b /\ lenN b <= len /\ byte_item r)
  \/ (exists s, v = VStr s /\ slen s <= len /\ (Forall (fun b => Byte.to_N b < 128) (sbytes s) \/ r = unicode_id)).
Proof.
  intros fuel sys v id r len T. unfold typify. cbn [typify_val]. rewrite T. cbn [ok_or bind typify_ty].
  pose proof (CodecLemmas.byte_item_iff r) as BI. pose proof (unicode_id_iff r) as UI.
  generalize dependent (is_byte_id r). generalize dependent (is_unicode_id r). intros u UI b BI.
  split.
  - intros [tv H]. destruct v; try (match type of H with bind (Err _) _ = Ok _ => discriminate H end).
    + destruct (N.ltb_spec len (slen s)) as [L|L]; [discriminate|].
      right. right. exists s. split; [reflexivity|]. split; [exact L|].
      destruct (is_ascii s) eqn:A; cbn [orb] in H.
      * left. now apply ascii_chars.
      * destruct u; [|discriminate]. right. now apply UI.
    + destruct b; [|discriminate]. match type of H with context [len <? lenN ?x] => destruct (N.ltb_spec len (lenN x)) as [L|L]; [discriminate|] end.
      right. left. eexists. split; [reflexivity|]. split; [exact L|]. now apply BI.
    + match type of H with context [len <? lenN ?x] => destruct (N.ltb_spec len (lenN x)) as [L|L]; [discriminate|] end. left. eauto.
  - intros [(l & -> & L)|[(c & -> & L & B)|(s & -> & L & D)]]; apply N.ltb_ge in L.
    + rewrite L. eexists. reflexivity.
    + apply BI in B. rewrite B, L. eexists. reflexivity.
    + rewrite L. assert (E : is_ascii s || u = true).
      { apply orb_true_iff. destruct D as [D|D]; [left; now apply ascii_chars|right; now apply UI]. }
      rewrite E. eexists. reflexivity.
Qed.
Example C12_exact_case : exists tv, typify 5 ex_sys (VList [VUnit; VStr "x"]) i_bytes4 = Ok tv.
Proof.
  apply (C12_exact 4 ex_sys _ i_bytes4 i_byte 4); [vm_compute; reflexivity|]. left. eexists. split; [reflexivity|]. cbv. discriminate.
Qed.
Print Assumptions C12_exact.

(** ** C13: repeated elements *)

(** The elements of an accepted set differ. ([fields_ok]: field names of structures inside the value are not
    repeated, as is the case for any [IndexMap].) *)
Theorem C13_set_partial : forall fuel sys v id r sz tv,
  fields_ok v -> type_of sys id = Some (TSet r sz) -> typify fuel sys v id = Ok tv ->
  exists l, tv_val tv = VSet l /\ NoDup l /\ ForallOrdPairs (fun x y => sval_eqb x y = false) l.
Proof.
  intros fuel sys v id r sz tv F T H. unfold typify in H. apply ReadLemmas.bind_Ok in H as (w & H & Q). injection Q as <-.
  destruct (set_elements _ _ _ _ _ _ _ F H T) as (l & -> & N).
  destruct (typify_distinct_set _ _ _ _ _ _ _ H T) as (l' & E & D). injection E as <-. exists l. auto.
Qed.
Print Assumptions C13_set_partial.

Theorem C13_map_partial : forall fuel sys v id k r sz tv,
  fields_ok v -> type_of sys id = Some (TMap k r sz) -> typify fuel sys v id = Ok tv ->
  exists l, tv_val tv = VMap l /\ NoDup (map fst l) /\ ForallOrdPairs (fun x y => sval_eqb x y = false) (map fst l).
Proof.
  intros fuel sys v id k r sz tv F T H. unfold typify in H. apply ReadLemmas.bind_Ok in H as (w & H & Q). injection Q as <-.
  destruct (map_keys _ _ _ _ _ _ _ _ F H T) as (l & -> & N).
  destruct (typify_distinct_map _ _ _ _ _ _ _ _ H T) as (l' & E & D). injection E as <-. exists l. auto.
Qed.
Print Assumptions C13_map_partial.

(** Elements in the canonical form also have different bytes. *)
Theorem C13_bytes_partial : forall c ce fuel sys v id r sz l i j a b max_len bs,
  wf_sys sys -> fields_ok v -> type_of sys id = Some (TSet r sz) -> typify fuel sys v id = Ok (mkTyped id (VSet l)) ->
  Forall (has_type (mkMode true false) c sys r) l ->
  nth_error l i = Some a -> nth_error l j = Some b ->
  strict_serialize_value max_len ce sys (mkTyped r a) = Ok bs ->
  strict_serialize_value max_len ce sys (mkTyped r b) = Ok bs -> i = j.
Proof. exact set_bytes. Qed.
Print Assumptions C13_bytes_partial.

(** ... and so have keys of maps. *)
Theorem C13_keys_partial : forall c ce fuel sys v id k r sz l i j a b max_len bs,
  wf_sys sys -> fields_ok v -> type_of sys id = Some (TMap k r sz) -> typify fuel sys v id = Ok (mkTyped id (VMap l)) ->
  Forall (has_type (mkMode true false) c sys k) (map fst l) ->
  nth_error (map fst l) i = Some a -> nth_error (map fst l) j = Some b ->
  strict_serialize_value max_len ce sys (mkTyped k a) = Ok bs ->
  strict_serialize_value max_len ce sys (mkTyped k b) = Ok bs -> i = j.
Proof.
  intros c ce fuel sys v id k r sz l i j a b max_len bs W F T H TY A B SA SB.
  unfold typify in H. apply ReadLemmas.bind_Ok in H as (w & H & Q). injection Q as ->.
  destruct (map_keys _ _ _ _ _ _ _ _ F H T) as (l' & E & ND). injection E as <-.
  rewrite Forall_forall in TY. pose proof (TY a (nth_error_In _ _ A)) as TA. pose proof (TY b (nth_error_In _ _ B)) as TB.
  apply serialize_inv in SA as [SA _]. apply serialize_inv in SB as [SB _].
  destruct (rt_prefix_free (mkMode true false) c ce sys W (fun _ => eq_refl) eq_refl k a b bs bs [] TA TB SA SB)
    as [E _]; [now rewrite app_nil_r|]. subst b.
  apply (proj1 (NoDup_nth_error (map fst l))); [exact ND|apply nth_error_Some; congruence|congruence].
Qed.
Print Assumptions C13_keys_partial.
Example C13_keys_case :
  typify 5 ex_sys (VMap [(VEnum (Name "red"), VStr "a"); (VEnum (Name "green"), VStr "b")]) i_map
  = Ok (mkTyped i_map (VMap [(VEnum (Name "red"), VStr "a"); (VEnum (Name "green"), VStr "b")])).
Proof. vm_compute. reflexivity. Qed.

Example C13_case :
  typify 5 ex_sys (VSet [VNum (Uint 1); VNum (Uint 2); VNum (Uint 1)]) i_set = Err (RepeatedSetValue i_set (VNum (Uint 1)))
  /\ typify 5 ex_sys (VSet [VNum (Uint 1); VNum (Uint 2)]) i_set = Ok (mkTyped i_set (VSet [VNum (Uint 1); VNum (Uint 2)]))
  /\ Forall (has_type (mkMode true false) ex_config ex_sys i_u16) [VNum (Uint 1); VNum (Uint 2)].
Proof.
  split; [vm_compute; reflexivity|]. split; [vm_compute; reflexivity|].
  repeat constructor; (eapply HT_uint; [found|reflexivity|reflexivity]).
Qed.

(** The statement on bytes fails in general: variants given by the name and by the tag differ, but have the
    same bytes; 1 and 65537 do as well. *)
Definition st_set : ty semid := TSet i_option (mkSizing 0 10).
Definition si_set := Eval vm_compute in uid st_set.
Definition s_sys : type_system := Eval vm_compute in build (st_set :: ex_types).
Theorem C13_bytes_refuted : exists sys id r sz v a b bs,
  wf_sys sys /\ sys_find sys id = Some (TSet r sz)
  /\ returns (fun fuel => typify fuel sys v id) (Ok (mkTyped id (VSet [a; b])))
  /\ forall ce, strict_serialize_value 99 ce sys (mkTyped r a) = Ok bs /\ strict_serialize_value 99 ce sys (mkTyped r b) = Ok bs.
Proof.
  exists s_sys, si_set, i_option, (mkSizing 0 10),
    (VSet [VUnion (Name "some") (VNum (Uint 7)); VUnion (Ord 1) (VNum (Uint 7))]),
    (VUnion (Name "some") (VNum (Uint 7))), (VUnion (Ord 1) (VNum (Uint 7))), [x01; x07; x00].
  split.
  { apply wf_sys_entries.
    - unfold s_sys. repeat (apply Forall_cons; [wf_entry|]). constructor.
    - unfold s_sys at 2. repeat (apply Forall_cons; [vm_compute; try exact I; reflexivity|]). constructor.
    - rewrite unit_id_val. intros t H. vm_compute in H. injection H as <-. reflexivity. }
  split; [found|]. split; [exists 3%nat; intros [|[|[|fuel]]] L; [lia|lia|lia|vm_compute; reflexivity]|].
  intros ce. split; vm_compute; reflexivity.
Qed.
Print Assumptions C13_bytes_refuted.

Theorem C13_numbers_refuted : exists sys id r sz v a b bs,
  wf_sys sys /\ sys_find sys id = Some (TSet r sz)
  /\ returns (fun fuel => typify fuel sys v id) (Ok (mkTyped id (VSet [a; b])))
  /\ forall ce, strict_serialize_value 99 ce sys (mkTyped r a) = Ok bs /\ strict_serialize_value 99 ce sys (mkTyped r b) = Ok bs.
Proof.
  exists ex_sys, i_set, i_u16, (mkSizing 0 10), (VSet [VNum (Uint 1); VNum (Uint 65537)]),
    (VNum (Uint 1)), (VNum (Uint 65537)), [x01; x00].
  split; [exact ex_sys_wf|].
  split; [found|]. split; [exists 2%nat; intros [|[|fuel]] L; [lia|lia|vm_compute; reflexivity]|].
  intros ce. split; vm_compute; reflexivity.
Qed.
Print Assumptions C13_numbers_refuted.

(** ** C14: structures are complete *)

(** Proved for structures ... *)
Theorem C14_complete_partial : forall fuel sys l id fs tv,
  NoDup (map fst l) -> type_of sys id = Some (TStruct fs) -> typify fuel sys (VStruct l) id = Ok tv ->
  exists l', tv_val tv = VStruct l' /\ NoDup (map fst l') /\ forall n, In n (map fst l') <-> In n (map fst fs).
Proof.
  intros fuel sys l id fs tv ND T H. unfold typify in H. apply ReadLemmas.bind_Ok in H as (w & H & Q). injection Q as <-.
  exact (typify_struct_complete fuel sys l id fs w H T ND).
Qed.
Print Assumptions C14_complete_partial.

(** ... and for maps: only declared fields, each once, and exactly those given. *)
Theorem C14_map_partial : forall fuel sys l id fs tv,
  type_of sys id = Some (TStruct fs) -> typify fuel sys (VMap l) id = Ok tv ->
  exists l', tv_val tv = VStruct l' /\ NoDup (map fst l')
    /\ (forall n, In n (map fst l') <-> In (VStr n) (map fst l))
    /\ (forall n, In n (map fst l') -> In n (map fst fs)).
Proof.
  intros fuel sys l id fs tv T H. unfold typify in H. apply ReadLemmas.bind_Ok in H as (w & H & Q). injection Q as <-.
  exact (typify_mstruct_known fuel sys l id fs w H T).
Qed.
Print Assumptions C14_map_partial.

Example C14_case :
  typify 5 n_sys (VStruct [("opt"%string, VUnit); ("num"%string, VNum (Int 1)); ("color"%string, VEnum (Ord 0))]) ni_root
    = Ok (mkTyped ni_root (VStruct [("opt"%string, VUnion (Name "none") VUnit); ("num"%string, VNum (Int 1));
                                    ("color"%string, VEnum (Name "red"))]))
  /\ typify 5 n_sys (VStruct [("opt"%string, VUnit)]) ni_root = Err (FieldNumberMismatch ni_root 3 1)
  /\ typify 5 n_sys (VMap [(VStr "extra", VUnit)]) ni_root = Err (ExtraField "extra").
Proof. vm_compute. auto. Qed.

(** The full statement fails: a map without any field of the structure is accepted. *)
Theorem C14_refuted : exists sys id fs v l,
  wf_sys sys /\ sys_find sys id = Some (TStruct fs)
  /\ returns (fun fuel => typify fuel sys v id) (Ok (mkTyped id (VStruct l)))
  /\ exists n, In n (map fst fs) /\ ~ In n (map fst l).
Proof.
  exists n_sys, ni_root, [("num"%string, i_i8); ("color"%string, i_color); ("opt"%string, i_option)],
    (VMap [(VStr "num", VNum (Int 1))]), [("num"%string, VNum (Int 1))].
  split; [exact n_sys_wf|]. split; [found|].
  split; [exists 2%nat; intros [|[|fuel]] L; [lia|lia|vm_compute; reflexivity]|].
  exists "color"%string. cbn. split; [tauto|]. intuition discriminate.
Qed.
Print Assumptions C14_refuted.

(** Tuples given as tuples have all the declared fields, each of them typed at its place. *)
Lemma zip_fields (rec : sval -> semid -> outcome typ_error sval) l : forall ids l', typify_zip rec l ids = Ok l' -> lenN l = lenN ids ->
  Forall2 (fun xi y => rec (fst xi) (snd xi) = Ok y) (combine l ids) l'.
Proof.
  induction l as [|x l IH]; intros [|id ids] l' H L; cbn in H; try (unfold lenN in L; cbn in L; lia).
  - injection H as <-. constructor.
  - apply ReadLemmas.bind_Ok in H as (y & H1 & H). apply ReadLemmas.bind_Ok in H as (ys & H2 & H). injection H as <-.
    cbn [combine]. constructor; [exact H1|]. apply IH; [exact H2|]. unfold lenN in *. cbn [List.length] in L. lia.
Qed.
Theorem C14_tuple_partial : forall fuel sys l id fs tv,
  type_of sys id = Some (TTuple fs) -> typify (S fuel) sys (VTuple l) id = Ok tv ->
  List.length l = List.length fs
  /\ exists l', tv_val tv = VTuple l' /\ List.length l' = List.length fs
     /\ Forall2 (fun xi y => typify fuel sys (fst xi) (snd xi) = Ok (mkTyped (snd xi) y)) (combine l fs) l'.
Proof.
  intros fuel sys l id fs tv T H. unfold typify in H. apply ReadLemmas.bind_Ok in H as (w & H & Q). injection Q as <-.
  cbn [typify_val] in H. rewrite T in H. cbn [ok_or bind typify_ty] in H.
  destruct (N.eqb_spec (lenN l) (lenN fs)) as [E|E]; [|discriminate H]. cbn [negb] in H.
  apply ReadLemmas.bind_Ok in H as (l' & H & Q). injection Q as <-.
  assert (L : List.length l = List.length fs) by (unfold lenN in E; lia). split; [exact L|].
  exists l'. split; [reflexivity|]. apply zip_fields in H; [|exact E]. split.
  - assert (X : forall {A B} (P : A -> B -> Prop) a b, Forall2 P a b -> List.length a = List.length b)
      by (clear; induction 1; cbn; congruence).
    apply X in H. rewrite combine_length in H. lia.
  - eapply TypifyNotations.Forall2_impl; [|exact H]. intros [x i] y X. unfold typify. cbn [fst snd] in *. now rewrite X.
Qed.
Example C14_tuple_case : exists id fs, type_of ex_sys id = Some (TTuple fs) /\ List.length fs = 2%nat
  /\ (exists tv, typify 5 ex_sys (VTuple [VNum (Uint 1); VUnit]) id = Ok tv)
  /\ typify 5 ex_sys (VTuple [VNum (Uint 1)]) id = Err (FieldNumberMismatch id 2 1).
Proof. exists i_pair. eexists. split; [found|]. vm_compute. eauto. Qed.
Print Assumptions C14_tuple_partial.

(** A list standing for a tuple may lack fields or have more of them. *)
Theorem C14_list_refuted : exists sys id fs l1 l2,
  wf_sys sys /\ sys_find sys id = Some (TTuple fs) /\ (List.length l1 < List.length fs)%nat
  /\ returns (fun fuel => typify fuel sys (VList l1) id) (Ok (mkTyped id (VTuple l1)))
  /\ exists l, (List.length fs < List.length l)%nat /\ returns (fun fuel => typify fuel sys (VList l) id) (Ok (mkTyped id (VTuple l2))).
Proof.
  exists ex_sys, i_pair, [i_u16; i_option], [VNum (Uint 1)], [VNum (Uint 1); v_none].
  split; [exact ex_sys_wf|]. split; [found|]. split; [cbn; lia|].
  split; [exists 2%nat; intros [|[|fuel]] L; [lia|lia|vm_compute; reflexivity]|].
  exists [VNum (Uint 1); v_none; VStr "extra"]. split; [cbn; lia|].
  exists 3%nat; intros [|[|[|fuel]]] L; [lia|lia|lia|vm_compute; reflexivity].
Qed.
Print Assumptions C14_list_refuted.

(** Exactly what is accepted: a list for a tuple, whose items beyond the shorter of both are dropped, ... *)
Lemma zip_exact rec l : forall fs l', typify_zip rec l fs = Ok l' <-> Forall2 (fun xi y => rec (fst xi) (snd xi) = Ok y) (combine l fs) l'.
Proof.
  induction l as [|x l IH]; intros fs l'; [cbn; split; [intros [= <-]; constructor|inversion 1; reflexivity]|].
  destruct fs as [|i fs]; [cbn; split; [intros [= <-]; constructor|inversion 1; reflexivity]|]. cbn [typify_zip combine]. split.
  - intros H. apply ReadLemmas.bind_Ok in H as (y & Hy & H). apply ReadLemmas.bind_Ok in H as (ys & Hs & H). injection H as <-.
    constructor; [exact Hy|]. now apply IH.
  - inversion 1 as [|? ? ? ? Hy Hs]; subst. cbn [fst snd] in Hy. rewrite Hy. cbn [bind]. apply IH in Hs. rewrite Hs. reflexivity.
Qed.
Theorem C14_list_exact : forall fuel sys l id fs tv, type_of sys id = Some (TTuple fs) ->
  typify (S fuel) sys (VList l) id = Ok tv <->
  exists l', tv = mkTyped id (VTuple l')
    /\ Forall2 (fun xi y => typify fuel sys (fst xi) (snd xi) = Ok (mkTyped (snd xi) y)) (combine l fs) l'.
Proof.
  intros fuel sys l id fs tv T. unfold typify. cbn [typify_val]. rewrite T. cbn [ok_or bind typify_ty].
  assert (X : forall l', Forall2 (fun xi y => typify_val fuel sys (fst xi) (snd xi) = Ok y) (combine l fs) l' <->
    Forall2 (fun xi y => bind (typify_val fuel sys (fst xi) (snd xi)) (fun w => Ok (mkTyped (snd xi) w)) = Ok (mkTyped (snd xi) y)) (combine l fs) l').
  { intros l'. split; induction 1 as [|xi y a b H _ IH]; constructor; try exact IH.
    - rewrite H. reflexivity.
    - apply ReadLemmas.bind_Ok in H as (w & H & Q). rewrite H. f_equal. exact (f_equal tv_val (f_equal (fun o => match o with Ok a => a | _ => mkTyped (snd xi) y end) Q)). }
  split.
  - intros H. apply ReadLemmas.bind_Ok in H as (w & H & Q). apply ReadLemmas.bind_Ok in H as (l' & H & R). injection R as <-. injection Q as <-.
    exists l'. split; [reflexivity|]. apply X. now apply zip_exact.
  - intros (l' & -> & F). apply X, zip_exact in F. rewrite F. reflexivity.
Qed.
Example C14_list_exact_case : typify 2 ex_sys (VList [VNum (Uint 1)]) i_pair = Ok (mkTyped i_pair (VTuple [VNum (Uint 1)])).
Proof.
  apply (C14_list_exact 1 ex_sys _ i_pair [i_u16; i_option]); [vm_compute; reflexivity|]. exists [VNum (Uint 1)]. split; [reflexivity|].
  constructor; [vm_compute; reflexivity|constructor].
Qed.
Print Assumptions C14_list_exact.

(** ... and a map for a structure: every key is the name of a declared field, and every value is accepted for it; a field may be
    given twice or not at all. *)
Theorem C14_map_exact : forall fuel sys l id fs, type_of sys id = Some (TStruct fs) -> NoDup (map fst fs) ->
  (exists tv, typify (S fuel) sys (VMap l) id = Ok tv) <->
  Forall (fun e => exists n r tw, fst e = VStr n /\ name_ok n = true /\ In (n, r) fs /\ typify fuel sys (snd e) r = Ok tw) l.
Proof.
  intros fuel sys l id fs T ND. unfold typify. cbn [typify_val]. rewrite T. cbn [ok_or bind typify_ty].
  assert (G : forall n r, nf_ty_by_name fs n = Some r <-> In (n, r) fs).
  { intros n r. unfold nf_ty_by_name. clear T. induction fs as [|[k i] fs IH]; cbn [find fst]; [split; [discriminate|intros []]|].
    inversion ND as [|? ? N1 N2]; subst. destruct (String.eqb_spec k n) as [->|D].
    - cbn [option_map snd]. split; [intros [= ->]; now left|]. intros [E|I]; [apply pair_equal_spec in E as [_ ->]; reflexivity|].
      destruct N1. apply (in_map fst) in I. exact I.
    - rewrite (IH N2). split; [now right|]. intros [E|I]; [|exact I]. apply pair_equal_spec in E as [E _]. contradiction. }
  transitivity (exists l', typify_mstruct (typify_val fuel sys) fs l [] = Ok l').
  { split.
    - intros [tv H]. apply ReadLemmas.bind_Ok in H as (w & H & _). apply ReadLemmas.bind_Ok in H as (l' & H & _). eauto.
    - intros [l' ->]. cbn [bind]. eauto. }
  generalize (@nil (string * sval)). clear T. induction l as [|[k x] l IH]; intros acc; [split; [constructor|intros _; cbn; eauto]|].
  cbn [typify_mstruct]. split.
  - intros [l' H]. destruct k; try discriminate H. destruct (name_ok s) eqn:K; [|discriminate H].
    apply ReadLemmas.bind_Ok in H as (i & Hi & H). apply ReadLemmas.bind_Ok in H as (y & Hy & H).
    destruct (nf_ty_by_name fs s) as [i'|] eqn:F; [|discriminate Hi]. cbn [ok_or] in Hi. injection Hi as ->. apply G in F. constructor.
    + exists s, i. eexists. cbn [fst snd]. split; [reflexivity|]. split; [exact K|]. split; [exact F|]. rewrite Hy. reflexivity.
    + apply (IH (imap_insert s y acc)). eauto.
  - inversion 1 as [|? ? (n & r & tw & E & K & I & Y) Fl]; subst. cbn [fst snd] in *. subst k. rewrite K. apply G in I. rewrite I. cbn [ok_or bind].
    apply ReadLemmas.bind_Ok in Y as (y & Hy & _). rewrite Hy. cbn [bind]. apply IH. exact Fl.
Qed.
Example C14_map_exact_case : exists tv, typify 2 n_sys (VMap [(VStr "num", VNum (Int 1)); (VStr "num", VNum (Int 2))]) ni_root = Ok tv.
Proof.
  apply (C14_map_exact 1 n_sys _ ni_root [("num"%string, i_i8); ("color"%string, i_color); ("opt"%string, i_option)]).
  - vm_compute. reflexivity.
  - repeat constructor; cbn; intuition discriminate.
  - repeat constructor; exists "num"%string, i_i8; eexists; (split; [reflexivity|]); (split; [reflexivity|]); (split; [now left|]); vm_compute; reflexivity.
Qed.
Print Assumptions C14_map_exact.

(** ** C15: termination *)

(** Proved for systems without circular references. *)
Theorem C15_terminates_partial : forall c sys id,
  acyclic sys ->
  (forall data, exists r, r <> Diverge /\ returns (fun fuel => strict_deserialize_type fuel c sys id data) r)
  /\ (forall v, exists r, r <> Diverge /\ returns (fun fuel => typify fuel sys v id) r).
Proof.
  intros c sys id A. split; intros; [now apply deserialize_terminates|now apply typify_terminates].
Qed.
Print Assumptions C15_terminates_partial.

Fixpoint depth (n : nat) (sys : type_system) (id : semid) : nat :=
  match n with
  | O => O
  | S n => match sys_find sys id with
           | None => O
           | Some t => S (list_max (map (depth n sys) (refs t)))
           end
  end.
Example C15_case : acyclic ex_sys.
Proof.
  exists (depth 9 ex_sys). intros id t r H. revert r.
  apply (sys_entries ex_sys (fun id t => forall r, In r (refs t) -> (depth 9 ex_sys r < depth 9 ex_sys id)%nat)) with (id := id);
    [|exact H]. clear id t H.
  assert (C : forallb (fun e => forallb (fun r => Nat.ltb (depth 9 ex_sys r) (depth 9 ex_sys (fst e))) (refs (snd e))) ex_sys = true)
    by (vm_compute; reflexivity).
  rewrite forallb_forall in C. apply Forall_forall. intros e I r J. specialize (C e I). rewrite forallb_forall in C.
  apply Nat.ltb_lt. exact (C r J).
Qed.

(** The full statement fails: with a type which refers to itself neither reading nor typing ends (the code
    exhausts the stack). *)
Theorem C15_refuted : exists sys id,
  (forall fuel data, strict_deserialize_type fuel ex_config sys id data = Diverge)
  /\ exists v, forall fuel, typify fuel sys v id = Diverge.
Proof. exact circular_diverges. Qed.
Print Assumptions C15_refuted.
