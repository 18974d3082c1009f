(** Exactly which values can be serialized: C01, C02. *)
From Coq Require Import NArith ZArith List Bool String Ascii Strings.Byte Lia.
From Verif Require Import Base Ty Ids Val TypeSys Encode Decode DecodeShort Spec CodecLemmas CodecProofs ReadLemmas RoundTrip Sound ExampleSys.
Import ListNotations.
Local Open Scope N_scope.

(** ** Writing of items one after another, up to the first panic *)

Lemma enc_all_panic {E A} (good : A -> Prop) (f : A -> outcome E bytes) l :
  Forall (fun x => good x \/ f x = Panic) l -> (forall x, In x l -> good x -> exists b, f x = Ok b) ->
  Forall good l \/ enc_all f l = Panic.
Proof.
  intros H G. induction H as [|x l [X|X] H IH]; [now left| |right; cbn; now rewrite X].
  destruct IH as [IH|IH]; [intros; apply G; [now right|assumption]|left; now constructor|].
  right. cbn. destruct (G x (or_introl eq_refl) X) as [b ->]. cbn. now rewrite IH.
Qed.
Lemma enc_zip_panic {E A B} (good : B -> A -> Prop) (f : A -> B -> outcome E bytes) m l :
  Forall2 (fun y x => good y x \/ f x y = Panic) m l -> (forall x y, good y x -> exists b, f x y = Ok b) ->
  Forall2 good m l \/ enc_zip f l m = Panic.
Proof.
  intros H G. induction H as [|y x m l [X|X] H IH]; [now left| |right; cbn; now rewrite X].
  destruct IH as [IH|IH]; [left; now constructor|].
  right. cbn. destruct (G x y X) as [b ->]. cbn. now rewrite IH.
Qed.

Section Panics.
Variables (s : bool) (c ce : config) (sys : type_system).
Hypothesis W : wf_sys sys.
Hypothesis D : dbg ce = true -> s = true.
Let HT := has_type (mkMode s false) c sys.

Lemma written id v : HT id v -> exists b, write_val ce sys v id = Ok b.
Proof. intros H. destruct (round_trip (mkMode s false) c ce sys W D eq_refl id v H) as (b & E & _). eauto. Qed.

Lemma array_panics id v : has_type (mkMode s true) c sys id v -> HT id v \/ write_val ce sys v id = Panic.
Proof.
  intros H. induction H using has_type_ind'; unfold HT in *;
    match goal with X : sys_find sys id = Some ?t |- _ => pose proof (type_of_find _ _ _ W X) as TO; rename X into F end;
    try (left; econstructor; eassumption).
  - (* union *)
    destruct IHhas_type as [IH|IH]; [left; econstructor; eassumption|]. right.
    destruct (wf_types _ W _ _ F) as [N1 [N2 B]].
    cbn [write_val]. rewrite TO. cbn [expect bind].
    match goal with X : In (v, r) vs |- _ => rename X into I end.
    change (v_name v) with (v_name (fst (v, r))). rewrite uv_by_name_In by assumption. cbn [expect bind snd fst]. now rewrite IH.
  - (* tuple *)
    match goal with X : Forall2 (fun _ _ => _ \/ _) _ _ |- _ => rename X into IH end.
    apply (enc_zip_panic (has_type (mkMode s false) c sys) (fun v id => write_val ce sys v id)) in IH as [IH|IH];
      [left; econstructor; eassumption| |intros; now apply written].
    right. cbn [write_val]. rewrite TO. cbn [expect bind].
    unfold debug_assert. destruct (_ && _); [reflexivity|]. cbn [bind]. exact IH.
  - (* structure *)
    match goal with X : Forall2 (fun _ _ => _ \/ _) _ _ |- _ => rename X into IH end.
    match goal with X : map fst l = map fst fs |- _ => rename X into NM end.
    pose proof (wf_types _ W _ _ F) as ND. cbn in ND.
    assert (NDl : NoDup (map fst l)) by (rewrite NM; assumption).
    set (w := fun f : string * semid =>
      match imap_get l (fst f) with None => Err (MissingField (fst f)) | Some v => write_val ce sys v (snd f) end).
    assert (G : forall l', incl l' l -> forall fs', map fst l' = map fst fs' ->
      Forall2 (fun r v => has_type (mkMode s false) c sys r v \/ write_val ce sys v r = Panic) (map snd fs') (map snd l') ->
      Forall2 (has_type (mkMode s false) c sys) (map snd fs') (map snd l') \/ enc_all w fs' = Panic).
    { induction l' as [|[n x] l' IHl]; intros I fs' NM' F2; destruct fs' as [|[n' r] fs']; try discriminate; [left; constructor|].
      cbn [map fst snd] in *. injection NM' as -> NM'. inversion F2 as [|? ? ? ? X F2']; subst.
      assert (E : w (n', r) = write_val ce sys x r).
      { unfold w. cbn [fst snd]. rewrite (imap_get_In l n' x NDl) by (apply I; now left). reflexivity. }
      destruct X as [X|X]; [|right; cbn; rewrite E, X; reflexivity].
      destruct (IHl (fun y Hy => I y (or_intror Hy)) fs' NM' F2') as [Y|Y]; [left; now constructor|].
      right. cbn. destruct (written _ _ X) as [b Eb]. rewrite E, Eb. cbn. now rewrite Y. }
    destruct (G l (incl_refl l) fs NM IH) as [Y|Y]; [left; econstructor; eassumption|]. right.
    cbn [write_val]. rewrite TO. cbn [expect bind]. unfold debug_assert. destruct (_ && _); [reflexivity|]. cbn [bind].
    erewrite enc_all_ext; [exact Y|]. apply Forall_forall. intros f _.
    rewrite (imap_get_map (fun v id => write_val ce sys v id) l (fst f)). unfold w. destruct (imap_get l (fst f)); reflexivity.
  - (* array *)
    right. cbn [write_val]. rewrite TO. reflexivity.
  - (* list *)
    match goal with X : Forall (fun _ => _ \/ _) l |- _ => rename X into IH end.
    apply (enc_all_panic (has_type (mkMode s false) c sys r) (fun v => write_val ce sys v r)) in IH as [IH|IH];
      [left; eapply HT_list; eassumption| |intros; now apply written].
    right. cbn [write_val]. rewrite TO. cbn [expect bind]. now rewrite IH.
  - (* set *)
    match goal with X : Forall (fun _ => _ \/ _) l |- _ => rename X into IH end.
    apply (enc_all_panic (has_type (mkMode s false) c sys r) (fun v => write_val ce sys v r)) in IH as [IH|IH];
      [left; econstructor; eassumption| |intros; now apply written].
    right. cbn [write_val]. rewrite TO. cbn [expect bind]. now rewrite IH.
  - (* map *)
    match goal with X : Forall (fun _ => _ \/ _) (map fst l) |- _ => rename X into IHk end.
    match goal with X : Forall (fun _ => _ \/ _) (map snd l) |- _ => rename X into IHv end.
    destruct (enc_all_panic (fun e => has_type (mkMode s false) c sys k (fst e) /\ has_type (mkMode s false) c sys r (snd e))
      (fun e => let* a := write_val ce sys (fst e) k in let* b := write_val ce sys (snd e) r in Ok (a ++ b)) l) as [X|X].
    + clear -HT IHk IHv W D. induction l as [|[a b] l IH]; constructor; cbn in *.
      * inversion IHk as [|? ? X _]; subst. inversion IHv as [|? ? Y _]; subst.
        destruct X as [X|X]; [|right; now rewrite X]. destruct (written _ _ X) as [b1 E1].
        destruct Y as [Y|Y]; [now left|right; rewrite E1; cbn; now rewrite Y].
      * inversion IHk; inversion IHv; auto.
    + intros [a b] _ [X Y]. cbn in *. destruct (written _ _ X) as [b1 ->], (written _ _ Y) as [b2 ->]. cbn. eauto.
    + left. eapply HT_map; try eassumption; apply Forall_forall; intros y I; apply in_map_iff in I as (e & <- & I);
        rewrite Forall_forall in X; now apply X.
    + right. cbn [write_val]. rewrite TO. cbn [expect bind]. now rewrite X.
Qed.
End Panics.

(** ** C01: exactly which values can be serialized *)

(** A value of a type is serialized, subject to the limit for the length, if no array of other items than bytes is
    inside of it; otherwise serialization panics, whatever the limit. *)
Theorem C01_exact : forall s c ce sys id v,
  wf_sys sys -> (dbg ce = true -> s = true) -> has_type (mkMode s true) c sys id v ->
  (has_type (mkMode s false) c sys id v
   /\ exists bs, forall max_len, strict_serialize_value max_len ce sys (mkTyped id v)
                                = if lenN bs <=? max_len then Ok bs else Err ResultOversize)
  \/ (~ has_type (mkMode s false) c sys id v
      /\ forall max_len, strict_serialize_value max_len ce sys (mkTyped id v) = Panic).
Proof.
  intros s c ce sys id v W D H. unfold strict_serialize_value, strict_write_value. cbn [tv_val tv_id].
  destruct (array_panics s c ce sys W D id v H) as [X|X].
  - left. split; [exact X|]. destruct (written s c ce sys W D id v X) as [b E]. exists b. intros max_len. now rewrite E.
  - right. split; [|intros max_len; now rewrite X]. intros Y. destruct (written s c ce sys W D id v Y) as [b E]. congruence.
Qed.
Print Assumptions C01_exact.

(** Both cases occur: see [ex_value] and, with an array, [ex_array]. *)
Example C01_exact_case :
  (exists bs, forall max_len, strict_serialize_value max_len ex_config ex_sys (mkTyped i_root ex_value)
                            = if lenN bs <=? max_len then Ok bs else Err ResultOversize)
  /\ forall max_len, strict_serialize_value max_len ex_config ex_sys_arr (mkTyped i_array ex_array) = Panic.
Proof.
  split.
  - assert (T : has_type (mkMode true true) ex_config ex_sys i_root ex_value).
    { pose proof ex_value_typed as T. revert T. generalize i_root, ex_value. intros id v T.
      induction T using has_type_ind'; try (econstructor; eassumption). discriminate. }
    destruct (C01_exact true ex_config ex_config ex_sys i_root ex_value ex_sys_wf (fun _ => eq_refl) T) as [[_ X]|[X _]]; [exact X|].
    destruct X. exact ex_value_typed.
  - destruct (C01_exact true ex_config ex_config ex_sys_arr i_array ex_array ex_sys_arr_wf (fun _ => eq_refl) ex_array_typed)
      as [[X _]|[_ X]]; [|exact X].
    exfalso. inversion X; subst; try discriminate;
      match goal with H : sys_find ex_sys_arr i_array = Some _ |- _ => vm_compute in H; discriminate H end.
Qed.

(** ** C02: exactly which decoded values are serialized again *)

(** Release builds: whatever is decoded is serialized to the same bytes, if no array of other items than bytes is
    inside; otherwise serialization panics. *)
Theorem C02_exact : forall c ce sys fuel id data tv,
  wf_sys sys -> dbg ce = false -> strict_deserialize_type fuel c sys id data = Ok tv ->
  (has_type (mkMode false false) c sys id (tv_val tv)
   /\ forall max_len, strict_serialize_value max_len ce sys tv = if lenN data <=? max_len then Ok data else Err ResultOversize)
  \/ (~ has_type (mkMode false false) c sys id (tv_val tv) /\ forall max_len, strict_serialize_value max_len ce sys tv = Panic).
Proof.
  intros c ce sys fuel id data tv W ND H. destruct (decode_typed _ _ _ _ _ _ W H) as [I T].
  apply deserialize_inv in H as [_ [_ H]].
  destruct (read_sound c ce sys W ND _ _ _ _ _ H) as [bs [E [_ R]]]. rewrite app_nil_r in E. subst bs.
  destruct tv as [id' v]. cbn in *. subst id'.
  destruct (C01_exact false c ce sys id v W ltac:(congruence) T) as [[X _]|X]; [left|now right].
  split; [exact X|]. intros max_len. unfold strict_serialize_value, strict_write_value. cbn [tv_val tv_id]. now rewrite (R X).
Qed.
Print Assumptions C02_exact.
Example C02_exact_case : forall max_len,
  strict_serialize_value max_len (mkConfig false 0) ex_sys_arr (mkTyped i_array ex_array) = Panic.
Proof.
  assert (E : strict_deserialize_type 9 ex_config ex_sys_arr i_array [x01; x00; x02; x00] = Ok (mkTyped i_array ex_array))
    by (vm_compute; reflexivity).
  destruct (C02_exact ex_config (mkConfig false 0) ex_sys_arr 9 i_array _ _ ex_sys_arr_wf eq_refl E) as [[X _]|[_ X]]; [|exact X].
  exfalso. cbn [tv_val] in X. inversion X; subst; try discriminate;
    match goal with H : sys_find ex_sys_arr i_array = Some _ |- _ => vm_compute in H; discriminate H end.
Qed.
