(** Typified sets and maps have different elements; typification of notations, from end to end. *)
From Coq Require Import NArith ZArith List Bool String Ascii Strings.Byte Lia.
From Verif Require Import Base Ty Ids Val TypeSys Encode Decode DecodeShort Typify Spec SpecTypify CodecLemmas ValLemmas RoundTrip
  ReadLemmas CodecProofs TypifyProofs TypifyProofs2 TypifyProofs3 TypifyNotations.
Import ListNotations.
Local Open Scope N_scope.

Lemma fields_ok_vlist l : fields_ok (VList l) <-> Forall fields_ok l.
Proof. apply fields_ok_list. Qed.
Lemma fields_ok_vset l : fields_ok (VSet l) <-> Forall fields_ok l.
Proof. apply fields_ok_list. Qed.
Lemma fields_ok_vtuple l : fields_ok (VTuple l) <-> Forall fields_ok l.
Proof. apply fields_ok_list. Qed.
Lemma fields_ok_vmap l : fields_ok (VMap l) <-> Forall (fun e => fields_ok (fst e) /\ fields_ok (snd e)) l.
Proof.
  split.
  - cbn. induction l as [|e l IH]; [constructor|]. intros (A & B & C). constructor; [auto|]. now apply IH.
  - induction 1 as [|e l [A B] F IH]; [exact I|]. exact (conj A (conj B IH)).
Qed.

Lemma typed_fields_ok m c sys id v : wf_sys sys -> has_type m c sys id v -> fields_ok v.
Proof.
  intros W. revert id v. apply (has_type_ind' m c sys (fun id v => fields_ok v)); try (intros; exact I); intros.
  all: try assumption.
  - apply fields_ok_vtuple. match goal with X : Forall2 (fun _ v => fields_ok v) _ _ |- _ => clear -X; induction X; constructor; auto end.
  - apply fields_ok_struct. split.
    + pose proof (wf_types _ W _ _ H) as ND. cbn in ND. now rewrite H0.
    + match goal with X : Forall2 (fun _ v => fields_ok v) _ _ |- _ => clear -X; induction X; constructor; auto end.
  - now apply fields_ok_vlist.
  - now apply fields_ok_vlist.
  - now apply fields_ok_vset.
  - apply fields_ok_vmap. apply Forall_forall. intros e I.
    repeat match goal with X : Forall _ (map _ _) |- _ => rewrite Forall_map, Forall_forall in X; specialize (X _ I) end.
    split; assumption.
Qed.

Section FieldsOk.
Variable rec : sval -> semid -> outcome typ_error sval.
Hypothesis R : forall v id w, fields_ok v -> rec v id = Ok w -> fields_ok w.

Lemma ok_map_outcome r l l' : Forall fields_ok l -> map_outcome (fun x => rec x r) l = Ok l' -> Forall fields_ok l'.
Proof.
  revert l'; induction l as [|x l IH]; intros l' F H; cbn in H; [injection H as <-; constructor|].
  inversion F; subst. apply bind_Ok in H as (y & H1 & H). apply bind_Ok in H as (ys & H2' & H). injection H as <-.
  constructor; eauto.
Qed.

Lemma ok_zip l ids l' : Forall fields_ok l -> typify_zip rec l ids = Ok l' -> Forall fields_ok l'.
Proof.
  revert ids l'; induction l as [|x l IH]; intros [|i ids] l' F H; cbn in H; try (injection H as <-; constructor).
  inversion F; subst. apply bind_Ok in H as (y & H1 & H). apply bind_Ok in H as (ys & H2' & H). injection H as <-.
  constructor; eauto.
Qed.

Lemma ok_set id r l new l' : Forall fields_ok l -> Forall fields_ok new -> typify_set rec id r l new = Ok l' ->
  Forall fields_ok l'.
Proof.
  revert new; induction l as [|x l IH]; intros new F G H; cbn [typify_set] in H; [injection H as <-; exact G|].
  inversion F; subst. apply bind_Ok in H as (y & H1 & H). destruct (existsb _ new) in H; [discriminate|].
  eapply IH; [assumption| |exact H]. apply Forall_app. split; [exact G|]. constructor; eauto.
Qed.

Lemma ok_map id k r l new l' : Forall (fun e => fields_ok (fst e) /\ fields_ok (snd e)) l ->
  Forall (fun e => fields_ok (fst e) /\ fields_ok (snd e)) new -> typify_map rec id k r l new = Ok l' ->
  Forall (fun e => fields_ok (fst e) /\ fields_ok (snd e)) l'.
Proof.
  revert new; induction l as [|[x z] l IH]; intros new F G H; cbn [typify_map] in H; [injection H as <-; exact G|].
  inversion F as [|? ? [F1 F2] F']; subst. cbn in F1, F2. apply bind_Ok in H as (y & H1 & H). apply bind_Ok in H as (u & H2 & H).
  destruct (existsb _ new) in H; [discriminate|].
  eapply IH; [assumption| |exact H]. apply Forall_app. split; [exact G|]. constructor; cbn; eauto.
Qed.

Lemma ok_insert k y new : fields_ok (VStruct new) -> fields_ok y -> fields_ok (VStruct (imap_insert k y new)).
Proof.
  rewrite !fields_ok_struct. intros [A B] Y. split; [now apply imap_insert_names|].
  clear A. induction new as [|[a b] new IH]; cbn in *; [constructor; auto|].
  inversion B; subst. destruct (a =? k)%string; cbn; constructor; auto.
Qed.

Lemma ok_struct req l new l' : Forall fields_ok (map snd l) -> fields_ok (VStruct new) ->
  typify_struct rec req l new = Ok l' -> fields_ok (VStruct l').
Proof.
  revert new; induction l as [|[n x] l IH]; intros new F G H; cbn [typify_struct] in H; [injection H as <-; exact G|].
  cbn in F. inversion F; subst. apply bind_Ok in H as (i & H1 & H). apply bind_Ok in H as (y & H2' & H).
  eapply IH; [assumption| |exact H]. apply ok_insert; eauto.
Qed.

Lemma ok_mstruct req l new l' : Forall (fun e => fields_ok (fst e) /\ fields_ok (snd e)) l -> fields_ok (VStruct new) ->
  typify_mstruct rec req l new = Ok l' -> fields_ok (VStruct l').
Proof.
  revert new; induction l as [|[n x] l IH]; intros new F G H; cbn [typify_mstruct] in H; [injection H as <-; exact G|].
  inversion F as [|? ? [F1 F2] F']; subst. cbn in F2. destruct n; try discriminate. destruct (name_ok s); [|discriminate].
  apply bind_Ok in H as (i & H1 & H). apply bind_Ok in H as (y & H2' & H).
  eapply IH; [assumption| |exact H]. apply ok_insert; eauto.
Qed.
End FieldsOk.

Ltac inv_if H := match type of H with
  | (if ?b then _ else _) = _ => destruct b eqn:?
  | Err _ = Ok _ => discriminate H
  | Panic = Ok _ => discriminate H
  | Ok _ = Ok _ => injection H as <-
  end.

Lemma typify_fields_ok fuel sys : forall v id w, fields_ok v -> typify_val fuel sys v id = Ok w -> fields_ok w.
Proof.
  induction fuel as [|fuel IH]; intros v id w F H; [discriminate|].
  apply typify_inv in H as (f & t & E & _ & H). injection E as <-.
  destruct t as [p| |vs|vs|fs|fs|r len|r sz|r sz|k r sz]; unfold typify_ty in H.
  - destruct v as [|n| | |l| | |l| |l|l]; try (destruct l); try (destruct n); repeat inv_if H; exact Logic.I.
  - destruct v; repeat inv_if H; exact Logic.I.
  - destruct v as [|n| | | |t| | | | |]; try (destruct n); repeat inv_if H; try exact Logic.I.
    + destruct (ev_name_by_tag vs n); repeat inv_if H. exact Logic.I.
    + destruct t as [n|n]; [destruct (ev_tag_by_name vs n)|destruct (ev_name_by_tag vs n)]; repeat inv_if H; exact Logic.I.
  - assert (S : forall v, fields_ok v -> typify_some (typify_val fuel sys) vs v = Ok w -> fields_ok w).
    { intros u Fu Hu. unfold typify_some in Hu. destruct (uv_ty_by_tag vs 1); cbn [expect bind] in Hu; [|discriminate].
      apply bind_Ok in Hu as (x & H1 & H2). injection H2 as <-. cbn. eapply IH; eauto. }
    destruct v as [| | | | | |t x| | |l|]; try (destruct (is_option (TUnion vs)); [eapply S; [exact F|exact H]|discriminate]).
    + repeat inv_if H. exact Logic.I.
    + destruct (match t with Name n => uv_ty_by_name vs n | Ord n => uv_ty_by_tag vs n end); [|discriminate].
      apply bind_Ok in H as (y & H1 & H). injection H as <-. cbn. eapply IH; [|exact H1]. exact F.
    + destruct l as [|a [|b [|? ?]]]; try (destruct (is_option (TUnion vs)); [eapply S; [exact F|exact H]|discriminate]).
      destruct (is_option (TUnion vs)); [|discriminate]. destruct (uv_ty_by_tag vs 1); cbn [expect bind] in H; [|discriminate].
      repeat inv_if H; try exact Logic.I.
      apply bind_Ok in H as (y & H1 & H). injection H as <-. cbn. eapply IH; [|eauto]. now destruct F as (_ & ? & _).
  - assert (NT : match fs with [f] => let* w := typify_val fuel sys v f in Ok (VTuple [w]) | _ => Err (TypeMismatch v (TTuple fs)) end = Ok w -> fields_ok w).
    { intros Q. destruct fs as [|f [|? ?]]; try discriminate. apply bind_Ok in Q as (y & H1 & Q). injection Q as <-.
      cbn. split; [eapply IH; eauto|exact Logic.I]. }
    destruct v as [| |s| | | | |l| |l|]; try exact (NT H).
    + destruct (_ && _) in H; [injection H as <-; exact Logic.I|exact (NT H)].
    + apply bind_Ok in H as (y & H1 & H). injection H as <-. apply fields_ok_vtuple. apply fields_ok_vlist in F.
      eapply ok_zip; eauto.
    + inv_if H; [discriminate|]. apply bind_Ok in H as (y & H1 & H). injection H as <-. apply fields_ok_vtuple.
      apply fields_ok_vtuple in F. eapply ok_zip; eauto.
  - destruct v; try discriminate.
    + inv_if H; [discriminate|]. apply bind_Ok in H as (y & H1 & H). injection H as <-. apply fields_ok_struct in F as [_ F].
      eapply ok_struct; [exact IH|exact F| |exact H1]; exact (conj (NoDup_nil _) Logic.I).
    + apply bind_Ok in H as (y & H1 & H). injection H as <-. apply fields_ok_vmap in F.
      eapply ok_mstruct; [exact IH|exact F| |exact H1]; exact (conj (NoDup_nil _) Logic.I).
  - destruct v; repeat inv_if H; try exact Logic.I; exact F.
  - destruct v; try discriminate; repeat inv_if H; try exact Logic.I.
    apply bind_Ok in H as (y & H1 & H). injection H as <-. apply fields_ok_vlist. apply fields_ok_vlist in F.
    eapply ok_map_outcome; eauto.
  - destruct v; try discriminate; repeat inv_if H.
    apply bind_Ok in H as (y & H1 & H). injection H as <-. apply fields_ok_vset. apply fields_ok_vset in F.
    eapply ok_set; [|exact F| |exact H1]; eauto.
  - destruct v; try discriminate; repeat inv_if H.
    apply bind_Ok in H as (y & H1 & H). injection H as <-. apply fields_ok_vmap. apply fields_ok_vmap in F.
    eapply ok_map; [|exact F| |exact H1]; eauto.
Qed.

Lemma differ_NoDup l : Forall fields_ok l -> all_differ l -> NoDup l.
Proof.
  intros F. induction 1 as [|x l H D IH]; [constructor|]. inversion F; subst. constructor; [|auto].
  intros I. rewrite Forall_forall in H. specialize (H _ I). rewrite sval_eqb_refl in H by assumption. discriminate.
Qed.

Lemma set_elements fuel sys v id r sz w : fields_ok v -> typify_val fuel sys v id = Ok w ->
  type_of sys id = Some (TSet r sz) -> exists l, w = VSet l /\ NoDup l.
Proof.
  intros F H T. destruct (typify_distinct_set _ _ _ _ _ _ _ H T) as (l & -> & D). exists l. split; [reflexivity|].
  apply differ_NoDup; [|exact D]. apply fields_ok_vset. eapply typify_fields_ok; eauto.
Qed.

Lemma map_keys fuel sys v id k r sz w : fields_ok v -> typify_val fuel sys v id = Ok w ->
  type_of sys id = Some (TMap k r sz) -> exists l, w = VMap l /\ NoDup (map fst l).
Proof.
  intros F H T. destruct (typify_distinct_map _ _ _ _ _ _ _ _ H T) as (l & -> & D). exists l. split; [reflexivity|].
  apply differ_NoDup; [|exact D]. apply (typify_fields_ok _ _ _ _ _ F), fields_ok_vmap in H. rewrite Forall_map.
  eapply Forall_impl; [|exact H]. now intros ? [? _].
Qed.

(** ** Notations from end to end *)
Lemma denotes_end_to_end c ce sys id v w : wf_sys sys -> known_ids sys -> denotes c sys id v w ->
  exists tv bs,
    returns (fun fuel => typify fuel sys v id) (Ok tv)
    /\ (forall max_len, lenN bs <= max_len -> strict_serialize_value max_len ce sys tv = Ok bs)
    /\ (lenN bs <= u32_max -> returns (fun fuel => strict_deserialize_type fuel c sys id bs) (Ok (mkTyped id w))).
Proof.
  intros W K D. destruct (denotes_good c sys W K _ _ _ D) as (T & n & w' & _ & E & TY).
  destruct (rt_serialize (mkMode true false) c ce sys W (fun _ => eq_refl) eq_refl id w T) as (bs & S & R).
  exists (mkTyped id w'), bs. split; [|split; [|exact R]].
  - exists n. intros fuel L. unfold typify. rewrite TY by assumption. reflexivity.
  - intros m L. specialize (S m L). apply serialize_inv in S as [S _]. apply serialize_ok; [|exact L]. now rewrite E.
Qed.

Lemma denotes_typed c sys id v w : wf_sys sys -> known_ids sys -> denotes c sys id v w ->
  has_type (mkMode true false) c sys id w.
Proof. intros W K D. apply (denotes_good c sys W K _ _ _ D). Qed.

(** ** The number type Byte *)
Lemma byte_int_serialized c sys id z max_len : wf_sys sys -> sys_find sys id = Some (TPrim P_BYTE) -> 1 <= max_len ->
  exists b, strict_serialize_value max_len c sys (mkTyped id (VNum (Int z))) = Ok b
    /\ returns (fun fuel => strict_deserialize_type fuel c sys id b) (Ok (mkTyped id (VNum (Uint (Z.to_N (z mod 256)))))).
Proof.
  intros W F M. destruct (uint_serialized c sys id P_BYTE 1 (Z.to_N (z mod 256)) max_len W F eq_refl M) as (b & S & R).
  exists b. split.
  - apply serialize_inv in S as [S L]. apply serialize_ok; [|exact L]. rewrite <- S. cbn [write_val].
    rewrite (type_of_find _ _ _ W F). cbn [expect bind]. change (N.to_nat (prim_size P_BYTE)) with 1%nat.
    rewrite !slice_le by lia. rewrite twos_narrow by lia. reflexivity.
  - pose proof (Z.mod_pos_bound z 256 ltac:(lia)).
    rewrite N.mod_small in R; [exact R|]. change (2 ^ (8 * 1)) with (Z.to_N 256). lia.
Qed.

(** ** Accepted numbers *)

Lemma prim_case fuel sys id p v tv : wf_sys sys -> sys_find sys id = Some (TPrim p) -> typify fuel sys v id = Ok tv ->
  exists f w, tv = mkTyped id w /\ typify_ty (typify_val f sys) id (TPrim p) v = Ok w.
Proof.
  intros W F H. unfold typify in H. apply bind_Ok in H as (w & H & Q). injection Q as <-.
  apply typify_inv in H as (f & t & _ & T & H). rewrite (type_of_find _ _ _ W F) in T. injection T as <-. eauto.
Qed.

Lemma uint_width_bound p w : uint_width p = Some w -> p <> P_BYTE -> 1 <= p <= 8.
Proof.
  unfold uint_width. destruct (N.leb_spec 1 p), (N.leb_spec p 8); cbn; try lia;
  destruct (N.eqb_spec p 64); intros; try discriminate; subst; now destruct H2.
Qed.

Lemma int_width_bound p w : int_width p = Some w -> 0x41 <= p <= 0x48.
Proof.
  unfold int_width. repeat match goal with |- context [p =? ?k] => destruct (N.eqb_spec p k); [intros; lia|] end. discriminate.
Qed.

Lemma unsigned_accepted c fuel sys id p w num tv max_len :
  wf_sys sys -> sys_find sys id = Some (TPrim p) -> uint_width p = Some w -> p <> P_BYTE -> w <= max_len ->
  typify fuel sys (VNum num) id = Ok tv ->
  exists n bs, num = Uint n
    /\ strict_serialize_value max_len c sys tv = Ok bs
    /\ returns (fun fuel => strict_deserialize_type fuel c sys id bs) (Ok (mkTyped id (VNum (Uint (n mod 2 ^ (8 * w)))))).
Proof.
  intros W F U NB M H. destruct (prim_case _ _ _ _ _ _ W F H) as (f & v & -> & T).
  pose proof (uint_width_bound p w U NB) as B. cbn [typify_ty] in T.
  assert (S1 : is_small_unsigned p = true) by (unfold is_small_unsigned; apply N.leb_le; lia).
  assert (S2 : is_small_signed p = false).
  { unfold is_small_signed. destruct (N.leb_spec 64 p); [lia|reflexivity]. }
  assert (S3 : is_large_unsigned p = false).
  { unfold is_large_unsigned. destruct (N.ltb_spec 16 p); [lia|reflexivity]. }
  assert (S4 : is_large_signed p = false).
  { unfold is_large_signed. destruct (N.ltb_spec 79 p); [lia|reflexivity]. }
  rewrite S1, S2, S3, S4 in T. destruct num as [n|n|z|z]; try discriminate. injection T as <-.
  destruct (uint_serialized c sys id p w n max_len W F U M) as (bs & A & R). eauto.
Qed.

Lemma signed_accepted c fuel sys id p w num tv max_len :
  wf_sys sys -> sys_find sys id = Some (TPrim p) -> int_width p = Some w -> w <= max_len ->
  typify fuel sys (VNum num) id = Ok tv ->
  exists z z' q bs, (num = Int z \/ exists n, num = Uint n /\ z = Z.of_N n)
    /\ strict_serialize_value max_len c sys tv = Ok bs
    /\ returns (fun fuel => strict_deserialize_type fuel c sys id bs) (Ok (mkTyped id (VNum (Int z'))))
    /\ (- 2 ^ (8 * Z.of_N w - 1) <= z' < 2 ^ (8 * Z.of_N w - 1))%Z
    /\ z = (z' + q * 2 ^ (8 * Z.of_N w))%Z.
Proof.
  intros W F U M H. destruct (prim_case _ _ _ _ _ _ W F H) as (f & v & -> & T).
  destruct (RoundTrip.int_width_cases p w U) as (_ & Bw & _).
  assert (X : exists z, v = VNum (Int z) /\ (num = Int z \/ exists n, num = Uint n /\ z = Z.of_N n)).
  { pose proof (int_width_bound p w U) as B. cbn [typify_ty] in T.
    assert (S1 : is_small_unsigned p = false) by (unfold is_small_unsigned; apply N.leb_gt; lia).
    assert (S3 : is_large_unsigned p = false).
    { unfold is_large_unsigned. destruct (N.ltb_spec p 64); [lia|]. apply andb_false_r. }
    assert (S4 : is_large_signed p = false).
    { unfold is_large_signed. destruct (N.ltb_spec 79 p); [lia|reflexivity]. }
    rewrite S1, S3, S4 in T. destruct num as [n|n|z|z]; try discriminate.
    - destruct (_ && _) in T; [|discriminate]. injection T as <-. exists (Z.of_N n). split; [reflexivity|]. right. eauto.
    - destruct (is_small_signed p); [|discriminate]. injection T as <-. exists z. auto. }
  destruct X as (z & -> & E). destruct (int_serialized c sys id p w z max_len W F U M) as (bs & A & R).
  destruct (wrap_spec w z) as [B [q Q]]; [lia|].
  exists z, (wrap w z), q, bs. auto.
Qed.

Lemma in_range_kept c fuel sys id p w n tv max_len :
  wf_sys sys -> sys_find sys id = Some (TPrim p) -> w <= max_len ->
  typify fuel sys (VNum n) id = Ok tv ->
  (uint_width p = Some w /\ p <> P_BYTE /\ exists k, n = Uint k /\ k < 2 ^ (8 * w))
  \/ (int_width p = Some w /\ exists z, n = Int z /\ (- 2 ^ (8 * Z.of_N w - 1) <= z < 2 ^ (8 * Z.of_N w - 1))%Z) ->
  exists bs, strict_serialize_value max_len c sys tv = Ok bs
    /\ returns (fun fuel => strict_deserialize_type fuel c sys id bs) (Ok (mkTyped id (VNum n))).
Proof.
  intros W F M H [(U & NB & k & -> & L)|(U & z & -> & L)].
  - destruct (unsigned_accepted c _ _ _ _ _ _ _ _ W F U NB M H) as (n & bs & E & A & R). injection E as <-.
    rewrite N.mod_small in R by exact L. eauto.
  - destruct (signed_accepted c _ _ _ _ _ _ _ _ W F U M H) as (z1 & z2 & q & bs & E & A & R & B & Q).
    destruct (RoundTrip.int_width_cases p w U) as (_ & Bw & _).
    destruct E as [E|(n & E & _)]; [|discriminate]. injection E as <-.
    assert (q = 0)%Z as ->.
    { replace (8 * Z.of_N w)%Z with (Z.succ (8 * Z.of_N w - 1)) in Q by lia. rewrite Z.pow_succ_r in Q by lia.
      set (h := (2 ^ (8 * Z.of_N w - 1))%Z) in *. nia. }
    replace z2 with z in R by lia. eauto.
Qed.

(** ** Sizes out of the bounds *)
Lemma out_of_bounds fuel sys v id t sz n :
  type_of sys id = Some t -> vsize v = Some n -> ~ (s_min sz <= n <= s_max sz) ->
  (exists r, t = TList r sz \/ t = TSet r sz \/ exists k, t = TMap k r sz) ->
  exists e, typify (S fuel) sys v id = Err e
    /\ (e = OutOfBounds id n sz \/ e = TypeMismatch v t).
Proof.
  intros T S NB E. unfold typify. rewrite (typify_unfold sys fuel v id t T).
  assert (C : sizing_check sz n = false).
  { destruct (sizing_check sz n) eqn:C; [|reflexivity]. apply sizing_check_inv in C. contradiction. }
  destruct E as (r & [-> | [-> | (k & ->)]]); destruct v; try discriminate; cbn in S; injection S as <-;
    cbn [typify_ty]; rewrite ?C; cbn [negb bind]; eexists; (split; [reflexivity|]); auto.
Qed.

(** ** Bytes of elements *)
Lemma set_bytes c ce fuel sys v id r sz l i j a b max_len bs :
  wf_sys sys -> fields_ok v -> type_of sys id = Some (TSet r sz) -> typify fuel sys v id = Ok (mkTyped id (VSet l)) ->
  Forall (has_type (mkMode true false) c sys r) l ->
  nth_error l i = Some a -> nth_error l j = Some b ->
  strict_serialize_value max_len ce sys (mkTyped r a) = Ok bs ->
  strict_serialize_value max_len ce sys (mkTyped r b) = Ok bs -> i = j.
Proof.
  intros W F T H TY A B SA SB. unfold typify in H. apply bind_Ok in H as (w & H & Q). injection Q as ->.
  destruct (set_elements _ _ _ _ _ _ _ F H T) as (l' & E & ND). injection E as <-.
  rewrite Forall_forall in TY. apply serialize_inv in SA as [SA _]. apply serialize_inv in SB as [SB _].
  destruct (rt_prefix_free (mkMode true false) c ce sys W (fun _ => eq_refl) eq_refl r a b bs bs [])
    as [E _]; eauto using nth_error_In; [now rewrite app_nil_r|]. subst b.
  apply (proj1 (NoDup_nth_error l)); [exact ND|apply nth_error_Some; congruence|congruence].
Qed.

(** ** A type referring to itself *)
Lemma circular_diverges : exists sys id,
  (forall fuel data, strict_deserialize_type fuel (mkConfig true (2 ^ 32)) sys id data = Diverge)
  /\ exists v, forall fuel, typify fuel sys v id = Diverge.
Proof.
  exists [(1, TTuple [1])], 1. split.
  - intros fuel data. unfold strict_deserialize_type, strict_read_type.
    assert (E : forall d, read_type fuel (mkConfig true (2 ^ 32)) [(1, TTuple [1])] 1 d = Diverge).
    { induction fuel as [|fuel IH]; [reflexivity|]. intros d. cbn [read_type].
      change (sys_find [(1, TTuple [1])] 1) with (Some (TTuple [1])). cbn [ok_or bind read_ty].
      change (is_rstring (mkConfig true (2 ^ 32)) [(1, TTuple [1])] [1]) with (Ok false : outcome unknown_type bool).
      cbn. rewrite IH. reflexivity. }
    rewrite E. reflexivity.
  - exists VUnit. intros fuel. unfold typify.
    assert (E : typify_val fuel [(1, TTuple [1])] VUnit 1 = Diverge); [|now rewrite E].
    induction fuel as [|fuel IH]; [reflexivity|]. cbn [typify_val].
    replace (type_of [(1, TTuple [1])] 1) with (Some (TTuple [1] : ty semid)) by (vm_compute; reflexivity).
    cbn [ok_or bind typify_ty]. rewrite IH. reflexivity.
Qed.

Lemma denotes_end_to_end' c ce sys id v w : wf_sys sys -> known_ids sys -> denotes c sys id v w ->
  exists tv bs,
    returns (fun fuel => typify fuel sys v id) (Ok tv)
    /\ (forall max_len, lenN bs <= max_len -> strict_serialize_value max_len ce sys tv = Ok bs
          /\ strict_serialize_value max_len ce sys (mkTyped id w) = Ok bs)
    /\ (lenN bs <= u32_max -> returns (fun fuel => strict_deserialize_type fuel c sys id bs) (Ok (mkTyped id w))).
Proof.
  intros W K D. destruct (denotes_end_to_end c ce sys id v w W K D) as (tv & bs & A & B & C).
  exists tv, bs. repeat split; auto. destruct (denotes_good c sys W K _ _ _ D) as (T & n & w' & _ & E & TY).
  destruct A as [n' A]. specialize (A (Nat.max n n') ltac:(lia)). unfold typify in A. rewrite TY in A by lia.
  cbn in A. injection A as <-. specialize (B _ H). apply serialize_inv in B as [B L]. apply serialize_ok; [|exact L].
  now rewrite <- E.
Qed.
