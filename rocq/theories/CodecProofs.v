(** Proofs of the properties of serialization and deserialization. *)
From Coq Require Import NArith ZArith List Bool String Ascii Strings.Byte Lia.
From Verif Require Import Base Ty Ids Val TypeSys Encode Decode DecodeShort Spec CodecLemmas RoundTrip ReadLemmas Sound WriteLemmas.
Import ListNotations.
Local Open Scope N_scope.

(** ** Modes *)

Lemma has_type_no_arrays s a c sys id v : byte_arrays_only sys ->
  has_type (mkMode s a) c sys id v -> has_type (mkMode s false) c sys id v.
Proof.
  intros B H. induction H using has_type_ind'; try (econstructor; eassumption).
  exfalso. eauto.
Qed.

Lemma len_ok_lax s a a' c mn mx n : len_ok (mkMode s a) c mn mx n -> len_ok (mkMode false a') c mn mx n.
Proof. intros [A [B _]]. repeat split; auto; discriminate. Qed.

Lemma has_type_lax s a c sys id v :
  has_type (mkMode s a) c sys id v -> has_type (mkMode false a) c sys id v.
Proof.
  intros H. induction H using has_type_ind'; try (econstructor; eassumption).
  - eapply HT_rstring; eauto using len_ok_lax. discriminate.
  - eapply HT_chars; eauto using len_ok_lax. discriminate.
  - eapply HT_bytes; eauto using len_ok_lax.
  - eapply HT_text; eauto using len_ok_lax.
  - eapply HT_list; eauto using len_ok_lax.
  - eapply HT_set; eauto using len_ok_lax. discriminate.
  - eapply HT_map; eauto using len_ok_lax. discriminate.
Qed.

(** ** Round trips *)

Lemma limit32_small d : lenN d <= u32_max -> limit32 d = d.
Proof. intros H. unfold limit32. apply N.leb_le in H. now rewrite H. Qed.

Lemma serialize_ok ce sys id v bs max_len :
  write_val ce sys v id = Ok bs -> lenN bs <= max_len ->
  strict_serialize_value max_len ce sys (mkTyped id v) = Ok bs.
Proof.
  intros H L. unfold strict_serialize_value, strict_write_value. cbn [tv_val tv_id]. rewrite H. cbn [bind].
  apply N.leb_le in L. now rewrite L.
Qed.

Lemma serialize_inv ce sys id v bs max_len :
  strict_serialize_value max_len ce sys (mkTyped id v) = Ok bs ->
  write_val ce sys v id = Ok bs /\ lenN bs <= max_len.
Proof.
  unfold strict_serialize_value, strict_write_value. cbn [tv_val tv_id]. intros H.
  apply bind_Ok in H as [b [H1 H2]]. destruct (N.leb_spec (lenN b) max_len); [|discriminate].
  injection H2 as ->. auto.
Qed.

Lemma deserialize_all fuel c sys id bs v :
  read_type fuel c sys id bs = Ok (v, []) -> lenN bs <= u32_max ->
  strict_deserialize_type fuel c sys id bs = Ok (mkTyped id v).
Proof.
  intros H L. unfold strict_deserialize_type, strict_read_type. rewrite limit32_small by assumption.
  rewrite H. cbn. rewrite N.sub_0_r, N.eqb_refl. reflexivity.
Qed.

Lemma deserialize_inv fuel c sys id data tv :
  strict_deserialize_type fuel c sys id data = Ok tv ->
  lenN data <= u32_max /\ tv_id tv = id /\ read_type fuel c sys id data = Ok (tv_val tv, []).
Proof.
  unfold strict_deserialize_type, strict_read_type. intros H.
  apply bind_Ok in H as [[t rest] [H1 H2]]. apply bind_Ok in H1 as [[v rest'] [H1 E]].
  injection E as <- <-. destruct (N.eqb_spec (lenN (limit32 data) - lenN rest') (lenN data)) as [E|]; [|discriminate].
  injection H2 as <-. cbn [tv_id tv_val].
  destruct (local_read_type _ _ _ _ _ _ _ H1) as [bs [E1 _]].
  assert (L : lenN data <= u32_max).
  { unfold limit32 in *. destruct (N.leb_spec (lenN data) u32_max); [assumption|]. exfalso.
    assert (lenN (firstn (N.to_nat u32_max) data) <= u32_max).
    { unfold lenN. pose proof (firstn_le_length (N.to_nat u32_max) data). lia. }
    lia. }
  rewrite limit32_small in * by assumption. split; [assumption|]. split; [reflexivity|].
  destruct rest' as [|x r]; [exact H1|]. exfalso.
  rewrite E1 in E. unfold lenN in E. rewrite app_length in E. cbn [List.length] in E. lia.
Qed.

Section Codec.
Variables (m : mode) (c ce : config) (sys : type_system).
Hypothesis W : wf_sys sys.
Hypothesis D : dbg ce = true -> strict m = true.
Hypothesis NA : arrays m = false.

Lemma rt_serialize id v : has_type m c sys id v ->
  exists bs, (forall max_len, lenN bs <= max_len -> strict_serialize_value max_len ce sys (mkTyped id v) = Ok bs)
    /\ (lenN bs <= u32_max -> returns (fun fuel => strict_deserialize_type fuel c sys id bs) (Ok (mkTyped id v))).
Proof.
  intros T. destruct (round_trip m c ce sys W D NA id v T) as [bs [H R]]. exists bs. split.
  - intros. now apply serialize_ok.
  - intros L. exists (vdepth v). intros fuel F. apply deserialize_all; [|assumption].
    rewrite <- (app_nil_r bs) at 1. now apply R.
Qed.

Lemma rt_prefix_free id v1 v2 b1 b2 x :
  has_type m c sys id v1 -> has_type m c sys id v2 ->
  write_val ce sys v1 id = Ok b1 -> write_val ce sys v2 id = Ok b2 -> b2 = b1 ++ x -> v1 = v2 /\ x = [].
Proof.
  intros T1 T2 H1 H2 ->.
  destruct (round_trip m c ce sys W D NA id v1 T1) as [b [E R1]]. rewrite H1 in E. injection E as <-.
  destruct (round_trip m c ce sys W D NA id v2 T2) as [b [E R2]]. rewrite H2 in E. injection E as <-.
  specialize (R1 (Nat.max (vdepth v1) (vdepth v2)) x ltac:(lia)).
  specialize (R2 (Nat.max (vdepth v1) (vdepth v2)) [] ltac:(lia)).
  rewrite app_nil_r, R1 in R2. now injection R2.
Qed.

Lemma rt_truncated id v a b :
  has_type m c sys id v -> write_val ce sys v id = Ok (a ++ b) -> b <> [] -> lenN (a ++ b) <= u32_max ->
  returns (fun fuel => strict_deserialize_type fuel c sys id a) (Err DEof).
Proof.
  intros T H N L. destruct (round_trip m c ce sys W D NA id v T) as [bs [E R]]. rewrite H in E. injection E as <-.
  exists (vdepth v). intros fuel F. specialize (R fuel [] F).
  destruct (local_read_type _ _ _ _ _ _ _ R) as [bs [E [_ TR]]]. rewrite !app_nil_r in E. subst bs.
  unfold strict_deserialize_type, strict_read_type. rewrite limit32_small.
  - rewrite (TR a b) by auto. reflexivity.
  - unfold lenN in *. rewrite app_length in L. lia.
Qed.

Lemma limit32_app bs x : lenN bs <= u32_max -> exists y, limit32 (bs ++ x) = bs ++ y /\ lenN y <= lenN x.
Proof.
  intros L. unfold limit32. destruct (lenN (bs ++ x) <=? u32_max).
  - exists x. split; [reflexivity|lia].
  - exists (firstn (N.to_nat u32_max - List.length bs) x). rewrite firstn_app, firstn_all2.
    + split; [reflexivity|]. unfold lenN. pose proof (firstn_le_length (N.to_nat u32_max - List.length bs) x).
      rewrite firstn_length. lia.
    + unfold lenN in L. lia.
Qed.

Lemma rt_extended id v bs x :
  has_type m c sys id v -> write_val ce sys v id = Ok bs -> x <> [] -> lenN bs <= u32_max ->
  returns (fun fuel => strict_deserialize_type fuel c sys id (bs ++ x)) (Err DNotEntirelyConsumed).
Proof.
  intros T H N L. destruct (round_trip m c ce sys W D NA id v T) as [b [E R]]. rewrite H in E. injection E as <-.
  destruct (limit32_app bs x L) as [y [E LY]].
  exists (vdepth v). intros fuel F.
  unfold strict_deserialize_type, strict_read_type. rewrite E, R by assumption. cbn.
  destruct (N.eqb_spec (lenN (bs ++ y) - lenN y) (lenN (bs ++ x))) as [Q|]; [|reflexivity]. exfalso.
  unfold lenN in *. rewrite !app_length in Q. destruct x; [now destruct N|]. cbn [List.length] in Q. lia.
Qed.
End Codec.

Lemma reencode c ce sys fuel id data tv max_len : wf_sys sys -> dbg ce = false -> byte_arrays_only sys ->
  strict_deserialize_type fuel c sys id data = Ok tv -> lenN data <= max_len ->
  strict_serialize_value max_len ce sys tv = Ok data.
Proof.
  intros W ND B H L. apply deserialize_inv in H as [_ [I H]].
  destruct (read_sound c ce sys W ND _ _ _ _ _ H) as [bs [E [T R]]]. rewrite app_nil_r in E. subst bs.
  destruct tv as [id' v]. cbn in *. subst id'. apply serialize_ok; [|assumption].
  apply R. eapply has_type_no_arrays; eauto.
Qed.

Lemma decode_typed c sys fuel id data tv : wf_sys sys ->
  strict_deserialize_type fuel c sys id data = Ok tv ->
  tv_id tv = id /\ has_type (mkMode false true) c sys id (tv_val tv).
Proof.
  intros W H. apply deserialize_inv in H as [_ [I H]].
  destruct (read_sound c (mkConfig false 0) sys W eq_refl _ _ _ _ _ H) as [bs [E [T _]]]. auto.
Qed.

(** Debug build: values meeting all restrictions are written back as well. *)
Lemma reencode_debug c ce sys fuel id data tv max_len : wf_sys sys -> byte_arrays_only sys ->
  strict_deserialize_type fuel c sys id data = Ok tv -> has_type (mkMode true true) c sys id (tv_val tv) ->
  lenN data <= max_len ->
  strict_serialize_value max_len ce sys tv = Ok data.
Proof.
  intros W B H T L.
  destruct (dbg ce) eqn:D; [|eapply reencode; eauto].
  pose proof (reencode c (mkConfig false 0) sys fuel id data tv max_len W eq_refl B H L) as R.
  destruct (deserialize_inv _ _ _ _ _ _ H) as [_ [I _]]. destruct tv as [id' v]. cbn in I. subst id'. cbn [tv_val] in *.
  pose proof (has_type_no_arrays _ _ _ _ _ _ B T) as T'.
  destruct (round_trip (mkMode true false) c ce sys W ltac:(auto) eq_refl id v T') as [b1 [E1 R1]].
  apply serialize_inv in R as [R _].
  rewrite (write_release _ (mkConfig false 0) _ _ D _ _ E1) in R. injection R as ->.
  now apply serialize_ok.
Qed.

(** ** Image of deserialization *)

Lemma decode_image c sys id v : wf_sys sys -> byte_arrays_only sys ->
  (exists fuel data, strict_deserialize_type fuel c sys id data = Ok (mkTyped id v)) <->
  (has_type (mkMode false true) c sys id v
   /\ exists bs, write_val (mkConfig false 0) sys v id = Ok bs /\ lenN bs <= u32_max).
Proof.
  intros W B. split.
  - intros [fuel [data H]]. destruct (decode_typed _ _ _ _ _ _ W H) as [_ T]. split; [exact T|].
    destruct (deserialize_inv _ _ _ _ _ _ H) as [L _]. exists data. split; [|exact L].
    apply (serialize_inv _ _ _ _ _ (lenN data)).
    apply (reencode c (mkConfig false 0) sys fuel id data (mkTyped id v) (lenN data)); auto. apply N.le_refl.
  - intros [T [bs [H L]]]. pose proof (has_type_no_arrays _ _ _ _ _ _ B T) as T'.
    destruct (round_trip (mkMode false false) c (mkConfig false 0) sys W ltac:(discriminate) eq_refl id v T')
      as [b [E R]]. rewrite H in E. injection E as <-.
    exists (vdepth v), bs. apply deserialize_all; [|assumption].
    rewrite <- (app_nil_r bs) at 1. now apply R.
Qed.

(** ** Termination *)

Definition ndiv {E A} (o : outcome E A) : Prop := o <> Diverge.

Lemma ndiv_bind {E A B} (o : outcome E A) (f : A -> outcome E B) :
  ndiv o -> (forall a, o = Ok a -> ndiv (f a)) -> ndiv (bind o f).
Proof. unfold ndiv. destruct o; cbn; try discriminate; auto. Qed.

Lemma ndiv_n {A} (rd : bytes -> reading A) n d : (forall d, ndiv (rd d)) -> ndiv (read_n rd n d).
Proof.
  intros H. revert d; induction n; intros d; [discriminate|]. cbn [read_n].
  apply ndiv_bind; [apply H|]. intros [x d'] _. apply ndiv_bind; [apply IHn|]. intros [y d''] _. discriminate.
Qed.

Lemma ndiv_seq {A B} (rd : A -> bytes -> reading B) l d :
  (forall a d, In a l -> ndiv (rd a d)) -> ndiv (read_seq rd l d).
Proof.
  revert d; induction l as [|a l IH]; intros d H; [discriminate|]. cbn [read_seq].
  apply ndiv_bind; [apply H; now left|]. intros [x d'] _.
  apply ndiv_bind; [apply IH; intros; apply H; now right|]. intros [y d''] _. discriminate.
Qed.

Lemma ndiv_uint k d : ndiv (read_uint k d).
Proof. unfold read_uint. destruct (take k d) as [[]|]; cbn; discriminate. Qed.

Lemma ndiv_raw c n d : ndiv (read_raw c n d).
Proof. unfold read_raw, alloc. destruct (cap c <? n); [discriminate|]. cbn. destruct take as [[]|]; discriminate. Qed.

Lemma ndiv_ascii c sz d : ndiv (read_ascii c sz d).
Proof.
  unfold read_ascii. apply ndiv_bind; [apply ndiv_uint|]. intros [n d'] _. apply ndiv_bind; [apply ndiv_raw|].
  intros [b d''] _. destruct ascii_bytes; discriminate.
Qed.
Lemma ndiv_string c sz d : ndiv (read_string c sz d).
Proof.
  unfold read_string. apply ndiv_bind; [apply ndiv_uint|]. intros [n d'] _. apply ndiv_bind; [apply ndiv_raw|].
  intros [b d''] _. destruct utf8_valid; discriminate.
Qed.
Lemma ndiv_blob c sz d : ndiv (read_blob c sz d).
Proof.
  unfold read_blob. apply ndiv_bind; [apply ndiv_uint|]. intros [n d'] _. apply ndiv_bind; [apply ndiv_raw|].
  intros [b d''] _. discriminate.
Qed.
Lemma ndiv_alloc {E} c n : @ndiv E unit (alloc c n).
Proof. unfold alloc. destruct (cap c <? n); discriminate. Qed.
Lemma ndiv_ok_or {E A} (o : option A) (e : E) : ndiv (ok_or o e).
Proof. destruct o; discriminate. Qed.
Lemma ndiv_expect {E A} (o : option A) : @ndiv E A (expect o).
Proof. destruct o; discriminate. Qed.
Lemma ndiv_rsizing c sys fs : ndiv (rstring_sizing c sys fs).
Proof.
  unfold rstring_sizing. apply ndiv_bind; [apply ndiv_expect|]. intros r _. apply ndiv_bind; [apply ndiv_ok_or|].
  intros t _. destruct t; try discriminate. unfold u64_incr.
  destruct (_ =? _), (_ =? _), (dbg c); discriminate.
Qed.
Lemma ndiv_rstring c sys fs : ndiv (is_rstring c sys fs).
Proof.
  unfold is_rstring. destruct (negb _); [discriminate|]. apply ndiv_bind; [apply ndiv_expect|]. intros f _.
  apply ndiv_bind; [apply ndiv_rsizing|]. intros [[r s]|] _; [|discriminate].
  apply ndiv_bind; [apply ndiv_ok_or|]. intros t _. destruct (char_enum t); [|discriminate].
  apply ndiv_bind; [apply ndiv_ok_or|]. discriminate.
Qed.
Lemma ndiv_lift {A} (o : outcome unknown_type A) : ndiv o -> ndiv (lift_unknown o).
Proof. intros H. destruct o as [|[]| |]; cbn; try discriminate. now destruct H. Qed.

Lemma ndiv_prim p d : ndiv (read_prim p d).
Proof.
  unfold read_prim. cbv zeta.
  repeat match goal with |- ndiv (if ?b then _ else _) => destruct b end; try discriminate;
  (apply ndiv_bind; [|intros [] _; discriminate]); try apply ndiv_uint;
  unfold read_int; (apply ndiv_bind; [apply ndiv_uint|intros [] _; discriminate]).
Qed.

Lemma ndiv_ty rec c sys id t d : (forall r d, In r (refs t) -> ndiv (rec r d)) -> ndiv (read_ty rec c sys id t d).
Proof.
  intros H. rewrite short_read. destruct t; cbn [short_ty refs] in *.
  - apply ndiv_prim.
  - discriminate.
  - apply ndiv_bind; [apply ndiv_uint|]. intros [tag d'] _. apply ndiv_bind; [apply ndiv_ok_or|]. discriminate.
  - apply ndiv_bind; [apply ndiv_uint|]. intros [tag d'] _.
    destruct (uv_by_tag vs tag) as [e|] eqn:F; [|discriminate]. cbn [ok_or bind].
    apply find_some in F as [F _].
    apply ndiv_bind; [apply H; now apply in_map|]. intros [v d''] _. discriminate.
  - apply ndiv_bind; [apply ndiv_lift, ndiv_rstring|]. intros [] _.
    + apply ndiv_bind; [apply ndiv_lift, ndiv_rsizing|]. intros o _. apply ndiv_bind; [apply ndiv_expect|].
      intros p _. apply ndiv_ascii.
    + apply ndiv_bind; [apply ndiv_seq; auto|]. intros [] _; discriminate.
  - apply ndiv_bind; [apply ndiv_seq|intros [] _; discriminate].
    intros f d' I. apply ndiv_bind; [apply H; now apply in_map|]. intros [] _; discriminate.
  - destruct (is_byte_id r).
    + apply ndiv_bind; [apply ndiv_raw|intros [] _; discriminate].
    + apply ndiv_bind; [apply ndiv_alloc|intros _ _].
      apply ndiv_bind; [apply ndiv_n; intros; apply H; now left|intros [] _; discriminate].
  - apply ndiv_bind; [apply ndiv_ok_or|]. intros rt _. destruct (char_enum rt); [apply ndiv_ascii|].
    destruct (is_byte_id r && _); [apply ndiv_blob|]. destruct (is_unicode_id r && _); [apply ndiv_string|].
    apply ndiv_bind; [apply ndiv_uint|]. intros [n d'] _. unfold read_list.
    apply ndiv_bind; [|intros [] _; discriminate]. apply ndiv_bind; [apply ndiv_alloc|intros _ _].
    apply ndiv_n; intros; apply H; now left.
  - apply ndiv_bind; [apply ndiv_uint|]. intros [n d'] _. unfold read_list.
    apply ndiv_bind; [|intros [] _; discriminate]. apply ndiv_bind; [apply ndiv_alloc|intros _ _].
    apply ndiv_n; intros; apply H; now left.
  - apply ndiv_bind; [apply ndiv_uint|]. intros [n d'] _. unfold read_map.
    apply ndiv_bind; [|intros [] _; discriminate]. apply ndiv_bind; [apply ndiv_alloc|intros _ _].
    apply ndiv_n; intros. apply ndiv_bind; [apply H; now left|]. intros [kv d''] _.
    apply ndiv_bind; [apply H; right; now left|]. intros [] _; discriminate.
Qed.

Lemma read_terminates c sys rank id d fuel : ranked sys rank -> (rank id < fuel)%nat -> ndiv (read_type fuel c sys id d).
Proof.
  intros R. revert id d; induction fuel; intros id d L; [lia|]. cbn [read_type].
  destruct (sys_find sys id) as [t|] eqn:F; [|discriminate]. cbn [ok_or bind].
  apply ndiv_ty. intros r d' I. apply IHfuel. specialize (R _ _ _ F I). lia.
Qed.

Lemma deserialize_terminates c sys id data : acyclic sys ->
  exists r, r <> Diverge /\ returns (fun fuel => strict_deserialize_type fuel c sys id data) r.
Proof.
  intros [rank R]. exists (strict_deserialize_type (S (rank id)) c sys id data). split.
  - unfold strict_deserialize_type, strict_read_type.
    apply ndiv_bind; [|intros [tv rest] _; destruct (_ =? _); discriminate].
    apply ndiv_bind; [|intros [] _; discriminate]. eapply read_terminates; eauto.
  - exists (S (rank id)). intros fuel L. unfold strict_deserialize_type, strict_read_type.
    rewrite (read_type_mono (S (rank id)) fuel); auto. eapply read_terminates; eauto.
Qed.

(** ** Absence of panics *)

Definition npan {E A} (o : outcome E A) : Prop := o <> Panic.

Lemma npan_bind {E A B} (o : outcome E A) (f : A -> outcome E B) :
  npan o -> (forall a, o = Ok a -> npan (f a)) -> npan (bind o f).
Proof. unfold npan. destruct o; cbn; try discriminate; auto. Qed.

Lemma npan_n {A} (rd : bytes -> reading A) n d : (forall d, npan (rd d)) -> npan (read_n rd n d).
Proof.
  intros H. revert d; induction n; intros d; [discriminate|]. cbn [read_n].
  apply npan_bind; [apply H|]. intros [x d'] _. apply npan_bind; [apply IHn|]. intros [y d''] _. discriminate.
Qed.

Lemma npan_seq {A B} (rd : A -> bytes -> reading B) l d :
  (forall a d, In a l -> npan (rd a d)) -> npan (read_seq rd l d).
Proof.
  revert d; induction l as [|a l IH]; intros d H; [discriminate|]. cbn [read_seq].
  apply npan_bind; [apply H; now left|]. intros [x d'] _.
  apply npan_bind; [apply IH; intros; apply H; now right|]. intros [y d''] _. discriminate.
Qed.

Lemma npan_uint k d : npan (read_uint k d).
Proof. unfold read_uint. destruct (take k d) as [[]|]; cbn; discriminate. Qed.

Lemma npan_raw c n d : n <= cap c -> npan (read_raw c n d).
Proof.
  intros H. unfold read_raw, alloc. destruct (N.ltb_spec (cap c) n); [lia|]. cbn. destruct take as [[]|]; discriminate.
Qed.

Lemma npan_alloc {E} c n : n <= cap c -> @npan E unit (alloc c n).
Proof. intros H. unfold alloc. destruct (N.ltb_spec (cap c) n); [lia|discriminate]. Qed.

Lemma npan_ok_or {E A} (o : option A) (e : E) : npan (ok_or o e).
Proof. destruct o; discriminate. Qed.

Lemma len_fits c sz d n rest : 2 ^ (8 * len_width (s_max sz)) <= cap c + 1 ->
  read_len sz d = Ok (n, rest) -> n <= cap c.
Proof. intros H R. apply read_len_inv in R as [_ R]. lia. Qed.

Lemma len_width_mono a b : a <= b -> len_width a <= len_width b.
Proof.
  intros L. unfold len_width.
  repeat match goal with |- context [?x <? ?y] => destruct (N.ltb_spec x y) end; lia.
Qed.

Lemma pow_width a b n : a <= b -> 2 ^ (8 * len_width b) <= n -> 2 ^ (8 * len_width a) <= n.
Proof.
  intros L H. apply len_width_mono in L. etransitivity; [|exact H]. apply N.pow_le_mono_r; lia.
Qed.

Lemma npan_ascii c sz d : 2 ^ (8 * len_width (s_max sz)) <= cap c + 1 -> npan (read_ascii c sz d).
Proof.
  intros H. unfold read_ascii. apply npan_bind; [apply npan_uint|]. intros [n d'] L.
  apply npan_bind; [apply npan_raw; eapply len_fits; eauto|]. intros [b d''] _. destruct ascii_bytes; discriminate.
Qed.
Lemma npan_string c sz d : 2 ^ (8 * len_width (s_max sz)) <= cap c + 1 -> npan (read_string c sz d).
Proof.
  intros H. unfold read_string. apply npan_bind; [apply npan_uint|]. intros [n d'] L.
  apply npan_bind; [apply npan_raw; eapply len_fits; eauto|]. intros [b d''] _. destruct utf8_valid; discriminate.
Qed.
Lemma npan_blob c sz d : 2 ^ (8 * len_width (s_max sz)) <= cap c + 1 -> npan (read_blob c sz d).
Proof.
  intros H. unfold read_blob. apply npan_bind; [apply npan_uint|]. intros [n d'] L.
  apply npan_bind; [apply npan_raw; eapply len_fits; eauto|]. intros [b d''] _. discriminate.
Qed.

Lemma npan_prim p d : npan (read_prim p d).
Proof.
  unfold read_prim. cbv zeta.
  repeat match goal with |- npan (if ?b then _ else _) => destruct b end; try discriminate;
  (apply npan_bind; [|intros [] _; discriminate]); try apply npan_uint;
  unfold read_int; (apply npan_bind; [apply npan_uint|intros [] _; discriminate]).
Qed.

Section NoPanic.
Variables (c : config) (sys : type_system).
Hypothesis W : wf_sys sys.
Hypothesis U : unicode_in_text_only sys.
Hypothesis M : memory_suffices c sys.

Lemma rsizing_ok id fs o : sys_find sys id = Some (TTuple fs) -> rstring_sizing c sys fs = o -> List.length fs = 2%nat ->
  npan o /\ forall r sz, o = Ok (Some (r, sz)) -> 2 ^ (8 * len_width (s_max sz)) <= cap c + 1.
Proof.
  intros F <- L. destruct fs as [|f [|g [|]]]; try discriminate. unfold rstring_sizing. cbn [nth_error expect bind].
  destruct (sys_find sys g) as [t|] eqn:G; [|split; discriminate]. cbn [ok_or bind].
  destruct t; try (split; discriminate).
  destruct (wf_rest_rstring _ _ _ _ _ _ W F G) as [L1 L2].
  rewrite !u64_incr_ok by lia. cbn [bind]. split; [discriminate|]. intros r' sz E. injection E as <- <-.
  apply (M _ _ G).
Qed.

Lemma npan_rstring id fs : sys_find sys id = Some (TTuple fs) -> npan (is_rstring c sys fs).
Proof.
  intros F. unfold is_rstring. destruct (N.eqb_spec (lenN fs) 2) as [L|]; [|discriminate]. cbn [negb].
  assert (L' : List.length fs = 2%nat) by (unfold lenN in L; lia).
  destruct (rsizing_ok _ _ _ F eq_refl L') as [P _].
  destruct fs as [|f [|g [|]]]; try discriminate. cbn [nth_error expect bind].
  apply npan_bind; [exact P|]. intros [[r s]|] _; [|discriminate].
  apply npan_bind; [apply npan_ok_or|]. intros t _. destruct (char_enum t); [|discriminate].
  apply npan_bind; [apply npan_ok_or|]. discriminate.
Qed.

Lemma npan_lift {A} (o : outcome unknown_type A) : npan o -> npan (lift_unknown o).
Proof. intros H. destruct o as [|[]| |]; cbn; try discriminate. now destruct H. Qed.

Lemma is_rstring_true_len b fs : is_rstring c sys fs = Ok b -> b = true ->
  List.length fs = 2%nat /\ exists r, rstring_sizing c sys fs = Ok (Some r).
Proof.
  intros H ->. unfold is_rstring in H. destruct (N.eqb_spec (lenN fs) 2) as [L|]; [|discriminate]. cbn [negb] in H.
  split; [unfold lenN in L; lia|]. apply bind_Ok in H as [f [_ H]]. apply bind_Ok in H as [o [H1 H2]].
  destruct o as [p|]; [|discriminate]. eauto.
Qed.

Lemma npan_ty rec id t d : sys_find sys id = Some t -> t <> TUnicode ->
  (forall r d, In r (refs t) -> sys_find sys r <> Some TUnicode -> npan (rec r d)) -> npan (read_ty rec c sys id t d).
Proof.
  intros F NU H. pose proof (M _ _ F) as MM. pose proof (fun r => U _ _ r F) as UU.
  rewrite short_read. destruct t; cbn [short_ty refs] in *.
  - apply npan_prim.
  - now destruct NU.
  - apply npan_bind; [apply npan_uint|]. intros [tag d'] _. apply npan_bind; [apply npan_ok_or|]. discriminate.
  - apply npan_bind; [apply npan_uint|]. intros [tag d'] _.
    destruct (uv_by_tag vs tag) as [e|] eqn:G; [|discriminate]. cbn [ok_or bind].
    apply find_some in G as [G _]. apply npan_bind; [|intros [v d''] _; discriminate].
    apply H; [now apply in_map|]. intros Q. destruct (UU (snd e)) as [_ [s [E _]]]; [now apply in_map|assumption|discriminate].
  - apply npan_bind; [eapply npan_lift, npan_rstring; eauto|]. intros [] R.
    + destruct (is_rstring c sys fs) as [b|[]| |] eqn:RS; try discriminate. injection R as ->.
      destruct (is_rstring_true_len _ _ RS eq_refl) as [L [[r sz] E]].
      destruct (rsizing_ok _ _ _ F E L) as [_ S]. rewrite E. cbn [lift_unknown bind expect snd].
      apply npan_ascii. now apply (S r).
    + apply npan_bind; [|intros [] _; discriminate]. apply npan_seq. intros r d' I. apply H; [assumption|].
      intros Q. destruct (UU r) as [_ [s [E _]]]; [assumption|assumption|discriminate].
  - apply npan_bind; [apply npan_seq|intros [] _; discriminate].
    intros f d' I. apply npan_bind; [|intros [] _; discriminate]. apply H; [now apply in_map|].
    intros Q. destruct (UU (snd f)) as [_ [s [E _]]]; [now apply in_map|assumption|discriminate].
  - destruct (is_byte_id r).
    + apply npan_bind; [now apply npan_raw|intros [] _; discriminate].
    + apply npan_bind; [now apply npan_alloc|intros _ _].
      apply npan_bind; [apply npan_n; intros; apply H; [now left|]|intros [] _; discriminate].
      intros Q. destruct (UU r) as [_ [s [E _]]]; [now left|assumption|discriminate].
  - assert (MS : 2 ^ (8 * len_width (s_max s)) <= cap c + 1) by (eapply pow_width; [|exact MM]; lia).
    apply npan_bind; [apply npan_ok_or|]. intros rt G. destruct (char_enum rt); [now apply npan_ascii|].
    destruct (is_byte_id r && (s_max s <=? u32_max)); [now apply npan_blob|].
    destruct (is_unicode_id r && (s_max s <=? u32_max)) eqn:T; [now apply npan_string|].
    apply npan_bind; [apply npan_uint|]. intros [n d'] L. unfold read_list.
    apply npan_bind; [|intros [] _; discriminate].
    apply npan_bind; [apply npan_alloc; eapply len_fits; eauto|intros _ _].
    apply npan_n; intros; apply H; [now left|].
    intros Q. destruct (UU r) as [E' [s' [E L']]]; [now left|assumption|].
    injection E as <-. apply unicode_item_iff in E'. rewrite E' in T.
    apply N.leb_gt in T. unfold u32_max in T. change (2 ^ 32) with 4294967296 in L'. lia.
  - assert (MS : 2 ^ (8 * len_width (s_max s)) <= cap c + 1) by (eapply pow_width; [|exact MM]; lia).
    apply npan_bind; [apply npan_uint|]. intros [n d'] L. unfold read_list.
    apply npan_bind; [|intros [] _; discriminate].
    apply npan_bind; [apply npan_alloc; eapply len_fits; eauto|intros _ _].
    apply npan_n; intros; apply H; [now left|].
    intros Q. destruct (UU r) as [_ [s' [E _]]]; [now left|assumption|discriminate].
  - assert (MS : 2 ^ (8 * len_width (s_max s)) <= cap c + 1) by (eapply pow_width; [|exact MM]; lia).
    apply npan_bind; [apply npan_uint|]. intros [n d'] L. unfold read_map.
    apply npan_bind; [|intros [] _; discriminate].
    apply npan_bind; [apply npan_alloc; eapply len_fits; eauto|intros _ _].
    apply npan_n; intros. apply npan_bind.
    + apply H; [now left|]. intros Q. destruct (UU k) as [_ [s' [E _]]]; [now left|assumption|discriminate].
    + intros [kv d''] _. apply npan_bind; [|intros [] _; discriminate].
      apply H; [right; now left|]. intros Q.
      destruct (UU r) as [_ [s' [E _]]]; [right; now left|assumption|discriminate].
Qed.

Lemma read_no_panic fuel id d : sys_find sys id <> Some TUnicode -> npan (read_type fuel c sys id d).
Proof.
  revert id d; induction fuel; intros id d NU; [discriminate|]. cbn [read_type].
  destruct (sys_find sys id) as [t|] eqn:F; [|discriminate]. cbn [ok_or bind].
  apply npan_ty; auto. congruence.
Qed.

Lemma deserialize_no_panic fuel id data : sys_find sys id <> Some TUnicode ->
  strict_deserialize_type fuel c sys id data <> Panic.
Proof.
  intros NU. unfold strict_deserialize_type, strict_read_type.
  apply npan_bind; [|intros [tv rest] _; destruct (_ =? _); discriminate].
  apply npan_bind; [|intros [] _; discriminate]. now apply read_no_panic.
Qed.
End NoPanic.

(** ** Tags *)

Lemma tag_byte b d : read_uint 1 (b :: d) = Ok (Byte.to_N b, d).
Proof. unfold read_uint. cbn [take ok_or bind unle]. rewrite N.mul_0_r, N.add_0_r. reflexivity. Qed.

Lemma enum_unknown fuel c sys id vs b d : sys_find sys id = Some (TEnum vs) -> ~ In (Byte.to_N b) (map v_tag vs) ->
  strict_read_type (S fuel) c sys id (b :: d) = Err (DTagNotKnown id (Byte.to_N b)).
Proof.
  intros F N. unfold strict_read_type. cbn [read_type]. rewrite F. cbn [ok_or bind read_ty]. rewrite tag_byte.
  cbn [bind]. unfold ev_name_by_tag, ev_by_tag. destruct (find _ vs) as [v|] eqn:G; [|reflexivity].
  apply find_some in G as [G E]. apply N.eqb_eq in E. exfalso. apply N. rewrite <- E. now apply in_map.
Qed.

Lemma union_unknown fuel c sys id vs b d : sys_find sys id = Some (TUnion vs) ->
  ~ In (Byte.to_N b) (map (fun e => v_tag (fst e)) vs) ->
  strict_read_type (S fuel) c sys id (b :: d) = Err (DTagNotKnown id (Byte.to_N b)).
Proof.
  intros F N. unfold strict_read_type. cbn [read_type]. rewrite F. cbn [ok_or bind read_ty]. rewrite tag_byte.
  cbn [bind]. unfold uv_by_tag. destruct (find _ vs) as [v|] eqn:G; [|reflexivity].
  apply find_some in G as [G E]. apply N.eqb_eq in E. exfalso. apply N. rewrite <- E.
  now apply (in_map (fun e => v_tag (fst e))).
Qed.

Lemma enum_known fuel c sys id vs v b d : wf_sys sys -> sys_find sys id = Some (TEnum vs) -> In v vs -> v_tag v = Byte.to_N b ->
  strict_read_type (S fuel) c sys id (b :: d) = Ok (mkTyped id (VEnum (Name (v_name v))), d).
Proof.
  intros W F I E. unfold strict_read_type. cbn [read_type]. rewrite F. cbn [ok_or bind read_ty]. rewrite tag_byte.
  cbn [bind]. destruct (wf_types _ W _ _ F) as [_ [ND _]]. unfold ev_name_by_tag.
  rewrite <- E, ev_by_tag_In by assumption. reflexivity.
Qed.

Lemma union_known fuel c sys id vs v r b d w rest : wf_sys sys -> sys_find sys id = Some (TUnion vs) -> In (v, r) vs -> v_tag v = Byte.to_N b ->
  strict_read_type fuel c sys r d = Ok (w, rest) ->
  strict_read_type (S fuel) c sys id (b :: d) = Ok (mkTyped id (VUnion (Name (v_name v)) (tv_val w)), rest).
Proof.
  intros W F I E R. unfold strict_read_type in *. cbn [read_type]. rewrite F. cbn [ok_or bind read_ty]. rewrite tag_byte.
  cbn [bind]. destruct (wf_types _ W _ _ F) as [_ [ND _]].
  change (v_tag v) with (v_tag (fst (v, r))) in E. rewrite <- E, uv_by_tag_In by assumption. cbn [ok_or bind snd fst].
  apply bind_Ok in R as [[x d'] [R1 R2]]. rewrite R1. injection R2 as <- <-. reflexivity.
Qed.
