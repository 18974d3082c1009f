(** Encoding and decoding of types, libraries and type systems are inverse to each other: types,
    references, libraries, type systems. *)
From Coq Require Import NArith List Bool String Strings.Byte Sorted Lia.
From Verif Require Import Base Sha256 Ty Ids TypeSys Typify LibCodec SpecIds SpecLib LibCodecProofs BTreeProofs.
Import ListNotations.
Local Open Scope N_scope.

Ltac rt H := rewrite (proj1 H) by (first [assumption | tauto | cbv beta; tauto]); cbn [obind].

(** ** Types *)

Lemma codec_ty {R} (ok ok' : R -> Prop) er dr : codec2 ok ok' er dr -> codec2 (ty_with distinct ok) (ty_with few_distinct ok') (enc_ty er) (dec_ty dr).
Proof.
  intros C. pose proof (codec_union ok ok' er dr C) as CU. pose proof codec_variants as CV.
  assert (CL : codec2 (fun l => sized 1 255 l /\ Forall ok l) (fun l => sized 1 255 l /\ Forall ok' l) (enc_list 1 er) (dec_list 1 1 u8_max dr)) by (apply codec_list; [exact C|now vm_compute]).
  assert (CF : codec2 (fun l => sized 1 255 l /\ Forall (fun e => field_name (fst e) /\ ok (snd e)) l)
                (fun l => sized 1 255 l /\ Forall (fun e => field_name (fst e) /\ ok' (snd e)) l)
                (enc_list 1 (enc_entry enc_name er)) (dec_list 1 1 u8_max (dec_entry (dec_name Typify.name_ok) dr)))
    by (apply codec_list; [apply codec_entry; [apply codec_field_name|exact C]|now vm_compute]).
  pose proof codec_sizing as CS. pose proof codec_u8 as C8. pose proof (codec_uint 2) as C16.
  unfold dec_ty. split.
  - intros t r W. destruct t; cbn [enc_ty app] in *; rewrite dec_tag by lia; cbn [obind]; cbn -[enc_uint dec_uint dec_list dec_variants dec_union enc_union enc_list enc_set enc_sizing dec_sizing];
      cbn [ty_with] in W; rewrite <- ?app_assoc.
    + rt C8. reflexivity.
    + reflexivity.
    + rt CV. reflexivity.
    + rt CU. reflexivity.
    + rt CL. reflexivity.
    + destruct W as (W1 & W2 & W3). rewrite Forall_map in W2, W3. rewrite (proj1 CF); [reflexivity|]. split; [exact W1|]. now apply Forall_and.
    + rt C. rt C16. reflexivity.
    + rt C. rt CS. reflexivity.
    + rt C. rt CS. reflexivity.
    + rt C. rt C. rt CS. reflexivity.
  - intros b t r E. step. apply dec_tag_inv in D as ->.
    repeat match type of E with (if ?n =? ?c then _ else _) = _ => destruct (N.eqb_spec n c) as [->|_] end; try discriminate; repeat step;
      injection E as <- <-; cbn [enc_ty ty_with].
    + use C8. split; [assumption|]. lens.
    + auto.
    + use CV. split; [assumption|]. lens.
    + use CU. split; [assumption|]. lens.
    + use CL. split; [assumption|]. lens.
    + use CF. rewrite !Forall_map. destruct H as [H1 H2]. apply Forall_and_inv in H2. split; [tauto|]. lens.
    + use C. use C16. split; [auto|]. lens.
    + use C. use CS. split; [auto|]. lens.
    + use C. use CS. split; [auto|]. lens.
    + apply (proj2 C) in D. apply (proj2 C) in D0. destruct D, D0. use CS. split; [auto|]. lens.
Qed.

(** ** References *)

Lemma codec_extern : codec (fun e => id_ok (er_lib e) /\ id_ok (er_id e)) enc_extern dec_extern.
Proof.
  unfold enc_extern, dec_extern. pose proof codec_id as C. split.
  - intros [l i] r [A B]. cbn [er_lib er_id] in *. rewrite <- app_assoc. rt C. rt C. reflexivity.
  - intros b e r E. repeat step. injection E as <- <-. use C. use C. split; [auto|]. cbn [er_lib er_id]. lens.
Qed.

Lemma codec_ref2 : codec ref2_wf enc_ref2 dec_ref2.
Proof.
  unfold dec_ref2, ref2_wf. pose proof codec_id as C. pose proof codec_extern as CE. split.
  - intros t r W. destruct t as [[]|id|e]; cbn [enc_ref2 app gref_wf] in *; rewrite dec_tag by lia; cbn [obind].
    + change (0 =? 0) with true. cbn iota. rt C. reflexivity.
    + change (1 =? 0) with false. change (1 =? 1) with true. cbn iota. rt CE. reflexivity.
  - intros b t r E. step. apply dec_tag_inv in D as ->.
    repeat match type of E with (if ?n =? ?c then _ else _) = _ => destruct (N.eqb_spec n c) as [->|_] end; try discriminate; repeat step;
      injection E as <- <-; cbn [enc_ref2 gref_wf].
    + use C. split; [assumption|]. lens.
    + use CE. split; [assumption|]. lens.
Qed.

Lemma codec_gref {I} (ok ok' : I -> Prop) ei di : codec2 ok ok' ei di -> codec2 (gref_wf ok) (gref_wf ok') (enc_gref ei) (dec_gref di).
Proof.
  intros CI. unfold dec_gref. pose proof codec_id as C. pose proof codec_extern as CE. split.
  - intros t r W. destruct t as [t|id|e]; cbn [enc_gref app gref_wf] in *; rewrite dec_tag by lia; cbn [obind].
    + change (0 =? 0) with true. cbn iota. rt CI. reflexivity.
    + change (1 =? 0) with false. change (1 =? 1) with true. cbn iota. rt C. reflexivity.
    + change (2 =? 0) with false. change (2 =? 1) with false. change (2 =? 2) with true. cbn iota. rt CE. reflexivity.
  - intros b t r E. step. apply dec_tag_inv in D as ->.
    repeat match type of E with (if ?n =? ?c then _ else _) = _ => destruct (N.eqb_spec n c) as [->|_] end; try discriminate; repeat step;
      injection E as <- <-; cbn [enc_gref gref_wf].
    + use CI. split; [assumption|]. lens.
    + use C. split; [assumption|]. lens.
    + use CE. split; [assumption|]. lens.
Qed.

Lemma codec_libref : codec2 (libref_with distinct) (libref_with few_distinct) enc_libref dec_libref.
Proof. apply codec_gref, codec_ty, codec_gref, codec_ty, codec_gref, codec_ty, codec_ref2. Qed.

Lemma codec_symref : codec symref_wf enc_symref dec_symref.
Proof.
  unfold enc_symref, dec_symref, symref_wf. pose proof codec_id as C. pose proof codec_type_name as CN. split.
  - intros [l n li i] r (A & B & A' & B'). cbn [sr_lib sr_name sr_libid sr_id] in *. rewrite <- !app_assoc. rt CN. rt CN. rt C. rt C. reflexivity.
  - intros b e r E. repeat step. injection E as <- <-. use CN. use CN. use C. use C. split; [auto|]. cbn [sr_lib sr_name sr_libid sr_id]. lens.
Qed.

Lemma codec_tref n : codec2 (tref_with distinct n) (tref_with few_distinct n) enc_tref (dec_tref n).
Proof.
  pose proof codec_symref as CS. pose proof codec_type_name as CN. induction n as [|n IH].
  - split; [intros a r []|]. intros b a r E. discriminate.
  - apply codec_ty in IH. cbn [dec_tref]. split.
    + intros t r W. destruct t as [t|s|e]; cbn [enc_tref app tref_with] in *; rewrite dec_tag by lia; cbn [obind].
      * change (0 =? 0) with true. cbn iota. rt IH. reflexivity.
      * change (1 =? 0) with false. change (1 =? 1) with true. cbn iota. rt CN. reflexivity.
      * change (2 =? 0) with false. change (2 =? 1) with false. change (2 =? 2) with true. cbn iota. rt CS. reflexivity.
    + intros b t r E. step. apply dec_tag_inv in D as ->.
      repeat match type of E with (if ?n =? ?c then _ else _) = _ => destruct (N.eqb_spec n c) as [->|_] end; try discriminate; repeat step;
        injection E as <- <-; cbn [enc_tref tref_with].
      * use IH. split; [assumption|]. lens.
      * use CN. split; [assumption|]. lens.
      * use CS. split; [assumption|]. lens.
Qed.

(** ** Libraries *)

Lemma codec_dep : codec (fun d => id_ok (d_id d) /\ type_name (d_name d)) enc_dep dec_dep.
Proof.
  unfold enc_dep, dec_dep. pose proof codec_id as C. pose proof codec_type_name as CN. split.
  - intros [l i] r [A B]. cbn [d_id d_name] in *. rewrite <- app_assoc. rt C. rt CN. reflexivity.
  - intros b e r E. repeat step. injection E as <- <-. use C. use CN. split; [auto|]. cbn [d_id d_name]. lens.
Qed.

Lemma enc_dep_nonempty : nonempty enc_dep.
Proof. intros a. unfold enc_dep. rewrite app_length. pose proof (enc_id_nonempty (d_id a)). lia. Qed.

Lemma codec_deps k max : max < 2 ^ (8 * N.of_nat k) -> codec (deps_wf max) (enc_set k enc_dep) (dec_set k 0 max dep_cmp dec_dep).
Proof.
  intros M. eapply codec_weaken; [apply codec_set; [apply codec_dep|apply enc_dep_nonempty|apply lax_dep|exact M]| |];
    (intros l; unfold deps_wf, increasing; rewrite (sorted_iff (fun a b => dep_cmp b a = Gt) (fun a b => d_id a < d_id b)); [tauto|];
     intros a b; unfold dep_cmp; apply N.compare_gt_iff).
Qed.

Lemma codec_extern_types : codec extern_wf enc_extern_types dec_extern_types.
Proof.
  eapply codec_weaken; [apply codec_map; [apply codec_type_name| |apply enc_name_nonempty|apply lax_string|now vm_compute]| |].
  - apply codec_map; [apply codec_id|apply codec_type_name|apply enc_id_nonempty|apply lax_N|now vm_compute].
  - intros l. unfold extern_wf. rewrite ascends_string. change u8_max with 255. change u16_max with 65535.
    split; intros (A & B & F); (split; [exact A|]); (split; [exact B|]); (eapply Forall_impl; [|exact F]); intros e (E1 & E2 & E3 & E4);
      apply ascends_N in E3; auto.
  - intros l. unfold extern_wf. rewrite ascends_string. change u8_max with 255. change u16_max with 65535.
    split; intros (A & B & F); (split; [exact A|]); (split; [exact B|]); (eapply Forall_impl; [|exact F]); intros e (E1 & E2 & E3 & E4);
      apply ascends_N in E3; auto.
Qed.

Lemma codec_types {R} (ok ok' : R -> Prop) k max er dr : codec2 ok ok' er dr -> max < 2 ^ (8 * N.of_nat k) ->
  codec2 (types_with distinct max ok) (types_with few_distinct max ok') (enc_map k enc_name (enc_ty er)) (dec_map k 1 max String.compare (dec_name tname_ok) (dec_ty dr)).
Proof.
  intros C M. eapply codec_weaken; [apply codec_map; [apply codec_type_name|apply codec_ty, C|apply enc_name_nonempty|apply lax_string|exact M]| |];
    intros l; unfold types_with; rewrite ascends_string; tauto.
Qed.

Lemma codec_lib : codec2 (lib_with distinct) (lib_with few_distinct) enc_lib dec_lib.
Proof.
  pose proof codec_type_name as CN. pose proof (codec_deps 1 255 ltac:(now vm_compute)) as CD. pose proof codec_extern_types as CE.
  pose proof (codec_types (libref_with distinct) (libref_with few_distinct) 2 u16_max _ _ codec_libref ltac:(now vm_compute)) as CT.
  unfold enc_lib, dec_lib, lib_with. change u8_max with 255. change (2 ^ 16 - 1) with u16_max. split.
  - intros [n d e t] r (A & B & A' & B'). cbn [l_name l_deps l_extern l_types] in *. rewrite <- !app_assoc. rt CN. rt CD. rt CE. rt CT. reflexivity.
  - intros b l r E. repeat step. injection E as <- <-. use CN. use CD. use CE. use CT. split; [auto|]. cbn [l_name l_deps l_extern l_types]. lens.
Qed.

Lemma codec_symlib n : codec2 (symlib_with distinct n) (symlib_with few_distinct n) enc_symlib (dec_symlib n).
Proof.
  pose proof codec_type_name as CN. pose proof (codec_deps 1 255 ltac:(now vm_compute)) as CD. pose proof codec_extern_types as CE.
  pose proof (codec_types (tref_with distinct n) (tref_with few_distinct n) 8 u64_max _ _ (codec_tref n) ltac:(now vm_compute)) as CT.
  unfold enc_symlib, dec_symlib, symlib_with. change u8_max with 255. change (2 ^ 64 - 1) with u64_max. split.
  - intros [m d e t] r (A & B & A' & B'). cbn [y_name y_deps y_extern y_types] in *. rewrite <- !app_assoc. rt CN. rt CD. rt CE. rt CT. reflexivity.
  - intros b l r E. repeat step. injection E as <- <-. use CN. use CD. use CE. use CT. split; [auto|]. cbn [y_name y_deps y_extern y_types]. lens.
Qed.

(** ** Type systems *)

Lemma codec_sys : codec2 (system_with distinct) (system_with few_distinct) enc_sys dec_sys.
Proof.
  eapply codec_weaken; [apply codec_map; [apply codec_id|apply codec_ty, codec_id|apply enc_id_nonempty|apply lax_N|now vm_compute]| |];
    intros l; unfold system_with; rewrite ascends_N; change (2 ^ 24 - 1) with u24_max; tauto.
Qed.

Lemma codec_fqn : codec (fun q => type_name (q_lib q) /\ type_name (q_name q)) enc_fqn dec_fqn.
Proof.
  unfold enc_fqn, dec_fqn. pose proof codec_type_name as CN. split.
  - intros [l i] r [A B]. cbn [q_lib q_name] in *. rewrite <- app_assoc. rt CN. rt CN. reflexivity.
  - intros b e r E. repeat step. injection E as <- <-. use CN. use CN. split; [auto|]. cbn [q_lib q_name]. lens.
Qed.

Definition symbol_wf (s : type_symbol) : Prop :=
  id_ok (ts_id s) /\ match ts_fqn s with Some q => type_name (q_lib q) /\ type_name (q_name q) | None => True end.

Lemma codec_symbol : codec symbol_wf enc_symbol dec_symbol.
Proof.
  unfold enc_symbol, dec_symbol, symbol_wf. pose proof codec_id as C. pose proof (codec_option _ _ _ codec_fqn) as CQ. split.
  - intros [i q] r [A B]. cbn [ts_id ts_fqn] in *. rewrite <- app_assoc. rt C. rt CQ. reflexivity.
  - intros b e r E. repeat step. injection E as <- <-. use C. use CQ. split; [auto|]. cbn [ts_id ts_fqn]. lens.
Qed.

Lemma string_cmp_refl s : String.compare s s = Eq.
Proof. induction s as [|c s IH]; cbn; [reflexivity|]. unfold Ascii.compare. now rewrite N.compare_refl. Qed.

Lemma fqn_cmp_gt a b : fqn_cmp b a = Gt <-> fqn_lt a b.
Proof.
  destruct a as [l n], b as [l' n']. unfold fqn_cmp, fqn_lt, name_lt. cbn [q_lib q_name].
  destruct (String.compare l' l) eqn:E; rewrite (String.compare_antisym l), E; cbn [CompOpp].
  - apply String.compare_eq_iff in E. rewrite string_gt_lt. split; [auto|]. intros [H|[_ H]]; [discriminate|auto].
  - split; [discriminate|]. intros [H|[H _]]; [discriminate|]. subst. rewrite string_cmp_refl in E. discriminate.
  - split; auto.
Qed.

Lemma fqn_lt_trans a b c : fqn_lt a b -> fqn_lt b c -> fqn_lt a c.
Proof.
  unfold fqn_lt, name_lt. intros [H|[H1 H2]] [K|[K1 K2]].
  - left. eapply string_lt_trans; eassumption.
  - left. now rewrite <- K1.
  - left. now rewrite H1.
  - right. split; [congruence|]. eapply string_lt_trans; eassumption.
Qed.

Lemma symbol_cmp_gt a b : symbol_cmp b a = Gt <-> symbol_lt a b.
Proof.
  destruct a as [i q], b as [i' q']. unfold symbol_cmp, symbol_lt. cbn [ts_id ts_fqn]. unfold semid in *.
  destruct (N.compare_spec i' i) as [E|E|E].
  - subst. destruct q, q'; rewrite ?fqn_cmp_gt; split; try discriminate; try tauto; intros [H|[_ H]]; try lia; try tauto.
  - split; [discriminate|]. intros [H|[H _]]; lia.
  - split; auto.
Qed.

Lemma symbol_lt_trans a b c : symbol_lt a b -> symbol_lt b c -> symbol_lt a c.
Proof.
  unfold symbol_lt, semid in *. intros [H|[H1 H2]] [K|[K1 K2]].
  - left. unfold semid in *. lia.
  - left. unfold semid in *. lia.
  - left. unfold semid in *. lia.
  - right. split; [congruence|]. destruct (ts_fqn a), (ts_fqn b), (ts_fqn c); try tauto. eapply fqn_lt_trans; eassumption.
Qed.

Lemma fqn_lt_irrefl a : ~ fqn_lt a a.
Proof.
  unfold fqn_lt, name_lt. intros [H|[_ H]]; rewrite string_cmp_refl in H; discriminate.
Qed.

Lemma symbol_lt_irrefl a : ~ symbol_lt a a.
Proof. unfold symbol_lt. unfold semid in *. intros [H|[_ H]]; [unfold semid in *; lia|]. destruct (ts_fqn a); [now apply fqn_lt_irrefl in H|assumption]. Qed.

Lemma fqn_cmp_lt a b : fqn_cmp b a = Lt -> fqn_lt b a.
Proof.
  destruct a as [l n], b as [l' n']. unfold fqn_cmp, fqn_lt, name_lt. cbn [q_lib q_name].
  destruct (String.compare l' l) eqn:E; [|auto|discriminate]. apply String.compare_eq_iff in E. auto.
Qed.
Lemma symbol_cmp_lt a b : symbol_cmp b a = Lt -> symbol_lt b a.
Proof.
  destruct a as [i q], b as [i' q']. unfold symbol_cmp, symbol_lt. cbn [ts_id ts_fqn]. unfold semid in *.
  destruct (N.compare_spec i' i) as [E|E|E]; [|auto|discriminate]. subst. destruct q, q'; try discriminate; auto.
  intros H. right. split; auto. now apply fqn_cmp_lt.
Qed.

Lemma lax_symbol : lax symbol_cmp.
Proof.
  intros a b c. rewrite !symbol_cmp_gt. intros X Y Z. apply symbol_cmp_lt in Z.
  apply (symbol_lt_irrefl a). eapply symbol_lt_trans; [exact X|]. eapply symbol_lt_trans; eassumption.
Qed.

Lemma codec_symbols : codec symbols_wf enc_symbols dec_symbols.
Proof.
  pose proof (codec_deps 2 u16_max ltac:(now vm_compute)) as CD.
  assert (CS : codec (fun l => sized 0 u24_max l /\ StronglySorted (fun a b => symbol_cmp b a = Gt) l /\ Forall symbol_wf l)
                 (enc_set 3 enc_symbol) (dec_set 3 0 u24_max symbol_cmp dec_symbol)).
  { apply codec_set; [apply codec_symbol| |apply lax_symbol|now vm_compute].
    intros a. unfold enc_symbol. rewrite app_length. pose proof (enc_id_nonempty (ts_id a)). lia. }
  unfold enc_symbols, dec_symbols, symbols_wf. change (2 ^ 16 - 1) with u16_max. change (2 ^ 24 - 1) with u24_max. unfold increasing. split.
  - intros [l s] r (A & B & A' & B'). cbn [sy_libs sy_symbols] in *. rewrite <- app_assoc. rt CD.
    rewrite (proj1 CS); [reflexivity|]. split; [exact B|]. split; [|exact B']. rewrite (sorted_iff _ symbol_lt); [exact A'|]. intros. apply symbol_cmp_gt.
  - intros b e r E. repeat step. injection E as <- <-. use CD. use CS. destruct H1 as (H1 & H3 & H4).
    rewrite (sorted_iff _ symbol_lt) in H3 by (intros; apply symbol_cmp_gt). split; [auto|]. cbn [sy_libs sy_symbols]. lens.
Qed.

Lemma codec_symsys : codec2 (symsys_with distinct) (symsys_with few_distinct) enc_symsys dec_symsys.
Proof.
  unfold enc_symsys, dec_symsys, symsys_with. pose proof codec_symbols as C. pose proof codec_sys as CS. split.
  - intros [l i] r [A B]. cbn [ss_symbols ss_types] in *. rewrite <- app_assoc. rt C. rt CS. reflexivity.
  - intros b e r E. repeat step. injection E as <- <-. use C. use CS. split; [auto|]. cbn [ss_symbols ss_types]. lens.
Qed.
