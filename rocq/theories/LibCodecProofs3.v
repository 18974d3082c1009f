(** Decoding is canonical for types without enumerations and unions. *)
From Coq Require Import NArith List Bool String Strings.Byte Sorted Lia.
From Verif Require Import Base Sha256 Ty Ids TypeSys Typify LibCodec SpecIds SpecLib LibCodecProofs BTreeProofs LibCodecProofs2.
Import ListNotations.
Local Open Scope N_scope.

(** Objects of the class [p] are read only from their encoding. *)
Definition exact {A} (p : A -> Prop) (enc : A -> bytes) (dec : bytes -> option (A * bytes)) : Prop :=
  forall b a r, p a -> dec b = Some (a, r) -> b = (enc a ++ r)%list.

Lemma exact_uint k : exact (fun _ => True) (enc_uint k) (dec_uint k).
Proof.
  intros b n r _ E. unfold dec_uint in E. destruct (take k b) as [[x y]|] eqn:T; cbn [obind] in E; [|discriminate]. injection E as <- <-.
  apply take_inv in T as [-> L]. unfold enc_uint. now rewrite <- L, le_unle.
Qed.
Lemma exact_id : exact (fun _ => True) enc_id dec_id.
Proof.
  intros b n r _ E. unfold dec_id in E. destruct (take 32 b) as [[x y]|] eqn:T; cbn [obind] in E; [|discriminate]. injection E as <- <-.
  apply take_inv in T as [-> L]. unfold enc_id, id_bytes, id_of_bytes. now rewrite <- L, be_unbe.
Qed.
Lemma exact_name valid : exact (fun _ => True) enc_name (dec_name valid).
Proof.
  intros b s r _ E. unfold dec_name in E. step. step. destruct (valid (bstring b1)); [|discriminate]. injection E as <- <-.
  apply dec_tag_inv in D as E1. unfold dec_uint in D. destruct (take 1 b) as [[y z]|] eqn:T; cbn [obind] in D; [|discriminate]. injection D as <- <-.
  apply take_inv in T as [_ L1]. destruct y as [|y [|]]; try discriminate L1. rewrite E1. apply take_inv in D0 as [-> L2].
  unfold enc_name. cbn [app]. rewrite sbytes_bstring. f_equal. f_equal. unfold slen. rewrite <- sbytes_length, sbytes_bstring, L2. lia.
Qed.

Lemma exact_entry {K V} (pk : K -> Prop) (pv : V -> Prop) ek ev dk dv : exact pk ek dk -> exact pv ev dv ->
  exact (fun e => pk (fst e) /\ pv (snd e)) (enc_entry ek ev) (dec_entry dk dv).
Proof.
  intros XK XV b [k v] r [P1 P2] E. unfold dec_entry in E. repeat step. injection E as -> -> ->. cbn [fst snd] in *.
  apply XK in D; auto. apply XV in D0; auto. subst. unfold enc_entry. cbn [fst snd]. now rewrite app_assoc.
Qed.

Lemma exact_list {A} (p : A -> Prop) enc dec k min max : exact p enc dec -> exact (Forall p) (enc_list k enc) (dec_list k min max dec).
Proof.
  intros X b l r P E. unfold dec_list in E. repeat step. destruct (within _ _ _); [|discriminate]. injection E as <- <-.
  apply exact_uint in D; [|exact I]. subst. unfold enc_list. rewrite <- app_assoc.
  assert (Y : forall n b l r, dec_items dec n b = Some (l, r) -> Forall p l -> b = (flat_map enc l ++ r)%list /\ List.length l = n).
  { clear - X. induction n as [|n IH]; intros b l r E P; cbn [dec_items] in E; [injection E as <- <-; auto|].
    repeat step. injection E as <- <-. inversion P; subst. apply X in D; auto. apply IH in D0 as [-> <-]; auto. subst.
    cbn [flat_map]. rewrite app_assoc. auto. }
  apply Y in D0 as [-> L]; auto. do 2 f_equal. unfold lenN. lia.
Qed.

(** Orders in which a greater key is greater than all the smaller ones. *)
Definition transitive_gt {K} (cmp : K -> K -> comparison) : Prop :=
  forall a b c, cmp b a = Gt -> cmp c b = Gt -> cmp c a = Gt.

Lemma exact_map {K V} (pv : V -> Prop) ek (ev : V -> bytes) dk dv (cmp : K -> K -> comparison) k min max :
  exact (fun _ => True) ek dk -> exact pv ev dv -> transitive_gt cmp ->
  exact (Forall (fun e => pv (snd e))) (enc_map k ek ev) (dec_map k min max cmp dk dv).
Proof.
  intros XK XV T b m r P E. unfold dec_map in E. repeat step. destruct (within _ _ _); [|discriminate]. injection E as <- <-.
  apply exact_uint in D; [|exact I]. subst. unfold enc_map, enc_list. rewrite <- app_assoc.
  pose proof (exact_entry _ _ _ _ _ _ XK XV) as XE.
  assert (Y : forall n m b l r, ascends cmp m -> dec_sorted cmp (dec_entry dk dv) n m b = Some (l, r) -> Forall (fun e => pv (snd e)) l ->
    exists l', l = (m ++ l')%list /\ b = (flat_map (enc_entry ek ev) l' ++ r)%list /\ List.length l' = n).
  { clear - XE T. induction n as [|n IH]; intros m b l r A E P; cbn [dec_sorted] in E.
    - injection E as <- <-. exists []. rewrite app_nil_r. auto.
    - step. assert (X : Forall (fun x => cmp (fst p) (fst x) = Gt) m
                /\ dec_sorted cmp (dec_entry dk dv) n (om_insert cmp (fst p) (snd p) m) b0 = Some (l, r)).
      { destruct (last_key_cases m) as [[-> L]|(m' & e & -> & L)]; rewrite L in E; [auto|].
        destruct (cmp (fst p) (fst e)) eqn:G; try discriminate. split; [|exact E]. apply Forall_app. split; [|auto].
        apply ascends_last in A. eapply Forall_impl; [|exact A]. cbn. intros x Q. eapply T; eassumption. }
      destruct X as [G E']. rewrite om_insert_end, <- surjective_pairing in E' by assumption.
      apply IH in E' as (l' & -> & -> & L); [|now apply ascends_snoc|assumption].
      apply Forall_app in P as [P P']. apply Forall_app in P as [_ P]. inversion P; subst.
      apply XE in D; [|auto]. exists (p :: l'). rewrite <- app_assoc. split; [reflexivity|]. split; [|reflexivity].
      cbn [flat_map]. rewrite D, app_assoc. reflexivity. }
  apply Y in D0 as (l' & -> & -> & L); [|constructor|assumption]. cbn [app]. do 2 f_equal. unfold lenN. lia.
Qed.

Lemma exact_set {K} ek dk (cmp : K -> K -> comparison) k min max : exact (fun _ => True) ek dk -> transitive_gt cmp ->
  exact (fun _ => True) (enc_set k ek) (dec_set k min max cmp dk).
Proof.
  intros X T b l r _ E. unfold dec_set in E. step. injection E as <- <-. rewrite enc_set_map, map_pair_fst.
  eapply (exact_map (fun _ => True)) in D; [exact D|exact X| |exact T|].
  - intros b' [] r' _ E. unfold dec_unit in E. injection E as ->. reflexivity.
  - now apply Forall_forall.
Qed.

Lemma exact_sizing : exact (fun _ => True) enc_sizing dec_sizing.
Proof.
  intros b s r _ E. unfold dec_sizing in E. repeat step. injection E as <- <-. apply exact_uint in D, D0; auto. subst.
  unfold enc_sizing. cbn [s_min s_max]. now rewrite app_assoc.
Qed.

Lemma exact_ty {R} (p : R -> Prop) er dr : exact p er dr -> exact (ty_plain p) (enc_ty er) (dec_ty dr).
Proof.
  intros X b t r P E. unfold dec_ty in E. step. apply dec_tag_inv in D as ->.
  repeat match type of E with (if ?n =? ?c then _ else _) = _ => destruct (N.eqb_spec n c) as [->|_] end; try discriminate; repeat step;
    injection E as <- <-; cbn [enc_ty ty_plain] in *; try contradiction; cbn [app]; f_equal; rewrite <- ?app_assoc.
  - apply exact_uint in D; auto.
  - apply (exact_list p) with (enc := er) in D; auto.
  - eapply exact_list in D; [exact D| |rewrite Forall_map in P; exact P].
    intros b' e r' Q E. eapply exact_entry in E; [exact E|apply exact_name|exact X|]. auto.
  - apply X in D; auto. apply exact_uint in D0; auto. now subst.
  - apply X in D; auto. apply exact_sizing in D0; auto. now subst.
  - apply X in D; auto. apply exact_sizing in D0; auto. now subst.
  - destruct P. apply X in D; auto. apply X in D0; auto. apply exact_sizing in D1; auto. now subst.
Qed.

Lemma exact_extern : exact (fun _ => True) enc_extern dec_extern.
Proof.
  intros b s r _ E. unfold dec_extern in E. repeat step. injection E as <- <-. apply exact_id in D, D0; auto. subst.
  unfold enc_extern. cbn [er_lib er_id]. now rewrite app_assoc.
Qed.
Lemma exact_ref2 : exact (fun _ => True) enc_ref2 dec_ref2.
Proof.
  intros b s r _ E. unfold dec_ref2 in E. step. apply dec_tag_inv in D as ->.
  repeat match type of E with (if ?n =? ?c then _ else _) = _ => destruct (N.eqb_spec n c) as [->|_] end; try discriminate; repeat step;
    injection E as <- <-; cbn [enc_ref2 app]; f_equal.
  - apply exact_id in D; auto.
  - apply exact_extern in D; auto.
Qed.
Lemma exact_gref {I} (p : I -> Prop) ei di : exact p ei di -> exact (gref_plain p) (enc_gref ei) (dec_gref di).
Proof.
  intros X b s r P E. unfold dec_gref in E. step. apply dec_tag_inv in D as ->.
  repeat match type of E with (if ?n =? ?c then _ else _) = _ => destruct (N.eqb_spec n c) as [->|_] end; try discriminate; repeat step;
    injection E as <- <-; cbn [enc_gref app gref_plain] in *; f_equal.
  - apply X in D; auto.
  - apply exact_id in D; auto.
  - apply exact_extern in D; auto.
Qed.
Lemma exact_libref : exact libref_plain enc_libref dec_libref.
Proof. apply exact_gref, exact_ty, exact_gref, exact_ty, exact_gref, exact_ty, exact_ref2. Qed.

Lemma gt_N : transitive_gt N.compare.
Proof. intros a b c. rewrite !N.compare_gt_iff. lia. Qed.
Lemma gt_string : transitive_gt String.compare.
Proof. intros a b c. rewrite !string_gt_lt. apply string_lt_trans. Qed.
Lemma gt_dep : transitive_gt dep_cmp.
Proof. intros a b c. apply gt_N. Qed.

Lemma exact_dep : exact (fun _ => True) enc_dep dec_dep.
Proof.
  intros b s r _ E. unfold dec_dep in E. repeat step. injection E as <- <-. apply exact_id in D; auto. apply exact_name in D0; auto. subst.
  unfold enc_dep. cbn [d_id d_name]. now rewrite app_assoc.
Qed.

Lemma exact_extern_types : exact (fun _ => True) enc_extern_types dec_extern_types.
Proof.
  intros b m r _ E. eapply (exact_map (fun _ => True)) in E; [exact E|apply exact_name| |apply gt_string|].
  - intros b' m' r' _ E'. eapply (exact_map (fun _ => True)) in E'; [exact E'|apply exact_id|apply exact_name|apply gt_N|]. now apply Forall_forall.
  - now apply Forall_forall.
Qed.

Lemma exact_lib : exact lib_plain enc_lib dec_lib.
Proof.
  intros b l r P E. unfold dec_lib in E. repeat step. injection E as <- <-. unfold lib_plain in P. cbn [l_types] in P.
  apply exact_name in D; auto. apply (exact_set enc_dep) in D0; auto using exact_dep, gt_dep. apply exact_extern_types in D1; auto.
  eapply exact_map in D2; [|apply exact_name|apply exact_ty, exact_libref|apply gt_string|exact P]. subst.
  unfold enc_lib. cbn [l_name l_deps l_extern l_types]. now rewrite !app_assoc.
Qed.

Lemma exact_sys : exact system_plain enc_sys dec_sys.
Proof.
  intros b s r P E. eapply exact_map in E; [exact E|apply exact_id|apply exact_ty, exact_id|apply gt_N|exact P].
Qed.

Lemma fqn_trans : transitive_gt fqn_cmp.
Proof. intros a b c. rewrite !fqn_cmp_gt. apply fqn_lt_trans. Qed.
Lemma gt_symbol : transitive_gt symbol_cmp.
Proof. intros a b c. rewrite !symbol_cmp_gt. apply symbol_lt_trans. Qed.

Lemma exact_symbol : exact (fun _ => True) enc_symbol dec_symbol.
Proof.
  intros b s r _ E. unfold dec_symbol in E. repeat step. injection E as <- <-. apply exact_id in D; auto. subst.
  unfold dec_option in D0. step. apply dec_tag_inv in D as ->. unfold enc_symbol. cbn [ts_id ts_fqn]. rewrite <- app_assoc. f_equal.
  repeat match type of D0 with (if ?n =? ?c then _ else _) = _ => destruct (N.eqb_spec n c) as [->|_] end; try discriminate; repeat step;
    injection D0 as <- <-; cbn [enc_option app]; f_equal.
  unfold dec_fqn in D. repeat step. injection D as <- <-. apply exact_name in D0, D1; auto. subst. unfold enc_fqn. cbn [q_lib q_name]. now rewrite app_assoc.
Qed.

Lemma exact_symbols : exact (fun _ => True) enc_symbols dec_symbols.
Proof.
  intros b s r _ E. unfold dec_symbols in E. repeat step. injection E as <- <-.
  apply (exact_set enc_dep) in D; auto using exact_dep, gt_dep. apply (exact_set enc_symbol) in D0; auto using exact_symbol, gt_symbol. subst.
  unfold enc_symbols. cbn [sy_libs sy_symbols]. now rewrite app_assoc.
Qed.

(** ** Names of variants *)

Lemma Forall_flat {A B} (P : B -> Prop) (f : A -> list B) l : Forall P (flat_map f l) <-> Forall (fun a => Forall P (f a)) l.
Proof.
  induction l as [|a l IH]; cbn [flat_map]; split; intros H; try constructor.
  - apply Forall_app in H. tauto.
  - apply IH. apply Forall_app in H. tauto.
  - apply Forall_app. inversion H; subst. split; [assumption|]. now apply IH.
Qed.

Section Change.
Context (d p d' : list string -> Prop) (dp : forall n, d n -> p n -> d' n).

Lemma ty_change {R} (ok ok' : R -> Prop) inner t : (forall r, ok r -> Forall p (inner r) -> ok' r) ->
  ty_with d ok t -> Forall p (ty_names inner t) -> ty_with d' ok' t.
Proof.
  intros H. destruct t; cbn [ty_with ty_names]; intros W F; try exact W.
  - destruct W as (A & B & N & C). inversion F; subst. repeat split; try apply A; auto.
  - inversion F as [|? ? F1 F2]; subst. destruct W as [(A & B & N & C) W]. split; [repeat split; try apply A; auto|].
    apply Forall_flat in F2. rewrite Forall_map in *. rewrite Forall_forall in *. intros x X. apply H; auto.
  - apply Forall_flat in F. destruct W as [A W]. split; [exact A|]. rewrite Forall_forall in *. intros x X. apply H; auto.
  - apply Forall_flat in F. destruct W as (A & B & W). split; [exact A|]. split; [exact B|]. rewrite Forall_map in *. rewrite Forall_forall in *. intros x X. apply H; auto.
  - destruct W. auto.
  - destruct W. auto.
  - destruct W. auto.
  - apply Forall_app in F as [F1 F2]. destruct W as (A & B & C). auto.
Qed.

Lemma gref_change {I} (ok ok' : I -> Prop) inner r : (forall t, ok t -> Forall p (inner t) -> ok' t) ->
  gref_wf ok r -> Forall p (gref_names inner r) -> gref_wf ok' r.
Proof. intros H. destruct r; cbn [gref_wf gref_names]; auto. Qed.

Lemma libref_change r : libref_with d r -> Forall p (libref_names r) -> libref_with d' r.
Proof.
  apply gref_change. intros t. apply ty_change. intros r1. apply gref_change. intros t1. apply ty_change.
  intros r2. apply gref_change. intros t2. apply ty_change. intros r3 W _. exact W.
Qed.

Lemma lib_change l : lib_with d l -> Forall p (lib_names l) -> lib_with d' l.
Proof.
  intros (A & B & C & S & I & F) N. split; [exact A|]. split; [exact B|]. split; [exact C|]. split; [exact S|]. split; [exact I|].
  unfold lib_names in N. apply Forall_flat in N. rewrite Forall_forall in *. intros e E. destruct (F e E) as [F1 F2]. split; [exact F1|].
  apply (ty_change (libref_with d) _ libref_names); [exact libref_change|exact F2|now apply N].
Qed.

Lemma tref_change n r : tref_with d n r -> Forall p (tref_names r) -> tref_with d' n r.
Proof.
  revert r; induction n as [|n IH]; intros r W F; [destruct W|]. destruct r as [t|s|s]; cbn [tref_with tref_names] in *; auto.
  now apply (ty_change (tref_with d n) _ tref_names).
Qed.

Lemma symlib_change n l : symlib_with d n l -> Forall p (symlib_names l) -> symlib_with d' n l.
Proof.
  intros (A & B & C & S & I & F) N. split; [exact A|]. split; [exact B|]. split; [exact C|]. split; [exact S|]. split; [exact I|].
  unfold symlib_names in N. apply Forall_flat in N. rewrite Forall_forall in *. intros e E. destruct (F e E) as [F1 F2]. split; [exact F1|].
  apply (ty_change (tref_with d n) _ tref_names); [exact (tref_change n)|exact F2|now apply N].
Qed.

Lemma system_change s : system_with d s -> Forall p (system_names s) -> system_with d' s.
Proof.
  intros (S & I & F) N. split; [exact S|]. split; [exact I|].
  unfold system_names in N. apply Forall_flat in N. rewrite Forall_forall in *. intros e E. destruct (F e E) as [F1 F2]. split; [exact F1|].
  apply (ty_change id_ok _ (fun _ => [])); [auto|exact F2|now apply N].
Qed.
End Change.

(** What is read is well-formed if the names of variants of each type are distinct. *)
Fixpoint nodupb (l : list string) : bool :=
  match l with [] => true | x :: l => negb (existsb (String.eqb x) l) && nodupb l end.
Lemma nodupb_ok l : nodupb l = true -> distinct l.
Proof.
  induction l as [|x l IH]; cbn [nodupb]; intros H; [constructor|]. apply andb_true_iff in H as [A B]. constructor; [|now apply IH].
  intros I. apply negb_true_iff in A. assert (existsb (String.eqb x) l = true); [|congruence]. apply existsb_exists. exists x. split; [exact I|]. apply String.eqb_refl.
Qed.
Lemma all_distinct n : forallb nodupb n = true -> Forall distinct n.
Proof. intros H. apply Forall_forall. intros x X. rewrite forallb_forall in H. now apply nodupb_ok, H. Qed.

Lemma lib_distinct l r b : dec_lib b = Some (l, r) -> forallb nodupb (lib_names l) = true -> lib_wf l.
Proof. intros D N. apply (lib_change few_distinct distinct distinct); [auto|now apply codec_lib in D|now apply all_distinct]. Qed.
Lemma symlib_distinct n l r b : dec_symlib n b = Some (l, r) -> forallb nodupb (symlib_names l) = true -> symlib_wf n l.
Proof. intros D N. apply (symlib_change few_distinct distinct distinct); [auto|now apply codec_symlib in D|now apply all_distinct]. Qed.
Lemma system_distinct l r b : dec_sys b = Some (l, r) -> forallb nodupb (system_names l) = true -> system_wf l.
Proof. intros D N. apply (system_change few_distinct distinct distinct); [auto|now apply codec_sys in D|now apply all_distinct]. Qed.
Lemma symsys_distinct l r b : dec_symsys b = Some (l, r) -> forallb nodupb (system_names (ss_types l)) = true -> symsys_wf l.
Proof. intros D N. apply codec_symsys in D as [[A B] _]. split; [exact A|]. apply (system_change few_distinct distinct distinct); [auto|exact B|now apply all_distinct]. Qed.
