(** Encoding and decoding of types, libraries and type systems are inverse to each other. *)
From Coq Require Import NArith List Bool String Strings.Byte Sorted Lia.
From Verif Require Import Base Sha256 Ty Ids TypeSys Typify LibCodec SpecIds SpecLib.
Import ListNotations.
Local Open Scope N_scope.

(** A codec: well-formed objects are read back; whatever is read meets a condition, and its encoding is
    what was read, or is shorter. *)
Definition codec2 {A} (ok ok' : A -> Prop) (enc : A -> bytes) (dec : bytes -> option (A * bytes)) : Prop :=
  (forall a r, ok a -> dec (enc a ++ r)%list = Some (a, r))
  /\ (forall b a r, dec b = Some (a, r) ->
        ok' a /\ (b = enc a ++ r \/ (List.length (enc a) + List.length r < List.length b)%nat)).

Notation codec ok := (codec2 ok ok).

Definition nonempty {A} (enc : A -> bytes) : Prop := forall a, (0 < List.length (enc a))%nat.

Lemma codec_weaken {A} (ok ok2 ok' ok2' : A -> Prop) enc dec : codec2 ok ok2 enc dec -> (forall a, ok a <-> ok' a) -> (forall a, ok2 a <-> ok2' a) -> codec2 ok' ok2' enc dec.
Proof.
  intros [R C] E E'. split.
  - intros a r O. apply R. now apply E.
  - intros b a r D. destruct (C b a r D). split; auto. now apply E'.
Qed.

(** ** Base codecs *)

Lemma take_app n x r : List.length x = n -> take n (x ++ r)%list = Some (x, r).
Proof. revert n; induction x as [|a x IH]; intros [|n] L; try discriminate L; cbn; [reflexivity|]. now rewrite IH by now injection L. Qed.

Lemma take_inv n b x r : take n b = Some (x, r) -> b = (x ++ r)%list /\ List.length x = n.
Proof.
  revert b x; induction n as [|n IH]; intros b x E; cbn in E; [injection E as <- <-; auto|].
  destruct b as [|a b]; [discriminate|]. destruct (take n b) as [[y z]|] eqn:T; [|discriminate].
  injection E as <- <-. destruct (IH _ _ T) as [-> <-]. auto.
Qed.

Lemma codec_uint k : codec (fun n => n < 2 ^ (8 * N.of_nat k)) (enc_uint k) (dec_uint k).
Proof.
  unfold enc_uint, dec_uint. split.
  - intros n r L. rewrite take_app by apply le_length. cbn [obind]. now rewrite unle_le.
  - intros b n r E. destruct (take k b) as [[x y]|] eqn:T; cbn [obind] in E; [|discriminate]. injection E as <- <-.
    apply take_inv in T as [-> L]. split.
    + pose proof (unle_bound x). unfold lenN in H. now rewrite L in H.
    + left. now rewrite <- L, le_unle.
Qed.

Lemma codec_u8 : codec (fun n => n < 256) (enc_uint 1) (dec_uint 1).
Proof. exact (codec_uint 1). Qed.

Lemma codec_id : codec id_ok enc_id dec_id.
Proof.
  unfold enc_id, dec_id, id_bytes, id_of_bytes, id_ok. split.
  - intros n r L. rewrite take_app by apply be_length. cbn [obind]. now rewrite unbe_be.
  - intros b n r E. destruct (take 32 b) as [[x y]|] eqn:T; cbn [obind] in E; [|discriminate]. injection E as <- <-.
    apply take_inv in T as [-> L]. split.
    + pose proof (unbe_bound x). unfold lenN in H. now rewrite L in H.
    + left. now rewrite <- L, be_unbe.
Qed.

Lemma enc_id_nonempty : nonempty enc_id.
Proof. intros a. unfold enc_id, id_bytes. rewrite be_length. lia. Qed.

(** ** Names *)

Lemma chr_between_iff c lo hi : chr_between c lo hi = true <-> lo <= Byte.to_N c <= hi.
Proof. unfold chr_between. rewrite andb_true_iff, !N.leb_le. reflexivity. Qed.

Lemma alpha_num_iff c : alpha_num_lodash c = true <-> name_char c.
Proof. unfold alpha_num_lodash, name_char. rewrite !orb_true_iff, !chr_between_iff, N.eqb_eq. tauto. Qed.

Lemma rstring_iff fb fp s : (forall c, fb c = true <-> fp c) -> rstring_ok fb alpha_num_lodash s = true <-> named_with fp s.
Proof.
  intros F. unfold rstring_ok, named_with. unfold slen. rewrite <- sbytes_length. fold (lenN (sbytes s)).
  destruct (sbytes s) as [|c r] eqn:E.
  - split; [discriminate|]. intros (x & y & Q & _). discriminate.
  - rewrite !andb_true_iff, N.leb_le, F, forallb_forall. split.
    + intros [[A B] C]. exists c, r. repeat split; auto. apply Forall_forall. intros x I. apply alpha_num_iff. auto.
    + intros (x & y & Q & A & B & C). injection Q as <- <-. repeat split; auto. intros x I.
      apply alpha_num_iff. rewrite Forall_forall in B. auto.
Qed.

Lemma field_name_iff s : Typify.name_ok s = true <-> field_name s.
Proof. apply rstring_iff. intros c. unfold alpha_small_lodash, lower. rewrite orb_true_iff, chr_between_iff, N.eqb_eq. tauto. Qed.
Lemma type_name_iff s : tname_ok s = true <-> type_name s.
Proof. apply rstring_iff. intros c. unfold alpha_caps_lodash, upper. rewrite orb_true_iff, chr_between_iff, N.eqb_eq. tauto. Qed.

Lemma named_slen f s : named_with f s -> slen s < 256.
Proof. intros (x & r & E & _ & _ & L). unfold slen. rewrite <- sbytes_length, E. unfold lenN in L. lia. Qed.

Lemma codec_named valid fp : (forall s, valid s = true <-> named_with fp s) -> codec (named_with fp) enc_name (dec_name valid).
Proof.
  intros V. unfold enc_name, dec_name. split.
  - intros s r O. pose proof (named_slen _ _ O) as L. cbn [app].
    change (b8 (slen s) :: (sbytes s ++ r)%list) with ([b8 (slen s)] ++ (sbytes s ++ r))%list.
    replace [b8 (slen s)] with (enc_uint 1 (slen s)).
    2: { unfold enc_uint. cbn [le]. now rewrite N.mod_small. }
    rewrite (proj1 codec_u8) by assumption. cbn [obind].
    rewrite take_app; [|unfold slen; rewrite sbytes_length; lia]. cbn [obind]. rewrite bstring_sbytes.
    now rewrite (proj2 (V s) O).
  - intros b s r E. destruct (dec_uint 1 b) as [[n b1]|] eqn:D; cbn [obind] in E; [|discriminate].
    destruct (take (N.to_nat n) b1) as [[x b2]|] eqn:T; cbn [obind] in E; [|discriminate].
    destruct (valid (bstring x)) eqn:W; [|discriminate]. injection E as <- <-.
    apply V in W. split; [exact W|]. unfold dec_uint in D.
    destruct (take 1 b) as [[y b3]|] eqn:T1; cbn [obind] in D; [|discriminate]. injection D as <- <-.
    apply take_inv in T1 as [-> L1]. apply take_inv in T as [-> L2]. left.
    destruct y as [|y [|]]; try discriminate L1. cbn [unle] in L2.
    cbn [app]. f_equal; [|now rewrite sbytes_bstring].
    rewrite <- (to_N_b8 y). f_equal. unfold slen. rewrite <- sbytes_length, sbytes_bstring.
    pose proof (byte_bound y). lia.
Qed.

Lemma codec_field_name : codec field_name enc_name (dec_name Typify.name_ok).
Proof. apply codec_named, field_name_iff. Qed.
Lemma codec_type_name : codec type_name enc_name (dec_name tname_ok).
Proof. apply codec_named, type_name_iff. Qed.
Lemma enc_name_nonempty : nonempty enc_name.
Proof. intros a. cbn. lia. Qed.

(** ** Composition *)

Ltac step := match goal with
  | H : obind ?o _ = Some _ |- _ => let E := fresh "D" in destruct o as [[? ?]|] eqn:E; cbn [obind] in H; [|discriminate H]
  end.
Ltac lens := repeat match goal with H : _ \/ (_ < _)%nat |- _ => destruct H as [H|H] end; subst;
  try (left; rewrite ?app_comm_cons, ?app_assoc; cbn [app]; rewrite <- ?app_assoc; reflexivity);
  right; cbn [List.length app] in *; rewrite ?app_length in *; cbn [List.length app] in *; rewrite ?app_length in *; lia.
Ltac use H := match type of H with codec2 _ _ _ ?d =>
  match goal with E : d ?b = Some _ |- _ => apply (proj2 H) in E; destruct E end end.

Lemma codec_entry {K V} (okk okk' : K -> Prop) (okv okv' : V -> Prop) ek ev dk dv :
  codec2 okk okk' ek dk -> codec2 okv okv' ev dv ->
  codec2 (fun e => okk (fst e) /\ okv (snd e)) (fun e => okk' (fst e) /\ okv' (snd e)) (enc_entry ek ev) (dec_entry dk dv).
Proof.
  intros CK CV. unfold enc_entry, dec_entry. split.
  - intros [k v] r [O1 O2]. cbn [fst snd] in *. rewrite <- app_assoc, (proj1 CK) by assumption. cbn [obind].
    rewrite (proj1 CV) by assumption. reflexivity.
  - intros b [k v] r E. repeat step. injection E as -> -> ->. use CK. use CV. split; [auto|]. cbn [fst snd]. lens.
Qed.

Lemma codec_tag {A} (ok ok' : A -> Prop) n (enc : A -> bytes) (dec : bytes -> option (A * bytes)) r a : n < 256 -> codec2 ok ok' enc dec -> ok a ->
  dec_uint 1 (b8 n :: enc a ++ r)%list = Some (n, enc a ++ r)%list.
Proof.
  intros L _ _. pose proof (proj1 codec_u8 n (enc a ++ r)%list L) as E. unfold enc_uint in E. cbn [le app] in E.
  now rewrite N.mod_small in E.
Qed.

Lemma dec_tag n r : n < 256 -> dec_uint 1 (b8 n :: r) = Some (n, r).
Proof.
  intros L. pose proof (proj1 codec_u8 n r L) as E. unfold enc_uint in E. cbn [le app] in E. now rewrite N.mod_small in E.
Qed.

Lemma dec_tag_inv b n r : dec_uint 1 b = Some (n, r) -> b = b8 n :: r.
Proof.
  unfold dec_uint. destruct (take 1 b) as [[x y]|] eqn:T; cbn [obind]; [|discriminate]. intros E. injection E as <- <-.
  apply take_inv in T as [-> L]. destruct x as [|x [|]]; try discriminate L. cbn [unle app].
  rewrite N.mul_0_r, N.add_0_r, to_N_b8. reflexivity.
Qed.

Lemma codec_option {A} (ok : A -> Prop) enc dec : codec ok enc dec ->
  codec (fun o => match o with Some a => ok a | None => True end) (enc_option enc) (dec_option dec).
Proof.
  intros C. unfold enc_option, dec_option. split.
  - intros [a|] r O; cbn [app]; rewrite dec_tag by lia; cbn [obind]; [|reflexivity].
    change (1 =? 0) with false. change (1 =? 1) with true. cbn iota. rewrite (proj1 C) by assumption. reflexivity.
  - intros b o r E. step. apply dec_tag_inv in D as ->.
    destruct (N.eqb_spec n 0) as [->|_]; [injection E as <- <-; auto|].
    destruct (N.eqb_spec n 1) as [->|_]; [|discriminate]. step. injection E as <- <-. use C. split; [assumption|]. lens.
Qed.

(** ** Lists *)

Lemma within_iff min max n : within min max n = true <-> min <= n <= max.
Proof. unfold within. now rewrite andb_true_iff, !N.leb_le. Qed.

Lemma dec_items_rt {A} (ok ok' : A -> Prop) enc dec : codec2 ok ok' enc dec -> forall l r, Forall ok l ->
  dec_items dec (List.length l) (flat_map enc l ++ r)%list = Some (l, r).
Proof.
  intros C. induction l as [|a l IH]; intros r F; [reflexivity|]. inversion F; subst. cbn [List.length dec_items flat_map].
  rewrite <- app_assoc, (proj1 C) by assumption. cbn [obind]. rewrite IH by assumption. reflexivity.
Qed.

Lemma dec_items_can {A} (ok0 ok : A -> Prop) enc dec : codec2 ok0 ok enc dec -> forall n b l r, dec_items dec n b = Some (l, r) ->
  Forall ok l /\ List.length l = n /\ (b = flat_map enc l ++ r \/ (List.length (flat_map enc l) + List.length r < List.length b)%nat).
Proof.
  intros C. induction n as [|n IH]; intros b l r E; cbn [dec_items] in E; [injection E as <- <-; auto|].
  repeat step. injection E as <- <-. use C. apply IH in D0 as (F & L & Q).
  repeat split; auto; [cbn; lia|]. cbn [flat_map]. lens.
Qed.

Lemma codec_list {A} (ok ok' : A -> Prop) enc dec k min max : codec2 ok ok' enc dec -> max < 2 ^ (8 * N.of_nat k) ->
  codec2 (fun l => sized min max l /\ Forall ok l) (fun l => sized min max l /\ Forall ok' l) (enc_list k enc) (dec_list k min max dec).
Proof.
  intros C M. unfold enc_list, dec_list, sized. split.
  - intros l r [O F]. rewrite <- app_assoc, (proj1 (codec_uint k)) by lia. cbn [obind].
    replace (N.to_nat (lenN l)) with (List.length l) by (unfold lenN; lia).
    rewrite (dec_items_rt ok ok') by assumption. cbn [obind]. now rewrite (proj2 (within_iff _ _ _) O).
  - intros b l r E. repeat step. destruct (within min max (lenN l0)) eqn:W; [|discriminate]. injection E as -> ->.
    apply within_iff in W. pose proof (codec_uint k) as CU. use CU. apply (dec_items_can ok ok' enc) in D0 as (F & L & Q); [|assumption].
    split; [auto|]. assert (n = lenN l) as -> by (unfold lenN; lia). lens.
Qed.

(** ** Ordered collections *)

(** Keys in ascending order: each one is greater than all the ones before. *)
Definition ascends {K V} (cmp : K -> K -> comparison) : list (K * V) -> Prop :=
  StronglySorted (fun a b => cmp (fst b) (fst a) = Gt).

(** A key greater than a greater one is not smaller. *)
Definition lax {K} (cmp : K -> K -> comparison) : Prop :=
  forall a b c, cmp b a = Gt -> cmp c b = Gt -> cmp c a <> Lt.

Lemma om_insert_end {K V} cmp (k : K) (v : V) m : Forall (fun e => cmp k (fst e) = Gt) m -> om_insert cmp k v m = (m ++ [(k, v)])%list.
Proof.
  induction m as [|[k' v'] m IH]; intros F; [reflexivity|]. inversion F; subst. cbn in *. rewrite H1. now rewrite IH.
Qed.

Lemma om_insert_cases {K V} cmp (k : K) (v : V) m : Forall (fun e => cmp k (fst e) <> Lt) m ->
  Forall (fun e => cmp k (fst e) = Gt) m /\ om_insert cmp k v m = (m ++ [(k, v)])%list
  \/ exists m1 k' v' m2, m = (m1 ++ (k', v') :: m2)%list /\ cmp k k' = Eq /\ om_insert cmp k v m = (m1 ++ (k', v) :: m2)%list.
Proof.
  induction m as [|[k' v'] m IH]; intros F; [left; auto|]. inversion F as [|? ? A B]; subst. cbn in A. cbn [om_insert].
  destruct (cmp k k') eqn:E; [|congruence|].
  - right. exists [], k', v', m. auto.
  - destruct (IH B) as [[G ->]|(m1 & k1 & v1 & m2 & -> & Q & ->)].
    + left. auto.
    + right. exists ((k', v') :: m1), k1, v1, m2. auto.
Qed.

Lemma ascends_snoc {K V} cmp (m : list (K * V)) e : ascends cmp m -> Forall (fun x => cmp (fst e) (fst x) = Gt) m -> ascends cmp (m ++ [e])%list.
Proof.
  unfold ascends. induction m as [|x m IH]; intros A F; cbn; [repeat constructor|].
  inversion A; subst. inversion F; subst. constructor; auto. apply Forall_app. auto.
Qed.

Lemma ascends_keys {K V} cmp (m1 : list (K * V)) k v v' m2 :
  ascends cmp (m1 ++ (k, v) :: m2)%list -> ascends cmp (m1 ++ (k, v') :: m2)%list.
Proof.
  unfold ascends. induction m1 as [|x m1 IH]; intros A; cbn in *.
  - inversion A; subst. constructor; auto.
  - inversion A; subst. constructor; auto. apply Forall_app in H2 as [F1 F2]. apply Forall_app. split; auto.
    inversion F2; subst. constructor; auto.
Qed.

Lemma last_key_snoc {K V} (m : list (K * V)) e : last_key (m ++ [e])%list = Some (fst e).
Proof. induction m as [|x m IH]; [reflexivity|]. cbn. destruct (m ++ [e])%list eqn:Q; [now destruct m|]. exact IH. Qed.

Lemma last_key_cases {K V} (m : list (K * V)) : m = [] /\ last_key m = None \/ exists m' e, m = (m' ++ [e])%list /\ last_key m = Some (fst e).
Proof.
  destruct m as [|x m] using rev_ind; [auto|]. right. exists m, x. split; auto. apply last_key_snoc.
Qed.

Lemma ascends_last {K V} cmp (m : list (K * V)) e : ascends cmp (m ++ [e])%list -> Forall (fun x => cmp (fst e) (fst x) = Gt) m.
Proof.
  unfold ascends. induction m as [|x m IH]; intros A; [constructor|]. cbn in A. inversion A; subst.
  constructor; [|auto]. rewrite Forall_forall in H2. apply H2. apply in_or_app. right. now left.
Qed.

(** All keys are not greater than a key greater than the last one. *)
Lemma ascends_bound {K V} cmp (m : list (K * V)) (k : K) : lax cmp -> ascends cmp m ->
  match last_key m with Some k' => cmp k k' = Gt | None => True end -> Forall (fun e => cmp k (fst e) <> Lt) m.
Proof.
  intros L A H. destruct (last_key_cases m) as [[-> _]|(m' & e & -> & E)]; [constructor|]. rewrite E in H.
  apply Forall_app. split.
  - apply ascends_last in A. eapply Forall_impl; [|exact A]. cbn. intros x G. eapply L; eassumption.
  - constructor; [|constructor]. congruence.
Qed.

(** Inserting a key which is not smaller keeps the order; if something is lost the result takes less space. *)
Lemma insert_next {K V} cmp (ek : K -> bytes) (ev : V -> bytes) (enc : K * V -> bytes) m k v (okk : K -> Prop) (okv : V -> Prop) :
  (forall k v, List.length (enc (k, v)) = (List.length (ek k) + List.length (ev v))%nat) -> nonempty ek ->
  ascends cmp m -> Forall (fun e => cmp k (fst e) <> Lt) m ->
  Forall (fun e => okk (fst e) /\ okv (snd e)) m -> okk k -> okv v ->
  let m' := om_insert cmp k v m in
  ascends cmp m' /\ Forall (fun e => okk (fst e) /\ okv (snd e)) m'
  /\ (m' = (m ++ [(k, v)])%list
      \/ (List.length m' <= List.length m /\ List.length (flat_map enc m') < List.length (flat_map enc m) + List.length (enc (k, v)))%nat)
  /\ (forall e, In e m' -> fst e = k \/ In (fst e) (map fst m)).
Proof.
  intros EL NE A B F OK OV. cbn zeta.
  destruct (om_insert_cases cmp k v m B) as [[G ->]|(m1 & k' & v' & m2 & -> & _ & ->)].
  - split; [now apply ascends_snoc|]. split; [apply Forall_app; auto|]. split; [auto|].
    intros e I. apply in_app_or in I as [I|[<-|[]]]; [right; now apply in_map|auto].
  - split; [now apply (@ascends_keys K V) with v'|]. apply Forall_app in F as [F1 F2]. inversion F2; subst. split.
    + apply Forall_app. split; auto. constructor; auto. cbn in *. tauto.
    + split.
      * right. rewrite !app_length. split; [cbn [List.length]; lia|].
        rewrite !flat_map_app, !app_length. cbn [flat_map]. rewrite !app_length, !EL. pose proof (NE k). lia.
      * intros e I. right. rewrite map_app. apply in_or_app. apply in_app_or in I as [I|[<-|I]]; [left; now apply in_map|right; now left|].
        right. right. now apply in_map.
Qed.

Lemma dec_sorted_rt {K V} (ok ok' : K * V -> Prop) enc dec cmp : codec2 ok ok' enc dec -> forall l m r,
  ascends cmp (m ++ l)%list -> Forall ok l -> dec_sorted cmp dec (List.length l) m (flat_map enc l ++ r)%list = Some ((m ++ l)%list, r).
Proof.
  intros C. induction l as [|e l IH]; intros m r A F; cbn [List.length dec_sorted flat_map].
  - now rewrite app_nil_r.
  - inversion F; subst. rewrite <- app_assoc, (proj1 C) by assumption. cbn [obind].
    assert (G : Forall (fun x => cmp (fst e) (fst x) = Gt) m).
    { clear - A. unfold ascends in A. induction m as [|x m IH]; [constructor|]. cbn in A. inversion A; subst.
      constructor; [|auto]. rewrite Forall_forall in H2. apply H2. apply in_or_app. right. now left. }
    rewrite om_insert_end by assumption. rewrite <- surjective_pairing.
    replace (m ++ e :: l)%list with ((m ++ [e]) ++ l)%list in * by (now rewrite <- app_assoc).
    destruct (last_key_cases m) as [[-> ->]|(m' & e' & -> & ->)]; [now apply IH|].
    apply Forall_app in G as [_ G]. inversion G; subst. rewrite H3. now apply IH.
Qed.

Lemma dec_sorted_can {K V} (okk0 okk : K -> Prop) (okv0 okv : V -> Prop) ek ev dk dv cmp : codec2 okk0 okk ek dk -> codec2 okv0 okv ev dv -> nonempty ek ->
  lax cmp -> forall n m b l r,
  ascends cmp m -> Forall (fun e => okk (fst e) /\ okv (snd e)) m ->
  dec_sorted cmp (dec_entry dk dv) n m b = Some (l, r) ->
  ascends cmp l /\ Forall (fun e => okk (fst e) /\ okv (snd e)) l
  /\ (List.length l = List.length m + n /\ flat_map (enc_entry ek ev) m ++ b = flat_map (enc_entry ek ev) l ++ r
      \/ List.length (flat_map (enc_entry ek ev) l) + List.length r < List.length (flat_map (enc_entry ek ev) m) + List.length b)%nat.
Proof.
  intros CK CV NE L. pose proof (codec_entry _ _ _ _ _ _ _ _ CK CV) as CE.
  induction n as [|n IH]; intros m b l r A F E; cbn [dec_sorted] in E.
  - injection E as <- <-. repeat split; auto.
  - step. destruct p as [k v]. use CE. cbn [fst snd] in *. destruct H as [OK OV].
    assert (X : match last_key m with Some k' => cmp k k' = Gt | None => True end
                /\ dec_sorted cmp (dec_entry dk dv) n (om_insert cmp k v m) b0 = Some (l, r)).
    { destruct (last_key m); [|auto]. destruct (cmp k k0); try discriminate. auto. }
    clear E. destruct X as [X E].
    destruct (insert_next cmp ek ev (enc_entry ek ev) m k v okk okv) as (A' & F' & S & _); auto.
    { intros. unfold enc_entry. cbn [fst snd]. apply app_length. }
    { now apply ascends_bound. }
    apply IH in E as (A2 & F2 & Q); auto. repeat split; auto.
    destruct S as [S|S].
    + rewrite S in Q. rewrite flat_map_app in Q. cbn [flat_map] in Q. rewrite !app_nil_r in Q.
      destruct Q as [[Q1 Q2]|Q].
      * rewrite app_length in Q1. cbn [List.length] in Q1. destruct H0 as [->|H0].
        -- left. split; [lia|]. rewrite app_assoc. exact Q2.
        -- right. apply (f_equal (@List.length _)) in Q2. rewrite !app_length in Q2. lia.
      * right. rewrite app_length in Q. destruct H0 as [->|H0]; rewrite ?app_length; lia.
    + right. destruct S as [_ S]. assert (List.length b0 + List.length (enc_entry ek ev (k, v)) <= List.length b)%nat.
      { destruct H0 as [->|H0]; rewrite ?app_length; lia. }
      destruct Q as [[_ Q]|Q]; [|lia]. apply (f_equal (@List.length _)) in Q. rewrite !app_length in Q. lia.
Qed.

Lemma codec_map {K V} (okk okk' : K -> Prop) (okv okv' : V -> Prop) ek ev dk dv cmp k min max :
  codec2 okk okk' ek dk -> codec2 okv okv' ev dv -> nonempty ek -> lax cmp -> max < 2 ^ (8 * N.of_nat k) ->
  codec2 (fun l => sized min max l /\ ascends cmp l /\ Forall (fun e => okk (fst e) /\ okv (snd e)) l)
    (fun l => sized min max l /\ ascends cmp l /\ Forall (fun e => okk' (fst e) /\ okv' (snd e)) l)
    (enc_map k ek ev) (dec_map k min max cmp dk dv).
Proof.
  intros CK CV NE L M. unfold enc_map, enc_list, dec_map, sized. split.
  - intros l r (O & A & F). rewrite <- app_assoc, (proj1 (codec_uint k)) by lia. cbn [obind].
    replace (N.to_nat (lenN l)) with (List.length l) by (unfold lenN; lia).
    rewrite (dec_sorted_rt (fun e => okk (fst e) /\ okv (snd e)) (fun e => okk' (fst e) /\ okv' (snd e))); auto; [|now apply codec_entry]. cbn [obind app].
    now rewrite (proj2 (within_iff _ _ _) O).
  - intros b l r E. repeat step. destruct (within min max (lenN l0)) eqn:W; [|discriminate]. injection E as -> ->.
    apply within_iff in W. pose proof (codec_uint k) as CU. use CU.
    apply (dec_sorted_can okk okk' okv okv' ek ev) in D0 as (A & F & Q); auto; [|constructor].
    split; [auto|]. cbn [flat_map app List.length plus] in Q. rewrite app_length. unfold enc_uint in *. rewrite le_length in *.
    destruct Q as [[Q1 ->]|Q].
    + assert (lenN l = n) as -> by (unfold lenN; lia). destruct H0 as [->|H0]; [left; now rewrite app_assoc|].
      right. rewrite app_length in H0. lia.
    + right. destruct H0 as [->|H0]; rewrite ?app_length, ?le_length; lia.
Qed.

Lemma map_fst_pair {K} (l : list K) : map fst (map (fun k => (k, tt)) l) = l.
Proof. induction l; cbn; congruence. Qed.
Lemma map_pair_fst {K} (l : list (K * unit)) : map (fun k => (k, tt)) (map fst l) = l.
Proof. induction l as [|[k []] l IH]; cbn; congruence. Qed.

Lemma codec_unit : codec (fun _ => True) (fun _ => []) dec_unit.
Proof. split; unfold dec_unit; [now intros []|]. intros b [] r E. injection E as ->. auto. Qed.

Lemma enc_set_map {K} k (ek : K -> bytes) l : enc_set k ek l = enc_map k ek (fun _ => []) (map (fun k => (k, tt)) l).
Proof.
  unfold enc_set, enc_map, enc_list. f_equal; [unfold lenN; now rewrite map_length|].
  induction l as [|x l IH]; [reflexivity|]. cbn [map flat_map]. rewrite IH. unfold enc_entry. cbn [fst]. now rewrite app_nil_r.
Qed.

Lemma ascends_set {K} cmp (l : list K) : ascends cmp (map (fun k => (k, tt)) l) <-> StronglySorted (fun a b => cmp b a = Gt) l.
Proof.
  unfold ascends. induction l as [|x l IH]; cbn; split; intros H; try constructor; inversion H; subst; try tauto.
  - rewrite Forall_map in H3. exact H3.
  - rewrite Forall_map. exact H3.
Qed.

Lemma codec_set {K} (okk : K -> Prop) ek dk cmp k min max :
  codec okk ek dk -> nonempty ek -> lax cmp -> max < 2 ^ (8 * N.of_nat k) ->
  codec (fun l => sized min max l /\ StronglySorted (fun a b => cmp b a = Gt) l /\ Forall okk l)
    (enc_set k ek) (dec_set k min max cmp dk).
Proof.
  intros CK NE L M. pose proof (codec_map okk okk (fun _ : unit => True) (fun _ => True) ek (fun _ => []) dk dec_unit cmp k min max CK codec_unit NE L M) as [R C].
  unfold dec_set. split.
  - intros l r (S & A & F). rewrite enc_set_map, R; cbn [obind]; [now rewrite map_fst_pair|]. repeat split.
    + unfold sized, lenN in *. now rewrite map_length.
    + unfold sized, lenN in *. now rewrite map_length.
    + now apply ascends_set.
    + rewrite Forall_map. eapply Forall_impl; [|exact F]. auto.
  - intros b l r E. step. injection E as <- <-. apply C in D as ((S & A & F) & Q).
    rewrite enc_set_map, map_pair_fst. split; [|exact Q]. repeat split.
    + unfold sized, lenN in *. rewrite map_length. tauto.
    + unfold sized, lenN in *. rewrite map_length. tauto.
    + apply ascends_set. now rewrite map_pair_fst.
    + rewrite Forall_map. eapply Forall_impl; [|exact F]. cbn. tauto.
Qed.

(** ** Orders *)

Lemma sorted_iff {A} (P Q : A -> A -> Prop) l : (forall a b, P a b <-> Q a b) -> StronglySorted P l <-> StronglySorted Q l.
Proof.
  intros E. induction l as [|x l IH]; split; intros H; try constructor; inversion H; subst; try tauto;
    (eapply Forall_impl; [|eassumption]); intros a; apply E.
Qed.

Lemma lax_N : lax N.compare.
Proof. intros a b c. rewrite !N.compare_gt_iff, N.compare_lt_iff. lia. Qed.
Lemma lax_dep : lax dep_cmp.
Proof. intros a b c. apply lax_N. Qed.

Lemma ascii_cmp_antisym a b : Ascii.compare a b = CompOpp (Ascii.compare b a).
Proof. unfold Ascii.compare. apply N.compare_antisym. Qed.
Lemma string_gt_lt a b : String.compare a b = Gt <-> String.compare b a = Lt.
Proof. rewrite String.compare_antisym. destruct (String.compare b a); cbn; split; congruence. Qed.
Lemma string_lt_trans a b c : String.compare a b = Lt -> String.compare b c = Lt -> String.compare a c = Lt.
Proof.
  revert b c; induction a as [|x a IH]; intros [|y b] [|z c]; cbn; try discriminate; auto. unfold Ascii.compare.
  destruct (N.compare_spec (Ascii.N_of_ascii x) (Ascii.N_of_ascii y)), (N.compare_spec (Ascii.N_of_ascii y) (Ascii.N_of_ascii z)),
    (N.compare_spec (Ascii.N_of_ascii x) (Ascii.N_of_ascii z)); try congruence; try lia; auto. intros. eapply IH; eassumption.
Qed.
Lemma lax_string : lax String.compare.
Proof.
  intros a b c. rewrite !string_gt_lt. intros X Y Z. pose proof (string_lt_trans _ _ _ X Y) as T.
  rewrite String.compare_antisym, Z in T. discriminate.
Qed.

Lemma ascends_N {V} (l : list (N * V)) : ascends N.compare l <-> increasing (by_key N.lt) l.
Proof. apply sorted_iff. intros a b. unfold by_key. apply N.compare_gt_iff. Qed.
Lemma ascends_string {V} (l : list (string * V)) : ascends String.compare l <-> increasing (by_key name_lt) l.
Proof. apply sorted_iff. intros a b. unfold by_key, name_lt. apply string_gt_lt. Qed.

(** ** Variants *)

Lemma variant_cmp_gt a b : variant_cmp b a = Gt <-> v_tag a < v_tag b /\ v_name a <> v_name b.
Proof.
  unfold variant_cmp. destruct (N.eqb_spec (v_tag b) (v_tag a)) as [E|E], (String.eqb_spec (v_name b) (v_name a)) as [E'|E']; cbn [orb].
  - split; [discriminate|]. intros [H _]. lia.
  - split; [discriminate|]. intros [H _]. lia.
  - split; [discriminate|]. intros [_ H]. now symmetry in E'.
  - rewrite N.compare_gt_iff. split; [intros H; split; [exact H|congruence]|tauto].
Qed.
Lemma lax_variant : lax variant_cmp.
Proof.
  intros a b c. rewrite !variant_cmp_gt. intros [X _] [Y _]. unfold variant_cmp.
  destruct (_ || _); [discriminate|]. rewrite N.compare_lt_iff. lia.
Qed.

Lemma variants_sorted vs : StronglySorted (fun a b => variant_cmp b a = Gt) vs
  <-> increasing (fun a b => v_tag a < v_tag b) vs /\ NoDup (map v_name vs).
Proof.
  unfold increasing. induction vs as [|v vs IH]; cbn.
  - split; [split; constructor|constructor].
  - split.
    + intros H. inversion H as [|? ? S F]; subst. apply IH in S as [S N]. split.
      * constructor; auto. eapply Forall_impl; [|exact F]. cbn. intros x G. apply variant_cmp_gt in G. tauto.
      * constructor; auto. intros I. apply in_map_iff in I as (x & E & I). rewrite Forall_forall in F.
        apply F, variant_cmp_gt in I. destruct I as [_ I]. now symmetry in E.
    + intros [S N]. inversion S; inversion N; subst. constructor; [tauto|]. rewrite Forall_forall in *. intros x I.
      apply variant_cmp_gt. split; auto. intros E. apply H5. rewrite E. now apply in_map.
Qed.

Lemma codec_variant : codec (fun v => field_name (v_name v) /\ v_tag v < 256) enc_variant dec_variant.
Proof.
  unfold enc_variant, dec_variant. pose proof codec_field_name as CN. pose proof codec_u8 as CU. split.
  - intros [n t] r [A B]. cbn [v_name v_tag] in *. rewrite <- app_assoc, (proj1 CN) by assumption. cbn [obind].
    rewrite (proj1 CU) by assumption. reflexivity.
  - intros b v r E. repeat step. injection E as <- <-. use CN. use CU. split; [auto|]. cbn [v_name v_tag]. lens.
Qed.

Lemma codec_sizing : codec sizing_ok enc_sizing dec_sizing.
Proof.
  unfold enc_sizing, dec_sizing, sizing_ok. pose proof (codec_uint 8) as CU. split.
  - intros [x y] r [A B]. cbn [s_min s_max] in *. rewrite <- app_assoc, (proj1 CU) by assumption. cbn [obind].
    rewrite (proj1 CU) by assumption. reflexivity.
  - intros b v r E. repeat step. injection E as <- <-. use CU. use CU. split; [auto|]. cbn [s_min s_max]. lens.
Qed.
