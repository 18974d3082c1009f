(** The documented guarantees of type systems: C79. *)
From Coq Require Import NArith List Bool String Strings.Byte Sorted Lia.
From Verif Require Import Base Ty Ids TypeSys Spec SpecSys SpecIds LibCodec SpecLib Build SpecBuild SpecLimits.
From Verif Require Import Sha256 TyProofs ExtractProofs BuildProofs LibCodecProofs LibCodecProofs2 PropSys PropLib PropBuild.
Import ListNotations.
Local Open Scope N_scope.

Lemma with_refs d t : ty_with d id_ok t -> lenN (refs t) <= 255.
Proof.
  destruct t as [p| |vs|vs|fs|fs|r n|r z|r z|k r z]; cbn [refs ty_with]; unfold variants_with, sized, lenN; rewrite ?map_length; cbn [List.length]; try lia.
Qed.
Lemma with_small d s : system_with d s -> small s.
Proof. intros (_ & _ & F). eapply Forall_impl; [|exact F]. intros e [_ W]. eapply with_refs; exact W. Qed.
Lemma extend_size other : forall s s', sys_extend s other = Ok s' -> lenN s <= u24_max -> lenN s' <= u24_max.
Proof.
  induction other as [|[id t] other IH]; intros s s' E L; cbn [sys_extend] in E; [now injection E as <-|].
  unfold insert_unchecked, confined_insert in E. match type of E with context [?x =? u24_max] => destruct (N.eqb_spec x u24_max) as [Q|Q] end; cbn [bind] in E; [discriminate E|].
  apply IH in E; [exact E|]. pose proof (om_insert_length_le id t s). unfold lenN in *. unfold type_system, semid in *. lia.
Qed.
Lemma subset_length (s s' : type_system) : ordered s' -> incl s' s -> lenN s' <= lenN s.
Proof.
  intros O I. assert (N : NoDup s').
  { apply (NoDup_map_inv fst). apply sorted_NoDup. now apply ordered_keys. }
  pose proof (NoDup_incl_length N I). unfold lenN. lia.
Qed.

Lemma grown_with d (given : type_system -> Prop) s : (forall s, given s -> system_with d s) -> grown given s -> system_with d s.
Proof.
  intros H. induction 1 as [s G| |s other s' _ IH1 _ IH2 E|c ids s s' _ IH R].
  - now apply H.
  - split; [split; apply N.le_0_l|]. split; constructor.
  - destruct IH1 as ([_ A1] & B1 & C1), IH2 as (_ & B2 & C2). destruct (C21_union s other s' B1 B2 E) as [O X].
    split; [split; [apply N.le_0_l|exact (extend_size other s s' E A1)]|]. split; [exact O|].
    rewrite Forall_forall in *. intros [id t] J. apply X in J as [J|[J _]]; auto.
  - destruct (C19_content c s ids s' (proj1 (proj2 IH)) (with_small _ _ IH) R) as (O & _ & _ & X). destruct IH as ([_ A] & B & C).
    assert (I : incl s' s) by (intros [id t] J; now apply X in J).
    split; [split; [apply N.le_0_l|]|split; [exact O|]].
    + etransitivity; [apply (subset_length s s' O I)|exact A].
    + rewrite Forall_forall in *. auto.
Qed.

(** Whatever is done, a type system never has more than 2^24 - 1 types, each id once, all of them well-formed (except for
    repeated names in enumerations and unions with more than eleven variants). *)
Theorem C79_types : forall s, grown (fun s => from_libs few_distinct s \/ from_data s) s ->
  few_types s /\ NoDup (map fst s) /\ system_with few_distinct s.
Proof.
  intros s G. assert (W : system_with few_distinct s).
  { eapply grown_with; [|exact G]. clear. intros s [(dbg & ls & sys & F & E & ->)|(b & [D|(sys & D & ->)])].
    - exact (proj2 (built_with few_distinct dbg ls sys F E)).
    - exact (proj1 (C32_system_partial b s D)).
    - exact (proj2 (proj1 (C32_symbolic_system_partial b sys D))). }
  split; [exact (proj2 (proj1 W))|]. split; [|exact W]. apply sorted_NoDup, ordered_keys, (proj1 (proj2 W)).
Qed.
Print Assumptions C79_types.

(** Systems which come from well-formed libraries only are well-formed, and are read back from their serialization as they
    were. *)
Theorem C79_stored : forall s, grown (from_libs distinct) s -> system_wf s /\ deserialize dec_sys (enc_sys s) = Some s.
Proof.
  intros s G. assert (W : system_wf s).
  { eapply grown_with; [|exact G]. clear. intros s (dbg & ls & sys & F & E & ->). exact (proj2 (built_with distinct dbg ls sys F E)). }
  split; [exact W|]. destruct s as [|e s].
  - reflexivity.
  - rewrite <- (app_nil_r (enc_sys _)). unfold deserialize. now rewrite (C31_system _ [] W).
Qed.
Print Assumptions C79_stored.

(** Systems grown from complete ones are complete; an extracted system is always complete (C19). *)
Lemma extend_complete s other s' : ordered s -> ordered other -> sys_extend s other = Ok s' -> complete s -> complete other -> complete s'.
Proof.
  intros O1 O2 E C1 C2. destruct (C21_union s other s' O1 O2 E) as [O X].
  assert (K : forall r, In r (map fst s) \/ In r (map fst other) -> In r (map fst s')).
  { intros r H. destruct (in_dec N.eq_dec r (map fst other)) as [J|J].
    - apply in_map_iff in J as ([k t] & <- & J). apply in_map_iff. exists (k, t). split; [reflexivity|]. apply X. now left.
    - destruct H as [H|H]; [|contradiction]. apply in_map_iff in H as ([k t] & <- & H). apply in_map_iff. exists (k, t). split; [reflexivity|].
      apply X. now right. }
  intros id t r J R. apply K. apply X in J as [J|[J _]]; [right; exact (C2 _ _ _ J R)|left; exact (C1 _ _ _ J R)].
Qed.
Theorem C79_complete : forall d (given : type_system -> Prop) s, (forall s, given s -> system_with d s /\ complete s) -> grown given s -> complete s.
Proof.
  intros d given s H G.
  assert (W : forall s, grown given s -> system_with d s) by (intros x; apply grown_with; intros y Y; now apply H).
  induction G as [s G| |s other s' G1 IH1 G2 IH2 E|c ids s s' G IH R].
  - now apply H.
  - intros id t r [].
  - apply (extend_complete s other); auto; now apply W.
  - apply W in G. now apply (C19_content c s ids s' (proj1 (proj2 G)) (with_small _ _ G)).
Qed.
Print Assumptions C79_complete.

(** From libraries each of which has all the types it refers to, or gets them from the others, only complete systems grow. *)
Theorem C79_libs_complete : forall s,
  grown (fun s => exists dbg ls sys, Forall lib_wf ls /\ build dbg ls = Ok sys /\ s = ss_types sys
           /\ forall d r, In d (libs_defs ls) -> In r (refs (def_ty d)) -> In r (map def_id (libs_defs ls))) s ->
  complete s.
Proof.
  intros s. apply (C79_complete distinct). clear. intros s (dbg & ls & sys & F & E & -> & H). split.
  - exact (proj2 (built_with distinct dbg ls sys F E)).
  - exact (C22_partial dbg ls sys E H).
Qed.
Print Assumptions C79_libs_complete.

(** A system built from two libraries, a part extracted from it, and the part extended with the whole again. *)
Example C79_case : exists s0 id s1 s2, from_libs distinct s0 /\ In id (map fst s0)
  /\ returns (fun fuel => extract fuel (mkConfig false 1000) s0 [id]) (Ok s1) /\ In id (map fst s1)
  /\ sys_extend s1 s0 = Ok s2 /\ lenN s0 = 6 /\ complete s2 /\ few_types s2 /\ deserialize dec_sys (enc_sys s2) = Some s2.
Proof.
  destruct C46_case as [F _]. destruct ex_libs_build as (s & E & L).
  assert (G : from_libs distinct (ss_types s)) by (exists true, ex_libs, s; auto).
  pose proof (C22_partial _ _ _ E C22_case) as C. pose proof (proj2 (built_with distinct _ _ _ F E)) as W.
  clear E F. generalize dependent (ss_types s). intros s0 L G C W. destruct s0 as [|[id t] s0'] eqn:Q; [discriminate|]. rewrite <- Q in *.
  assert (I : In id (map fst s0)) by (rewrite Q; now left). clear Q. pose proof (proj1 (proj2 W)) as O. pose proof (with_small _ _ W) as S.
  assert (R : forall i, reachable s0 [id] i -> exists t, In (i, t) s0 /\ lenN (refs t) <= 255).
  { assert (R : forall i, reachable s0 [id] i -> In i (map fst s0)).
    { induction 1 as [i [<-|[]]|i u r R IH T J]; [exact I|]. exact (C _ _ _ T J). }
    intros i H. apply R in H. apply in_map_iff in H as ([k u] & <- & H). exists u. split; [exact H|].
    unfold small in S. rewrite Forall_forall in S. exact (S _ H). }
  destruct (proj2 (C19_exact (mkConfig false 1000) s0 [id] O S) R) as [s1 E1].
  destruct (C19_content _ _ _ _ O S E1) as (O1 & C1 & K1 & X1).
  assert (L1 : lenN s1 <= lenN s0) by (apply subset_length; [exact O1|intros [k u] J; now apply X1 in J]).
  destruct (C21_fits s1 s0) as [s2 E2]; [rewrite L in L1 |- *; unfold u24_max; lia|].
  assert (G1 : grown (from_libs distinct) s1) by (eapply Gr_extract; [apply Gr_given; exact G|exact E1]).
  assert (G2 : grown (from_libs distinct) s2) by (eapply Gr_extend; [exact G1|apply Gr_given; exact G|exact E2]).
  destruct (C79_stored s2 G2) as [W2 D2].
  exists s0, id, s1, s2. split; [exact G|]. split; [exact I|]. split; [exact E1|]. split; [apply K1; constructor; now left|].
  split; [exact E2|]. split; [exact L|]. split; [exact (extend_complete s1 s0 s2 O1 O E2 C1 C)|]. split; [exact (proj2 (proj1 W2))|exact D2].
Qed.

(** ** The size is not limited *)

Definition numbers (from : N) (n : nat) : type_system := map (fun k => (from + N.of_nat k, TPrim P_U8)) (seq 0 n).
Lemma numbers_In from n e : In e (numbers from n) <-> exists k, (k < n)%nat /\ e = (from + N.of_nat k, TPrim P_U8).
Proof.
  unfold numbers. rewrite in_map_iff. split.
  - intros (k & <- & I). apply in_seq in I. exists k. split; [lia|reflexivity].
  - intros (k & L & ->). exists k. split; [reflexivity|]. apply in_seq. lia.
Qed.
Lemma numbers_ordered from n : ordered (numbers from n).
Proof.
  unfold numbers, ordered. generalize 0%nat. induction n as [|n IH]; intros a; cbn [seq map]; constructor; [apply IH|].
  rewrite Forall_map, Forall_forall. intros k I. apply in_seq in I. cbn [fst]. lia.
Qed.
Lemma numbers_len from n : lenN (numbers from n) = N.of_nat n.
Proof. unfold numbers, lenN. now rewrite map_length, seq_length. Qed.
Lemma numbers_wf from n : N.of_nat n <= u24_max -> from + N.of_nat n < 2 ^ 256 -> system_wf (numbers from n).
Proof.
  intros L B. split; [|split].
  - split; [apply N.le_0_l|]. rewrite numbers_len. exact L.
  - exact (numbers_ordered from n).
  - rewrite Forall_forall. intros e I. apply numbers_In in I as (k & K & ->). cbn [fst snd ty_with]. split; [|reflexivity].
    unfold id_ok. lia.
Qed.
Lemma flat_length {A} (f : A -> bytes) n l : (forall a, In a l -> lenN (f a) = n) -> lenN (flat_map f l) = n * lenN l.
Proof.
  induction l as [|a l IH]; intros H; cbn [flat_map]; [unfold lenN; cbn; lia|].
  pose proof (H a (or_introl eq_refl)) as A1. pose proof (IH (fun b I => H b (or_intror I))) as A2.
  unfold lenN in *. rewrite app_length. cbn [List.length]. lia.
Qed.
(** Each entry takes 32 bytes of its id, and two of the type; the number of the entries takes three. *)
Lemma numbers_size (s : type_system) : (forall e, In e s -> snd e = TPrim P_U8) -> lenN (enc_sys s) = 3 + 34 * lenN s.
Proof.
  intros H. unfold enc_sys, enc_map, enc_list.
  assert (A : lenN (enc_uint 3 (lenN s)) = 3) by (unfold enc_uint, lenN; now rewrite le_length).
  assert (B : lenN (flat_map (enc_entry enc_id (enc_ty enc_id)) s) = 34 * lenN s).
  { apply flat_length. intros [id t] I. apply H in I. cbn [snd] in I. subst t. unfold enc_entry, enc_id, id_bytes, lenN. cbn [fst snd enc_ty].
    rewrite app_length, be_length. unfold enc_uint. cbn [List.length]. rewrite le_length. reflexivity. }
  unfold lenN, type_system, semid in *. rewrite app_length. lia.
Qed.

(** Two complete systems, each read from less than 2^24 bytes, are joined to one whose serialization is longer. *)
Theorem C79_refuted : exists b b' s other s', lenN b < 2 ^ 24 /\ lenN b' < 2 ^ 24
  /\ deserialize dec_sys b = Some s /\ deserialize dec_sys b' = Some other /\ complete s /\ complete other
  /\ sys_extend s other = Ok s' /\ ~ short s'.
Proof.
  assert (Hn : exists n, N.of_nat n = 300000) by (exists (N.to_nat 300000); apply N2Nat.id). destruct Hn as [n NE].
  set (s := numbers 1 n). set (o := numbers 300001 n).
  assert (W1 : system_wf s) by (apply numbers_wf; rewrite NE; [unfold u24_max; lia|reflexivity]).
  assert (W2 : system_wf o) by (apply numbers_wf; rewrite NE; [unfold u24_max; lia|reflexivity]).
  assert (L1 : lenN s = 300000) by (unfold s; rewrite numbers_len; exact NE).
  assert (L2 : lenN o = 300000) by (unfold o; rewrite numbers_len; exact NE).
  assert (T1 : forall e, In e s -> snd e = TPrim P_U8) by (intros e I; apply numbers_In in I as (k & _ & ->); reflexivity).
  assert (T2 : forall e, In e o -> snd e = TPrim P_U8) by (intros e I; apply numbers_In in I as (k & _ & ->); reflexivity).
  destruct (C21_fits s o) as [s' E]; [rewrite L1, L2; unfold u24_max; lia|].
  destruct (C21_union s o s' (proj1 (proj2 W1)) (proj1 (proj2 W2)) E) as [O X].
  assert (L : lenN s' = 600000).
  { assert (Q : s' = numbers 1 (n + n)); [|rewrite Q, numbers_len; lia].
    apply ordered_ext; [exact O|apply numbers_ordered|]. intros [id t]. rewrite X. unfold s, o. rewrite !numbers_In. split.
    - intros [(k & K & Q)|[(k & K & Q) _]]; apply pair_equal_spec in Q as [-> ->]; [exists (n + k)%nat|exists k]; (split; [lia|]);
        apply pair_equal_spec; (split; [lia|reflexivity]).
    - intros (k & K & Q). apply pair_equal_spec in Q as [-> ->]. destruct (Compare_dec.le_lt_dec n k) as [G|G].
      2: { right. split; [exists k; auto|]. intros J. apply in_map_iff in J as (e & Q & J). apply numbers_In in J as (j & _ & ->). cbn [fst] in Q. lia. }
      left. exists (k - n)%nat. split; [lia|]. apply pair_equal_spec. split; [lia|reflexivity]. }
  assert (P : forall x, system_wf x -> deserialize dec_sys (enc_sys x) = Some x) by (intros x W; unfold deserialize; rewrite <- (app_nil_r (enc_sys x)); now rewrite (C31_system _ [] W)).
  exists (enc_sys s), (enc_sys o), s, o, s'.
  split; [rewrite (numbers_size s T1), L1; reflexivity|]. split; [rewrite (numbers_size o T2), L2; reflexivity|].
  split; [now apply P|]. split; [now apply P|].
  split; [intros id t r I J; apply T1 in I; cbn [snd] in I; subst t; destruct J|].
  split; [intros id t r I J; apply T2 in I; cbn [snd] in I; subst t; destruct J|]. split; [exact E|].
  unfold short. rewrite numbers_size, L; [|intros e I; destruct e as [id t]; apply X in I as [I|[I _]]; [now apply T2 in I|now apply T1 in I]].
  intros H. discriminate H.
Qed.
Print Assumptions C79_refuted.
