(** Proofs about whole libraries: compilation and the symbolic form. *)
From Coq Require Import NArith Arith List Bool String Sorted Lia.
From Verif Require Import Base Sha256 Ty Ids TypeSys LibCodec Build Spec SpecLib LibCodecProofs BuildProofs MapLemmas Compile SpecCompile CompileProofs CompileProofs2.
Import ListNotations.
Local Open Scope N_scope.
Local Opaque sem_id_named.

Lemma compile_ok fuel dbg s l : lib_ordered s -> compile fuel dbg s = Ok l ->
  lib_compiled s l /\ lib_acyclic s /\ incl (l_deps l) (y_deps s) /\ finished (y_types s) (l_types l)
  /\ 1 <= lenN (l_types l) <= u16_max.
Proof.
  intros [SY SD] C. unfold compile in C.
  pose proof (loop_result (y_types s) dbg (map fst (y_types s)) SY fuel _ (inv_start _ SY)) as R.
  destruct (compile_loop fuel dbg (map fst (y_types s)) _) as [new|e| |]; cbn [bind] in C; try discriminate C.
  pose proof (used_deps_ok (y_deps s) SD (map fst (y_extern s)) [] ltac:(constructor) ltac:(intros x [])) as U.
  destruct (used_deps (map fst (y_extern s)) (y_deps s) []) as [deps|e| |]; cbn [bind] in C; try discriminate C.
  destruct ((1 <=? lenN new) && (lenN new <=? u16_max) && (lenN deps <=? u8_max)) eqn:B; try discriminate C.
  injection C as <-. cbn. apply andb_true_iff in B as [B _]. apply andb_true_iff in B as [B1 B2].
  apply N.leb_le in B1, B2.
  destruct (finished_types _ _ SY R) as [SN F]. destruct U as (A & I & D).
  split; [|split; [|split; [exact I|split; [exact R|lia]]]].
  - split; [reflexivity|]. split; [reflexivity|]. split; [exact A|]. split; [|exact F].
    intros d. rewrite D. cbn. tauto.
  - destruct R as (p & V & O & ->). destruct (inv_rank _ _ V) as (rank & b & _ & R). exists rank. intros n m U.
    destruct U as (t & r & J & K & M).
    assert (DN : done p n).
    { destruct (in_dec string_dec n (map fst (pr_new p))) as [X|X]; [exact X|].
      assert (Y : In (n, t) (pr_old p)) by (apply (inv_old _ _ V); auto). rewrite O in Y. destruct Y. }
    apply (R n m DN). exists t, r. auto.
Qed.

Lemma compiled_keys s l : lib_compiled s l -> map fst (l_types l) = map fst (y_types s).
Proof. intros (_ & _ & _ & _ & F). induction F as [|a b la lb [E _] F IH]; cbn; congruence. Qed.

Lemma compiled_type s l n t : lib_compiled s l -> In (n, t) (y_types s) ->
  exists t', In (n, t') (l_types l) /\ ty_related (libref_compiled (named_in l)) t t'.
Proof.
  intros (_ & _ & _ & _ & F) I. destruct (Forall2_In_l _ _ _ _ F I) as ([n' t'] & J & E & T). cbn in *. subst n'. eauto.
Qed.

Lemma compiled_resolvable s l : lib_compiled s l -> lib_resolvable s.
Proof.
  intros C n m (t & r & I & J & M). destruct (compiled_type _ _ _ _ C I) as (t' & K & T).
  apply ty_related_refs in T. destruct (Forall2_In_l _ _ _ _ T J) as (r' & _ & R).
  destruct (libref_mentions _ _ _ _ R M) as (id & u & X & _). rewrite <- (compiled_keys _ _ C). now apply (in_map fst) in X.
Qed.
Lemma compiled_nested s l : lib_compiled s l -> lib_nested s.
Proof.
  intros C. apply Forall_forall. intros [n t] I. destruct (compiled_type _ _ _ _ C I) as (t' & K & T). cbn [snd].
  eapply ty_nested; [|exact T]. intros r r'. apply libref_nested.
Qed.

Lemma compiled_unique s l l' : lib_ordered s -> lib_acyclic s -> lib_compiled s l -> lib_compiled s l' -> l = l'.
Proof.
  intros [SY SD] (rank & R) C C'.
  assert (ND : NoDup (map fst (y_types s))) by now apply (msorted_NoDup _ string_lawful).
  assert (ND1 : NoDup (map fst (l_types l))) by now rewrite (compiled_keys _ _ C).
  assert (ND2 : NoDup (map fst (l_types l'))) by now rewrite (compiled_keys _ _ C').
  assert (FUN : forall A (m : list (string * A)) n a b, NoDup (map fst m) -> In (n, a) m -> In (n, b) m -> a = b).
  { intros A m n a b. induction m as [|[k v] m IH]; cbn; [intros _ []|]. intros N I J. inversion N as [|? ? NI N']; subst.
    destruct I as [[= -> ->]|I], J as [[= Q]|J]; auto; try congruence.
    - exfalso. apply NI. now apply (in_map fst) in J.
    - exfalso. apply NI. apply (in_map fst) in I. cbn in I. subst. exact I. }
  assert (EQ : forall k n t a b, (rank n < k)%nat -> In (n, t) (y_types s) -> In (n, a) (l_types l) -> In (n, b) (l_types l') -> a = b).
  { induction k as [|k IH]; intros n t a b L I A B; [lia|].
    destruct (compiled_type _ _ _ _ C I) as (a' & A' & TA). destruct (compiled_type _ _ _ _ C' I) as (b' & B' & TB).
    rewrite (FUN _ _ _ _ _ ND1 A A'), (FUN _ _ _ _ _ ND2 B B').
    eapply ty_related_fun; [|exact TA|exact TB]. intros r x y J. apply libref_fun.
    intros m i j M (u & Iu & ->) (v & Iv & ->).
    assert (U : uses s n m) by (exists t, r; auto).
    pose proof (compiled_resolvable _ _ C _ _ U) as K. apply in_map_iff in K as ([m' w] & E & K). cbn in E. subst m'.
    rewrite (IH m w u v); auto. apply R in U. lia. }
  destruct C as (N & E & DS & D & F), C' as (N' & E' & DS' & D' & F').
  assert (T : l_types l = l_types l').
  { eapply Forall2_fun; [|exact F|exact F']. intros [n t] [n1 a] [n2 b] I. cbn. intros [<- TA] [<- TB]. f_equal.
    pose proof (Forall2_In_l _ _ _ _ F I) as ([k a'] & A' & Ea & TA'). pose proof (Forall2_In_l _ _ _ _ F' I) as ([k' b'] & B' & Eb & TB').
    cbn in Ea, Eb. subst k k'. cbn in TA', TB'.
    assert (AB : a' = b') by (eapply (EQ (S (rank n))); eauto). subst b'.
    assert (NM : forall m i j r, In r (refs t) -> mentions r m -> named_in l m i -> named_in l' m j -> i = j).
    { intros m i j r J M (u & Iu & ->) (v & Iv & ->).
      assert (U : uses s n m) by (exists t, r; auto).
      assert (K : In m (map fst (y_types s))).
      { apply (compiled_resolvable s l) with (n := n); [|exact U]. repeat split; auto; apply D. }
      apply in_map_iff in K as ([m' w] & Em & K). cbn in Em. subst m'. rewrite (EQ (S (rank m)) m w u v); auto. }
    eapply ty_related_fun; [|exact TA|exact TB]. intros r x y J. apply libref_fun.
    intros m i j M X Y. eapply NM; eauto. }
  destruct l, l'; cbn in *. f_equal; try congruence. apply dsorted_eq; auto. intros d. rewrite D, D'. reflexivity.
Qed.

(** ** Termination *)

Lemma Forall2_length {A B} (P : A -> B -> Prop) l l' : Forall2 P l l' -> List.length l = List.length l'.
Proof. induction 1; cbn; congruence. Qed.


Lemma compile_returns (dbg : bool) s : lib_ordered s -> lib_acyclic s -> lib_resolvable s ->
  1 <= lenN (y_types s) <= u16_max -> lenN (y_deps s) <= u8_max ->
  exists o, returns (fun fuel => compile fuel dbg s) o
    /\ gives (fun _ => True) (fun e => match e with
         | Continue => False
         | NestedInline n _ _ => exists t r, In (n, t) (y_types s) /\ In r (refs t) /\ ~ nested 3 r
         | UnknownLib lib => In lib (map fst (y_extern s)) /\ lib <> "_"%string /\ forall d, In d (y_deps s) -> d_name d <> lib end) o.
Proof.
  intros [SY SD] (rank & R) S LT LD.
  destruct (loop_returns (y_types s) dbg (map fst (y_types s)) rank SY R S ltac:(auto)
              (List.length (y_types s)) _ (inv_start _ SY) ltac:(cbn; lia)) as (o & F & G).
  pose proof (used_deps_ok (y_deps s) SD (map fst (y_extern s)) [] ltac:(constructor) ltac:(intros x [])) as U.
  destruct o as [new|e| |]; cbn in G; try contradiction.
  - destruct (finished_types _ _ SY G) as [SN FN].
    assert (LN : lenN new = lenN (y_types s)).
    { unfold lenN. f_equal. symmetry. eapply Forall2_length; exact FN. }
    destruct (used_deps (map fst (y_extern s)) (y_deps s) []) as [deps|e| |] eqn:UE; try contradiction.
    + exists (Ok (mkLib (y_name s) deps (y_extern s) new)). split; [|exact Logic.I].
      exists (List.length (y_types s)). intros fuel LF. unfold compile. rewrite (F fuel LF), UE. cbn [bind].
      destruct U as (DS & I & _).
      assert (LE : lenN deps <= u8_max).
      { assert (X : (List.length deps <= List.length (y_deps s))%nat).
        { apply NoDup_incl_length; [|exact I]. apply (NoDup_map_inv d_id). now apply dsorted_NoDup. }
        unfold lenN in *. lia. }
      rewrite LN. rewrite (proj2 (N.leb_le _ _)) by lia. rewrite (proj2 (N.leb_le _ _)) by lia.
      rewrite (proj2 (N.leb_le _ _)) by lia. reflexivity.
    + destruct U as (lib & -> & U). exists (Err (UnknownLib lib)). split; [|cbn; tauto].
      exists (List.length (y_types s)). intros fuel LF. unfold compile. rewrite (F fuel LF), UE. reflexivity.
  - exists (Err e). split.
    + exists (List.length (y_types s)). intros fuel LF. unfold compile. rewrite (F fuel LF). reflexivity.
    + destruct G as (n & path & inner & t & r & -> & I & J & N). cbn. eauto.
Qed.

Lemma compile_total (dbg : bool) s : lib_ordered s -> lib_acyclic s -> lib_resolvable s -> lib_nested s -> lib_known s ->
  1 <= lenN (y_types s) <= u16_max -> lenN (y_deps s) <= u8_max ->
  exists l, returns (fun fuel => compile fuel dbg s) (Ok l).
Proof.
  intros O A R N K LT LD. destruct (compile_returns dbg s O A R LT LD) as (o & F & G).
  destruct o as [l|[|top path inner|lib]| |]; cbn in G; try contradiction; [eauto| |].
  { destruct G as (t & r & I & J & X). unfold lib_nested in N. rewrite Forall_forall in N. apply N in I. rewrite Forall_forall in I. now apply I in J. }
  destruct G as (I & NE & X). destruct (K _ I NE) as (d & J & E). now apply X in J.
Qed.

(** The errors of any run. *)
Lemma compile_err fuel (dbg : bool) s e : lib_ordered s -> compile fuel dbg s = Err e ->
  match e with
  | Continue => False
  | NestedInline n _ _ => exists t r, In (n, t) (y_types s) /\ In r (refs t) /\ ~ nested 3 r
  | UnknownLib lib => In lib (map fst (y_extern s)) /\ lib <> "_"%string /\ forall d, In d (y_deps s) -> d_name d <> lib
  end.
Proof.
  intros [SY SD] C. unfold compile in C.
  pose proof (loop_result (y_types s) dbg (map fst (y_types s)) SY fuel _ (inv_start _ SY)) as R.
  destruct (compile_loop fuel dbg (map fst (y_types s)) _) as [new|x| |]; cbn [bind] in C; try discriminate C.
  - pose proof (used_deps_ok (y_deps s) SD (map fst (y_extern s)) [] ltac:(constructor) ltac:(intros x [])) as U.
    destruct (used_deps (map fst (y_extern s)) (y_deps s) []) as [deps|x| |]; cbn [bind] in C; try discriminate C.
    + destruct ((1 <=? lenN new) && (lenN new <=? u16_max) && (lenN deps <=? u8_max)); discriminate C.
    + injection C as <-. destruct U as (lib & -> & U). exact U.
  - injection C as <-. destruct R as (n & path & inner & t & r & -> & I & J & N). eauto.
Qed.

Lemma compile_known fuel dbg s l : dsorted (y_deps s) -> compile fuel dbg s = Ok l -> lib_known s.
Proof.
  intros SD C lib I NE.
  unfold compile in C. destruct (compile_loop fuel dbg _ _) as [new|?| |]; cbn [bind] in C; try discriminate C.
  destruct (used_deps (map fst (y_extern s)) (y_deps s) []) as [deps|?| |] eqn:UE; cbn [bind] in C; try discriminate C.
  clear C.
  assert (KNOWN : forall libs used r, used_deps libs (y_deps s) used = Ok r -> incl used (y_deps s) -> In lib libs -> exists d, In d (y_deps s) /\ d_name d = lib).
  { induction libs as [|x libs IH]; intros used r; cbn [used_deps]; [intros _ _ []|].
    unfold LIB_EMBEDDED. destruct (String.eqb_spec x "_") as [->|NX].
    - intros H IU [<-|K]; [congruence|]. eapply IH; eauto.
    - destruct (find (fun d => (d_name d =? x)%string) (y_deps s)) as [d|] eqn:FD.
      + intros H IU [<-|K].
        * apply find_some in FD as [ID' ED]. apply String.eqb_eq in ED. eauto.
        * eapply IH; eauto. apply find_some in FD as [ID' _]. intros z Z.
          revert Z. clear - IU ID'. revert IU. induction used as [|y used IHu]; cbn.
          -- intros _ [<-|[]]. exact ID'.
          -- unfold dep_cmp at 1. destruct (d_id d ?= d_id y); cbn; intros IU Z; try (apply IU; exact Z).
             ++ destruct Z as [<-|Z]; [exact ID'|apply IU; exact Z].
             ++ destruct Z as [<-|Z]; [apply IU; now left|]. apply IHu; auto. intros w W. apply IU. now right.
      + destruct (existsb _ used) eqn:XB; [|discriminate]. intros H IU [<-|K]; [|eapply IH; eauto].
        apply existsb_exists in XB as (d & Z & ED). apply String.eqb_eq in ED. eauto. }
  exact (KNOWN _ _ _ UE ltac:(intros x []) I).
Qed.

(** ** Symbolic form *)

Lemma remove_insert {V} n (v : V) m : msorted String.compare m -> om_get String.compare n m = Some v ->
  om_insert String.compare n v (map_remove n m) = m.
Proof.
  intros SM G. apply (msorted_eq _ string_lawful).
  - apply (mins_sorted _ string_lawful). now apply msorted_filter.
  - exact SM.
  - intros k u. rewrite <- !(mget_In _ string_lawful); [|exact SM|apply (mins_sorted _ string_lawful); now apply msorted_filter].
    rewrite (mget_ins _ string_lawful) by now apply msorted_filter.
    destruct (String.compare k n) eqn:C.
    + apply (law_eq _ string_lawful) in C as ->. now rewrite G.
    + rewrite !(mget_In _ string_lawful) by (try exact SM; now apply msorted_filter).
      unfold map_remove. rewrite filter_In. cbn. destruct (String.eqb_spec k n) as [->|NE]; cbn; [|tauto].
      exfalso. now apply (cmp_irrefl _ string_lawful) in C.
    + rewrite !(mget_In _ string_lawful) by (try exact SM; now apply msorted_filter).
      unfold map_remove. rewrite filter_In. cbn. destruct (String.eqb_spec k n) as [->|NE]; cbn; [|tauto].
      rewrite (cmp_refl _ string_lawful) in C. discriminate C.
Qed.

(** Success leaves the state and gives a reference which compiles to the source. *)
Definition back {A} (b : extern_types) (rel : tref -> A -> Prop) (f : A -> extern_types -> outcome symbol_error tref * extern_types) : Prop :=
  forall r t b', f r b = (Ok t, b') -> b' = b /\ rel t r.

Lemma map_state_back {E S A B} (f : A -> S -> outcome E B * S) (s : S) (rel : B -> A -> Prop) l :
  (forall a b s', In a l -> f a s = (Ok b, s') -> s' = s /\ rel b a) ->
  forall bs s', map_state f l s = (Ok bs, s') -> s' = s /\ Forall2 rel bs l.
Proof.
  induction l as [|a l IH]; intros H bs s'; cbn [map_state].
  - intros [= <- <-]. split; [reflexivity|constructor].
  - destruct (f a s) as [[b|e| |] s1] eqn:Q; try discriminate. destruct (H a b s1 (or_introl eq_refl) Q) as [-> R].
    destruct (map_state f l s) as [[bs'|e| |] s2] eqn:Q2; try discriminate.
    destruct (IH (fun a b s' I => H a b s' (or_intror I)) _ _ eq_refl) as [-> F].
    intros [= <- <-]. split; [reflexivity|now constructor].
Qed.
Lemma map_fst_back {E S A B} (g : A -> B) (x : outcome E A * S) (b : B) s' :
  map_fst g x = (Ok b, s') -> exists a, x = (Ok a, s') /\ b = g a.
Proof. destruct x as [[a|e| |] s]; cbn; try discriminate. intros [= <- <-]. eauto. Qed.

Lemma translate_back {A} b (rel : tref -> A -> Prop) f : back b rel f ->
  forall (t : ty A) (t' : ty tref) b', translate_ty f t b = (Ok t', b') -> b' = b /\ ty_related rel t' t.
Proof.
  intros H t t' b' Q. destruct t; cbn [translate_ty] in Q.
  - injection Q as <- <-. cbn. auto.
  - injection Q as <- <-. cbn. auto.
  - injection Q as <- <-. cbn. auto.
  - apply map_fst_back in Q as (x & Q & ->).
    apply (map_state_back _ b (fun y a => fst y = fst a /\ rel (snd y) (snd a))) in Q as [-> F]; [cbn; auto|].
    intros [v r] [v' r'] s' _ Q'. apply map_fst_back in Q' as (y & Q' & [= -> ->]). apply H in Q' as [-> R]. cbn. auto.
  - apply map_fst_back in Q as (x & Q & ->).
    apply (map_state_back _ b rel) in Q as [-> F]; [cbn; auto|].
    intros r r' s' _ Q'. apply H in Q'. exact Q'.
  - apply map_fst_back in Q as (x & Q & ->).
    apply (map_state_back _ b (fun y a => fst y = fst a /\ rel (snd y) (snd a))) in Q as [-> F]; [cbn; auto|].
    intros [v r] [v' r'] s' _ Q'. apply map_fst_back in Q' as (y & Q' & [= -> ->]). apply H in Q' as [-> R]. cbn. auto.
  - apply map_fst_back in Q as (x & Q & ->). apply H in Q as [-> R]. cbn. auto.
  - apply map_fst_back in Q as (x & Q & ->). apply H in Q as [-> R]. cbn. auto.
  - apply map_fst_back in Q as (x & Q & ->). apply H in Q as [-> R]. cbn. auto.
  - destruct (f k b) as [[k'|e| |] s1] eqn:Qk; try discriminate Q. apply H in Qk as [-> Rk].
    apply map_fst_back in Q as (x & Q & ->). apply H in Q as [-> R]. cbn. auto.
Qed.

Section Back.
Context (ctx : symbol_context) (b : extern_types) (names : string -> semid -> Prop).
Hypothesis NAMES : forall id n, om_get N.compare id (sc_reverse ctx) = Some n -> names n id.
Hypothesis SB : msorted String.compare b.
Hypothesis SBI : Forall (fun e => msorted N.compare (snd e)) b.

Lemma external_back e t b' : symbol_external ctx e b = (Ok t, b') ->
  b' = b /\ exists lib name, t = TrExtern (mkSymRef lib name (er_lib e) (er_id e)).
Proof.
  unfold symbol_external. destruct (om_get N.compare (er_lib e) (sc_libs ctx)) as [lib|]; [|discriminate].
  destruct (om_get String.compare lib b) as [index|] eqn:G; [|discriminate].
  destruct (om_get N.compare (er_id e) index) as [name|] eqn:G'; [|discriminate].
  assert (SI : msorted N.compare index).
  { apply (mget_In _ string_lawful) in G; [|exact SB]. rewrite Forall_forall in SBI. now apply SBI in G. }
  unfold confined_insert.
  match goal with |- context [if ?c then Err Oversize else _] => destruct c end; [intros X; discriminate X|].
  rewrite (mins_same _ N_lawful) by assumption.
  match goal with |- context [if ?c then Err Oversize else _] => destruct c end; [intros X; discriminate X|].
  intros [= <- <-]. split; [now apply remove_insert|eauto].
Qed.
Lemma gref_back {I} (emb : I -> extern_types -> outcome symbol_error tref * extern_types) (inner : ty tref -> I -> Prop) :
  (forall i t b', emb i b = (Ok t, b') -> b' = b /\ exists u, t = TrEmbedded u /\ inner u i) ->
  back b (ref_compiled names inner) (symbol_gref ctx emb).
Proof.
  intros H r t b' Q. destruct r as [i|id|e]; cbn in Q.
  - apply H in Q as (-> & u & -> & R). auto.
  - unfold symbol_named in Q. destruct (om_get N.compare id (sc_reverse ctx)) as [n|] eqn:G; [|discriminate Q].
    injection Q as <- <-. split; [reflexivity|]. cbn. now apply NAMES.
  - apply external_back in Q as (-> & lib & name & ->). cbn. auto.
Qed.
Lemma embedded_back {A} (f : A -> extern_types -> outcome symbol_error tref * extern_types) (rel : tref -> A -> Prop) :
  back b rel f -> forall i t b', symbol_embedded f i b = (Ok t, b') -> b' = b /\ exists u, t = TrEmbedded u /\ ty_related rel u i.
Proof.
  intros H i t b' Q. unfold symbol_embedded in Q. apply map_fst_back in Q as (u & Q & ->).
  apply (translate_back _ _ _ H) in Q as [-> R]. eauto.
Qed.
Lemma libref_back : back b (libref_compiled names) (symbol_libref ctx).
Proof.
  apply gref_back, embedded_back, gref_back, embedded_back, gref_back, embedded_back, gref_back.
  intros [].
Qed.
End Back.

Lemma reverse_index (types : list (string * ty lib_ref)) : forall m,
  msorted N.compare m -> forall id n,
  om_get N.compare id (fold_left (fun m nt => om_insert N.compare (lib_type_id nt) (fst nt) m) types m) = Some n ->
  om_get N.compare id m = Some n \/ exists t, In (n, t) types /\ id = lib_type_id (n, t).
Proof.
  induction types as [|[k u] types IH]; intros m SM id n; cbn [fold_left]; [auto|].
  intros G. apply IH in G; [|now apply (mins_sorted _ N_lawful)].
  destruct G as [G|(t & I & ->)]; [|right; exists t; cbn; auto].
  rewrite (mget_ins _ N_lawful) in G by exact SM. cbn [fst] in G.
  destruct (N.compare id (lib_type_id (k, u))) eqn:C; auto.
  apply N.compare_eq in C. injection G as ->. right. exists u. cbn. auto.
Qed.

Lemma to_symbolic_back l s : increasing (by_key name_lt) (l_extern l) ->
  Forall (fun e => increasing (by_key N.lt) (snd e)) (l_extern l) -> to_symbolic l = Ok s ->
  y_name s = l_name l /\ y_deps s = l_deps l /\ y_extern s = l_extern l
  /\ Forall2 (fun a b => fst a = fst b /\ ty_related (libref_compiled (named_in l)) (snd a) (snd b)) (y_types s) (l_types l).
Proof.
  intros SE SI Q. unfold to_symbolic in Q.
  match type of Q with match ?x with _ => _ end = _ => destruct x as [[types|e| |] ext] eqn:M end; try discriminate Q.
  injection Q as <-. cbn.
  apply (map_state_back _ _ (fun y a => fst y = fst a /\ ty_related (libref_compiled (named_in l)) (snd y) (snd a))) in M as [-> F]; [auto|].
  intros [n t] [n' t'] s' I Q. apply map_fst_back in Q as (u & Q & [= -> ->]). cbn in *.
  eapply translate_back in Q; [|apply libref_back].
  - destruct Q as [-> T]. split; [reflexivity|]. split; [reflexivity|]. exact T.
  - intros id m G. cbn in G. apply reverse_index in G; [|constructor]. cbn in G.
    destruct G as [G|(w & J & ->)]; [discriminate G|]. exists w. auto.
  - exact SE.
  - eapply Forall_impl; [|exact SI]. intros e X. exact X.
Qed.

Lemma first_fun {A} (P : A -> Prop) l x y : first P l x -> first P l y -> x = y.
Proof.
  intros (a & b & -> & Px & Na) (a' & b' & E & Py & Na'). revert a' E Na'. induction Na as [|z a Nz Na IH]; intros a' E Na'.
  - destruct Na' as [|z' a' Nz' Na']; cbn in E; injection E; intros; subst; [reflexivity|contradiction].
  - destruct Na' as [|z' a' Nz' Na']; cbn in E; injection E; intros; subst; [contradiction|]. eapply IH; eauto.
Qed.
Lemma first_exists {A} (P : A -> Prop) l x : (forall a, P a \/ ~ P a) -> In x l -> P x -> exists y, first P l y.
Proof.
  intros D. induction l as [|z l IH]; intros []; intros Px.
  - subst z. exists x, [], l. repeat split; auto.
  - destruct (D z) as [Pz|Nz]; [exists z, [], l; repeat split; auto|].
    destruct IH as (y & a & b & -> & Py & N); auto. exists y, (z :: a), b. repeat split; auto.
Qed.

(** The two directions together, for libraries where different types have different ids. *)
Lemma symbolic_compiles fuel dbg s l s' : lib_ordered s -> lenN (y_deps s) <= u8_max ->
  increasing (by_key name_lt) (y_extern s) -> Forall (fun e => increasing (by_key N.lt) (snd e)) (y_extern s) ->
  compile fuel dbg s = Ok l -> to_symbolic l = Ok s' -> ~ ids_collide l ->
  forall dbg', returns (fun fuel => compile fuel dbg' s') (Ok l).
Proof.
  intros O LD SE SI C Q NC dbg'. pose proof O as [SY SD].
  destruct (compile_ok _ _ _ _ O C) as (CL & (rank & R) & ID & FN & LT).
  pose proof (compiled_keys _ _ CL) as KE.
  pose proof CL as (N & E & DS & D & F).
  rewrite <- E in SE, SI. destruct (to_symbolic_back _ _ SE SI Q) as (N' & D' & E' & F').
  assert (KE' : map fst (y_types s') = map fst (y_types s)).
  { rewrite <- KE. clear - F'. induction F' as [|a b la lb [X _] F IH]; cbn; congruence. }
  assert (INJ : forall a b id, named_in l a id -> named_in l b id -> a = b).
  { intros a b id (t & I & ->) (u & J & X). destruct (string_dec a b) as [Y|Y]; [exact Y|]. exfalso. apply NC. exists a, t, b, u. auto. }
  assert (O' : lib_ordered s').
  { split; [|rewrite D'; exact DS]. 
    assert (X : StronglySorted (fun a b => String.compare a b = Lt) (map fst (y_types s'))) by (rewrite KE'; now apply msorted_keys).
    clear - X. unfold increasing, by_key, name_lt. induction (y_types s') as [|e m IH]; [constructor|].
    inversion X; subst. constructor; [auto|]. now rewrite Forall_map in H2. }
  assert (CL' : lib_compiled s' l).
  { split; [congruence|]. split; [congruence|]. split; [exact DS|]. split; [|exact F'].
    intros d. rewrite D', E', E. split.
    - intros I. pose proof I as J. apply D in J as (lib & J & NE & X). exists lib. repeat split; auto.
      assert (Px : d_name d = lib) by (destruct X as (? & ? & _ & X & _); exact X).
      destruct (first_exists (fun d => d_name d = lib) (l_deps l) d) as (y & Y); auto.
      { intros a. destruct (string_dec (d_name a) lib); auto. }
      assert (y = d); [|now subst].
      assert (IY : In y (l_deps l)) by (destruct Y as (a & b & -> & _); apply in_or_app; cbn; auto).
      apply D in IY as (lib' & _ & _ & Y'). assert (d_name y = lib) by (destruct Y as (? & ? & _ & Y & _); exact Y).
      assert (d_name y = lib') by (destruct Y' as (? & ? & _ & Y' & _); exact Y').
      assert (LE : lib' = lib) by congruence. rewrite LE in Y'. exact (first_fun _ _ _ _ Y' X).
    - intros (lib & J & NE & X). destruct X as (a & b & -> & _). apply in_or_app. cbn. auto. }
  assert (A' : lib_acyclic s').
  { exists rank. intros n m (t' & r' & I & J & M). apply R.
    destruct (Forall2_In_l _ _ _ _ F' I) as ([k u] & K & X & T'). cbn in X, T'. subst k.
    destruct (Forall2_In_r _ _ _ _ F K) as ([k t] & I0 & X & T). cbn in X, T. subst k.
    destruct (ty_same _ m t' t u r' (fun r1 r2 r0 => libref_same (named_in l) r1 r2 r0 m INJ) T' T J M) as (r & Jr & Mr).
    exists t, r. auto. }
  assert (KN : lib_known s').
  { intros lib I NE. rewrite E', E in I. rewrite D'.
    destruct (compile_known _ _ _ _ SD C lib I NE) as (d & J & X).
    destruct (first_exists (fun d => d_name d = lib) (y_deps s) d) as (y & Y); auto.
    { intros a. destruct (string_dec (d_name a) lib); auto. }
    exists y. split; [apply D; exists lib; auto|]. destruct Y as (? & ? & _ & Y & _); exact Y. }
  destruct (compile_total dbg' s' O' A' (compiled_resolvable _ _ CL') (compiled_nested _ _ CL') KN) as (l' & n & H).
  - assert (X : lenN (y_types s') = lenN (l_types l)) by (unfold lenN; f_equal; eapply Forall2_length; exact F'). lia.
  - rewrite D'. assert (X : (List.length (l_deps l) <= List.length (y_deps s))%nat).
    { apply NoDup_incl_length; [|exact ID]. apply (NoDup_map_inv d_id). now apply dsorted_NoDup. }
    unfold lenN in *. lia.
  - assert (l' = l) as ->; [|exists n; exact H].
    destruct (compile_ok _ _ _ _ O' (H n (le_n n))) as (CL2 & _). eapply compiled_unique; eauto.
Qed.

(** ** The symbolic form is the source *)

Lemma map_state_forth {E S A B} (f : A -> S -> outcome E B * S) (s : S) (rel : B -> A -> Prop) bs l :
  (forall a b, In b bs -> rel b a -> f a s = (Ok b, s)) -> Forall2 rel bs l -> map_state f l s = (Ok bs, s).
Proof.
  intros H F. induction F as [|b a bs l R F IH]; cbn [map_state]; [reflexivity|].
  rewrite (H a b (or_introl eq_refl) R). rewrite IH; [reflexivity|]. intros a' b' I. apply H. now right.
Qed.

Section Forth.
Context (ctx : symbol_context) (b : extern_types) (names : string -> semid -> Prop) (good : symbol_ref -> Prop).
Hypothesis NAMES : forall n id, names n id -> om_get N.compare id (sc_reverse ctx) = Some n.
Hypothesis EXT : forall e, good e -> symbol_external ctx (mkExtern (sr_libid e) (sr_id e)) b = (Ok (TrExtern e), b).

Definition forth {A} (rel : tref -> A -> Prop) (f : A -> extern_types -> outcome symbol_error tref * extern_types) : Prop :=
  forall t r, rel t r -> (forall e, mentions_extern t e -> good e) -> f r b = (Ok t, b).

Lemma translate_forth {A} (rel : tref -> A -> Prop) f : forth rel f ->
  forall (t : ty A) (t' : ty tref), ty_related rel t' t -> (forall r e, In r (refs t') -> mentions_extern r e -> good e) ->
  translate_ty f t b = (Ok t', b).
Proof.
  intros H t t' R G. destruct t', t; cbn in R; try contradiction; cbn [translate_ty refs] in *.
  - now rewrite R.
  - reflexivity.
  - now rewrite R.
  - match goal with |- map_fst _ ?x = _ => replace x with (@Ok symbol_error _ vs, b); [reflexivity|] end. symmetry.
    eapply map_state_forth; [|exact R]. intros [v r] [v' r'] I [E X]. cbn in E, X. subst v'.
    rewrite (H r' r X); [reflexivity|]. intros e M. eapply G; [|exact M]. now apply (in_map snd) in I.
  - match goal with |- map_fst _ ?x = _ => replace x with (@Ok symbol_error _ fs, b); [reflexivity|] end. symmetry.
    eapply map_state_forth; [|exact R]. intros r r' I X. apply H; [exact X|]. intros e M. eapply G; eauto.
  - match goal with |- map_fst _ ?x = _ => replace x with (@Ok symbol_error _ fs, b); [reflexivity|] end. symmetry.
    eapply map_state_forth; [|exact R]. intros [v r] [v' r'] I [E X]. cbn in E, X. subst v'.
    rewrite (H r' r X); [reflexivity|]. intros e M. eapply G; [|exact M]. now apply (in_map snd) in I.
  - destruct R as [R ->]. rewrite (H _ _ R); [reflexivity|]. intros e M. eapply G; [|exact M]. now left.
  - destruct R as [R ->]. rewrite (H _ _ R); [reflexivity|]. intros e M. eapply G; [|exact M]. now left.
  - destruct R as [R ->]. rewrite (H _ _ R); [reflexivity|]. intros e M. eapply G; [|exact M]. now left.
  - destruct R as (Rk & R & ->). rewrite (H _ _ Rk); [|intros e M; eapply G; [|exact M]; now left].
    rewrite (H _ _ R); [reflexivity|]. intros e M. eapply G; [|exact M]. right. now left.
Qed.
Lemma gref_forth {I} (emb : I -> extern_types -> outcome symbol_error tref * extern_types) (inner : ty tref -> I -> Prop) :
  (forall u i, inner u i -> (forall e, mentions_extern (TrEmbedded u) e -> good e) -> emb i b = (Ok (TrEmbedded u), b)) ->
  forth (ref_compiled names inner) (symbol_gref ctx emb).
Proof.
  intros H t r R G. destruct t, r as [i|id|e']; cbn in R; try contradiction; cbn [symbol_gref].
  - now apply H.
  - unfold symbol_named. now rewrite (NAMES _ _ R).
  - destruct e' as [el ei]. cbn in R. destruct R as [-> ->]. apply EXT. apply G. constructor.
Qed.
Lemma embedded_forth {A} (f : A -> extern_types -> outcome symbol_error tref * extern_types) (rel : tref -> A -> Prop) :
  forth rel f -> forall u i, ty_related rel u i -> (forall e, mentions_extern (TrEmbedded u) e -> good e) ->
  symbol_embedded f i b = (Ok (TrEmbedded u), b).
Proof.
  intros H u i R G. unfold symbol_embedded. rewrite (translate_forth _ _ H _ _ R); [reflexivity|].
  intros r e I M. apply G. econstructor; eauto.
Qed.
Lemma libref_forth : forth (libref_compiled names) (symbol_libref ctx).
Proof.
  apply gref_forth, embedded_forth, gref_forth, embedded_forth, gref_forth, embedded_forth, gref_forth.
  intros u [].
Qed.
End Forth.

Lemma reverse_index_forth (types : list (string * ty lib_ref)) : forall m, msorted N.compare m ->
  forall n t, In (n, t) types -> (forall n' t', In (n', t') types -> lib_type_id (n', t') = lib_type_id (n, t) -> n' = n) ->
  om_get N.compare (lib_type_id (n, t)) (fold_left (fun m nt => om_insert N.compare (lib_type_id nt) (fst nt) m) types m) = Some n.
Proof.
  enough (G : forall types m, msorted N.compare m -> forall id n,
    (forall n' t', In (n', t') types -> lib_type_id (n', t') = id -> n' = n) ->
    (om_get N.compare id m = Some n \/ exists t, In (n, t) types /\ lib_type_id (n, t) = id) ->
    om_get N.compare id (fold_left (fun m nt => om_insert N.compare (lib_type_id nt) (fst nt) m) types m) = Some n).
  { intros m SM n t I U. apply G; eauto. }
  clear types. induction types as [|[k u] types IH]; intros m SM id n U D; cbn [fold_left].
  - destruct D as [D|(t & [] & _)]. exact D.
  - apply IH; [now apply (mins_sorted _ N_lawful)|intros n' t' I; apply (U n' t'); now right|].
    rewrite (mget_ins _ N_lawful) by exact SM. cbn [fst].
    destruct (N.compare id (lib_type_id (k, u))) eqn:C.
    + apply N.compare_eq in C. left. f_equal. apply (U k u); [now left|]. now symmetry.
    + destruct D as [D|(t & [E|I] & Q)]; [now left| |right; eauto]. injection E as -> ->. rewrite Q in C.
      rewrite N.compare_refl in C. discriminate C.
    + destruct D as [D|(t & [E|I] & Q)]; [now left| |right; eauto]. injection E as -> ->. rewrite Q in C.
      rewrite N.compare_refl in C. discriminate C.
Qed.
Lemma dep_index (deps : list dependency) : forall m, msorted N.compare m -> forall d, In d deps -> NoDup (map d_id deps) ->
  om_get N.compare (d_id d) (fold_left (fun m d => om_insert N.compare (d_id d) (d_name d) m) deps m) = Some (d_name d).
Proof.
  enough (G : forall deps m, msorted N.compare m -> forall id n, NoDup (map d_id deps) ->
    (om_get N.compare id m = Some n /\ ~ In id (map d_id deps) \/ exists d, In d deps /\ d_id d = id /\ d_name d = n) ->
    om_get N.compare id (fold_left (fun m d => om_insert N.compare (d_id d) (d_name d) m) deps m) = Some n).
  { intros m SM d I ND. apply G; eauto. }
  clear deps. induction deps as [|d0 deps IH]; intros m SM id n ND D; cbn [fold_left].
  - destruct D as [[D _]|(d & [] & _)]. exact D.
  - cbn [map] in ND. apply NoDup_cons_iff in ND as [N0 ND].
    apply IH; [now apply (mins_sorted _ N_lawful)|exact ND|].
    rewrite (mget_ins _ N_lawful) by exact SM.
    destruct (N.compare id (d_id d0)) eqn:C.
    + apply N.compare_eq in C. subst id. destruct D as [[_ D]|(d & [<-|I] & Q & P)].
      * destruct D. now left.
      * left. split; [now f_equal|exact N0].
      * destruct N0. rewrite <- Q. now apply in_map.
    + destruct D as [[D D']|(d & [<-|I] & Q & P)]; [left; split; [exact D|intros X; apply D'; now right]| |right; eauto].
      rewrite Q, N.compare_refl in C. discriminate C.
    + destruct D as [[D D']|(d & [<-|I] & Q & P)]; [left; split; [exact D|intros X; apply D'; now right]| |right; eauto].
      rewrite Q, N.compare_refl in C. discriminate C.
Qed.

Lemma filter_shorter {A} (p : A -> bool) l : (List.length (filter p l) <= List.length l)%nat.
Proof. induction l as [|x l IH]; cbn; [lia|]. destruct (p x); cbn; lia. Qed.
Lemma symbolic_source fuel dbg s l : lib_ordered s ->
  increasing (by_key name_lt) (y_extern s) -> Forall (fun e => increasing (by_key N.lt) (snd e)) (y_extern s) ->
  lenN (y_extern s) <= u8_max -> Forall (fun e => lenN (snd e) < u16_max) (y_extern s) ->
  externs_listed s -> compile fuel dbg s = Ok l -> ~ ids_collide l ->
  to_symbolic l = Ok (mkSymLib (y_name s) (l_deps l) (y_extern s) (y_types s)).
Proof.
  intros O SE SI LE LI (NN & XL) C NC. destruct (compile_ok _ _ _ _ O C) as (CL & _).
  pose proof CL as (N & E & DS & D & F).
  unfold to_symbolic. cbv zeta. rewrite E, N.
  rewrite (map_state_forth _ (y_extern s)
    (fun y a => fst y = fst a /\ ty_related (libref_compiled (named_in l)) (snd y) (snd a)) (y_types s) (l_types l)); [reflexivity| |exact F].
  intros [n t] [n' t'] I [X T]. cbn [fst snd] in X, T. subst n'. cbn [fst snd].
  set (good := fun e => sr_lib e <> "_"%string /\ In (mkDep (sr_libid e) (sr_lib e)) (y_deps s)
     /\ exists types, In (sr_lib e, types) (y_extern s) /\ In (sr_id e, sr_name e) types).
  match goal with |- map_fst _ ?x = _ => enough (Q : x = (Ok t', y_extern s)) by (rewrite Q; reflexivity) end.
  refine (translate_forth (y_extern s) good _ _ (libref_forth (symbol_index l) (y_extern s) (named_in l) good _ _) _ _ T _).
  3: intros r e J M; exact (XL _ _ _ _ I J M).
  - intros m id (u & J & ->). apply (reverse_index_forth (l_types l) []); [constructor|exact J|].
    intros n' u' J' Q. destruct (string_dec n' m) as [Y|Y]; [exact Y|]. exfalso. apply NC. exists n', u', m, u. auto.
  - intros e (NE & ID & types & IX & IT). unfold symbol_external. cbn [er_lib er_id symbol_index sc_libs].
    assert (DL : In (mkDep (sr_libid e) (sr_lib e)) (l_deps l)).
    { apply D. exists (sr_lib e). split; [now apply (in_map fst) in IX|]. split; [exact NE|].
      apply in_split in ID as (d1 & d2 & Q). exists d1, d2. split; [exact Q|]. split; [reflexivity|].
      apply Forall_forall. intros y Y P. rewrite Q, map_app in NN. cbn in NN.
      apply NoDup_remove_2 in NN. apply NN. apply in_or_app. left. rewrite <- P. now apply in_map. }
    assert (DI : NoDup (map d_id (l_deps l))) by now apply dsorted_NoDup.
    pose proof (dep_index (l_deps l) [] ltac:(constructor) _ DL DI) as G. cbn [d_id d_name] in G. rewrite G.
    assert (G1 : om_get String.compare (sr_lib e) (y_extern s) = Some types) by (apply (mget_In _ string_lawful); assumption).
    rewrite G1.
    assert (ST : msorted N.compare types). { rewrite Forall_forall in SI. now apply SI in IX. }
    assert (G2 : om_get N.compare (sr_id e) types = Some (sr_name e)) by (apply (mget_In _ N_lawful); assumption).
    rewrite G2. unfold confined_insert.
    assert (LT : lenN types < u16_max). { rewrite Forall_forall in LI. now apply LI in IX. }
    match goal with |- context [if ?c then Err Oversize else _] => replace c with false by (symmetry; exact (proj2 (N.eqb_neq _ _) (N.lt_neq _ _ LT))) end.
    rewrite (mins_same _ N_lawful) by assumption.
    assert (LR : lenN (map_remove (sr_lib e) (y_extern s)) < u8_max).
    { eapply N.lt_le_trans; [|exact LE]. unfold lenN, map_remove. apply (in_split) in IX as (a & c & ->).
      rewrite filter_app, !app_length. cbn [filter fst]. rewrite String.eqb_refl. cbn [negb].
      pose proof (filter_shorter (fun e0 => negb (fst e0 =? sr_lib e)%string) a).
      pose proof (filter_shorter (fun e0 => negb (fst e0 =? sr_lib e)%string) c). cbn [List.length]. lia. }
    match goal with |- context [if ?c then Err Oversize else _] => replace c with false by (symmetry; exact (proj2 (N.eqb_neq _ _) (N.lt_neq _ _ LR))) end.
    rewrite remove_insert by assumption. now destruct e.
Qed.
