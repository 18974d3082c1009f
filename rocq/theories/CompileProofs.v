(** Proofs about the compilation of libraries. *)
From Coq Require Import NArith List Bool String Sorted Lia.
From Verif Require Import Base Sha256 Ty Ids TypeSys LibCodec Build Spec SpecLib LibCodecProofs BuildProofs MapLemmas Compile SpecCompile.
Import ListNotations.
Local Open Scope N_scope.

(** ** Translation of types *)

Definition gives {E A} (P : A -> Prop) (Q : E -> Prop) (o : outcome E A) : Prop :=
  match o with Ok a => P a | Err e => Q e | Panic | Diverge => False end.
(** The state is not changed. *)
Definition steady {E S A} (f : S -> outcome E A * S) (P : A -> Prop) (Q : E -> Prop) : Prop :=
  forall s, exists o, f s = (o, s) /\ gives P Q o.

Lemma map_fst_steady {E S A B} (f : S -> outcome E A * S) (g : A -> B) (P : A -> Prop) (P' : B -> Prop) (Q : E -> Prop) :
  steady f P Q -> (forall a, P a -> P' (g a)) -> steady (fun s => map_fst g (f s)) P' Q.
Proof.
  intros F I s. destruct (F s) as (o & -> & G). destruct o; cbn in *; try contradiction; eexists; (split; [reflexivity|cbn; auto]).
Qed.
Lemma map_state_steady {E S A B} (f : A -> S -> outcome E B * S) (rel : A -> B -> Prop) (Q : A -> E -> Prop) l :
  (forall a, In a l -> steady (f a) (rel a) (Q a)) ->
  steady (map_state f l) (Forall2 rel l) (fun e => exists a, In a l /\ Q a e).
Proof.
  induction l as [|a l IH]; intros F s; cbn [map_state]; [eexists; split; [reflexivity|constructor]|].
  destruct (F a (or_introl eq_refl) s) as (o & -> & G).
  destruct o as [b|e| |]; cbn in G; try contradiction.
  - destruct (IH (fun a I => F a (or_intror I)) s) as (o & -> & G').
    destruct o as [bs|e| |]; cbn in G'; try contradiction; eexists; (split; [reflexivity|cbn]).
    + now constructor.
    + destruct G' as (x & I & H). exists x. auto.
  - eexists; split; [reflexivity|]. cbn. exists a. auto.
Qed.
Lemma steady_weaken {E S A} (f : S -> outcome E A * S) (P P' : A -> Prop) (Q Q' : E -> Prop) :
  steady f P Q -> (forall a, P a -> P' a) -> (forall e, Q e -> Q' e) -> steady f P' Q'.
Proof. intros F I J s. destruct (F s) as (o & -> & G). exists o. split; [reflexivity|]. destruct o; cbn in *; auto. Qed.
Lemma steady_ext {E S A} (f g : S -> outcome E A * S) (P : A -> Prop) (Q : E -> Prop) :
  (forall s, f s = g s) -> steady f P Q -> steady g P Q.
Proof. intros H F s. rewrite <- H. apply F. Qed.

Lemma translate_steady {E S A B} (f : A -> S -> outcome E B * S) (rel : A -> B -> Prop) (Q : A -> E -> Prop) (t : ty A) :
  (forall r, In r (refs t) -> steady (f r) (rel r) (Q r)) ->
  steady (translate_ty f t) (ty_related rel t) (fun e => exists r, In r (refs t) /\ Q r e).
Proof.
  intros F. destruct t; cbn [refs] in F; unfold translate_ty.
  1-3: intros s; eexists; split; [reflexivity|cbn; auto].
  - eapply map_fst_steady.
    + apply steady_weaken with (P := Forall2 (fun a b => fst a = fst b /\ rel (snd a) (snd b)) vs)
        (Q := fun e => exists a, In a vs /\ Q (snd a) e); [|intros ? X; exact X|].
      * apply (map_state_steady _ (fun a b => fst a = fst b /\ rel (snd a) (snd b)) (fun a => Q (snd a))).
        intros [v r] I. eapply map_fst_steady; [apply F; now apply (in_map snd) in I|]. cbn. auto.
      * intros e (a & I & H). exists (snd a). split; [now apply in_map|exact H].
    + auto.
  - eapply map_fst_steady.
    + apply steady_weaken with (P := Forall2 rel fs)
        (Q := fun e => exists a, In a fs /\ Q a e); [|intros ? X; exact X|auto].
      now apply (map_state_steady _ rel Q).
    + auto.
  - eapply map_fst_steady.
    + apply steady_weaken with (P := Forall2 (fun a b => fst a = fst b /\ rel (snd a) (snd b)) fs)
        (Q := fun e => exists a, In a fs /\ Q (snd a) e); [|intros ? X; exact X|].
      * apply (map_state_steady _ (fun a b => fst a = fst b /\ rel (snd a) (snd b)) (fun a => Q (snd a))).
        intros [v r] I. eapply map_fst_steady; [apply F; now apply (in_map snd) in I|]. cbn. auto.
      * intros e (a & I & H). exists (snd a). split; [now apply in_map|exact H].
    + auto.
  - eapply map_fst_steady; [eapply steady_weaken; [apply F; now left|eauto|]|cbn; auto].
    intros e H. exists r. cbn. auto.
  - eapply map_fst_steady; [eapply steady_weaken; [apply F; now left|eauto|]|cbn; auto].
    intros e H. exists r. cbn. auto.
  - eapply map_fst_steady; [eapply steady_weaken; [apply F; now left|eauto|]|cbn; auto].
    intros e H. exists r. cbn. auto.
  - intros st. destruct (F k (or_introl eq_refl) st) as (o & -> & G).
    destruct o as [k'|e| |]; cbn in G; try contradiction.
    + destruct (F r (or_intror (or_introl eq_refl)) st) as (o & -> & G').
      destruct o as [r'|e| |]; cbn in G'; try contradiction; eexists; (split; [reflexivity|cbn; auto]).
      exists r. cbn. auto.
    + eexists; split; [reflexivity|]. exists k. cbn. auto.
Qed.

(** ** Laws of relation *)

Lemma Forall2_weaken {A B} (P Q : A -> B -> Prop) l l' :
  (forall a b, In a l -> P a b -> Q a b) -> Forall2 P l l' -> Forall2 Q l l'.
Proof. intros I F. induction F; constructor; [apply I; [now left|assumption]|]. apply IHF. intros a b J. apply I. now right. Qed.
Lemma Forall2_fun {A B} (P Q : A -> B -> Prop) (l : list A) l1 l2 :
  (forall a b c, In a l -> P a b -> Q a c -> b = c) -> Forall2 P l l1 -> Forall2 Q l l2 -> l1 = l2.
Proof.
  intros H F. revert l2. induction F as [|a b l l1 R F IH]; intros l2 G; inversion G; subst; [reflexivity|].
  f_equal; [eapply H; [now left|eassumption|eassumption]|]. apply IH; [|assumption]. intros ? ? ? I. apply H. now right.
Qed.
Lemma Forall2_In_l {A B} (P : A -> B -> Prop) l l' a : Forall2 P l l' -> In a l -> exists b, In b l' /\ P a b.
Proof. induction 1 as [|x y l l' R F IH]; intros []; [subst; exists y; cbn; auto|]. destruct IH as (b & I & H'); auto. exists b. cbn. auto. Qed.
Lemma Forall2_In_r {A B} (P : A -> B -> Prop) l l' b : Forall2 P l l' -> In b l' -> exists a, In a l /\ P a b.
Proof. induction 1 as [|x y l l' R F IH]; intros []; [subst; exists x; cbn; auto|]. destruct IH as (a & I & H'); auto. exists a. cbn. auto. Qed.

Lemma ty_related_weaken {A B} (P Q : A -> B -> Prop) t t' :
  (forall r r', In r (refs t) -> P r r' -> Q r r') -> ty_related P t t' -> ty_related Q t t'.
Proof.
  intros H. destruct t, t'; cbn in *; try tauto.
  - apply Forall2_weaken. intros a b I [E R]. split; [exact E|]. apply H; [now apply in_map|exact R].
  - apply Forall2_weaken. intros a b I. now apply H.
  - apply Forall2_weaken. intros a b I [E R]. split; [exact E|]. apply H; [now apply in_map|exact R].
  - intros [R E]. split; [|exact E]. apply H; auto.
  - intros [R E]. split; [|exact E]. apply H; auto.
  - intros [R E]. split; [|exact E]. apply H; auto.
  - intros (R & R' & E). repeat split; auto.
Qed.
Lemma ty_related_fun {A B} (P Q : A -> B -> Prop) (t : ty A) t1 t2 :
  (forall r a b, In r (refs t) -> P r a -> Q r b -> a = b) -> ty_related P t t1 -> ty_related Q t t2 -> t1 = t2.
Proof.
  assert (PE : forall X (a b : X * B), fst a = fst b -> snd a = snd b -> a = b) by (intros X [] []; cbn; congruence).
  intros H. destruct t, t1; cbn in *; try tauto; destruct t2; cbn in *; try tauto; try congruence.
  - intros F G. f_equal. eapply Forall2_fun; [|exact F|exact G]. cbn. intros a b c I [E R] [E' R']. apply PE; [congruence|].
    eapply H; [apply in_map; exact I|exact R|exact R'].
  - intros F G. f_equal. eapply Forall2_fun; [|exact F|exact G]. apply H.
  - intros F G. f_equal. eapply Forall2_fun; [|exact F|exact G]. cbn. intros a b c I [E R] [E' R']. apply PE; [congruence|].
    eapply H; [apply in_map; exact I|exact R|exact R'].
  - intros [R E] [R' E']. f_equal; [eapply H; [|exact R|exact R']; auto|congruence].
  - intros [R E] [R' E']. f_equal; [eapply H; [|exact R|exact R']; auto|congruence].
  - intros [R E] [R' E']. f_equal; [eapply H; [|exact R|exact R']; auto|congruence].
  - intros (R & Q1 & E) (R' & Q' & E'). f_equal; [eapply H; [|exact R|exact R']; auto|eapply H; [|exact Q1|exact Q']; auto|congruence].
Qed.
Lemma ty_related_refs {A B} (P : A -> B -> Prop) (t : ty A) t' : ty_related P t t' -> Forall2 P (refs t) (refs t').
Proof.
  assert (M : forall X (l : list (X * A)) l', Forall2 (fun a b => fst a = fst b /\ P (snd a) (snd b)) l l' -> Forall2 P (map snd l) (map snd l')).
  { induction 1 as [|a b l l' [] F IH]; cbn; constructor; auto. }
  destruct t, t'; cbn; try contradiction; auto; intros; try constructor; intuition.
Qed.

(** ** Compilation of references *)

Definition in_index (idx : type_index) (n : string) (id : semid) : Prop := index_get n idx = Some id.
(** What goes wrong with a reference. *)
Definition ref_fails (k : nat) (top : string) (idx : type_index) (r : tref) (e : compile_error) : Prop :=
  match e with
  | Continue => exists n, mentions r n /\ index_get n idx = None
  | NestedInline n _ _ => n = top /\ ~ nested k r
  | UnknownLib _ => False
  end.

Lemma gref_steady {I} top idx k emb (inner : ty tref -> I -> Prop) :
  (forall t, steady (emb t) (fun r' => match r' with RInline t' => inner t t' | _ => False end) (ref_fails k top idx (TrEmbedded t))) ->
  forall r, steady (compile_gref idx emb r) (ref_compiled (in_index idx) inner r) (ref_fails k top idx r).
Proof.
  intros Em r. destruct r as [t|n|e]; unfold compile_gref.
  - eapply steady_weaken; [apply Em| |auto]. intros []; cbn; tauto.
  - intros s. unfold in_index. destruct (index_get n idx) as [id|] eqn:G; eexists; (split; [reflexivity|]); cbn; [exact G|].
    exists n. split; [constructor|exact G].
  - intros s. eexists; split; [reflexivity|]. cbn. auto.
Qed.
Lemma embedded_steady {R} top idx k (f : translator R) (rel : tref -> R -> Prop) (t : ty tref) :
  (forall r, steady (f r) (rel r) (ref_fails k top idx r)) ->
  steady (compile_embedded f t) (fun r' => match r' with RInline t' => ty_related rel t t' | _ => False end)
    (ref_fails (S k) top idx (TrEmbedded t)).
Proof.
  intros F s. unfold compile_embedded.
  destruct (translate_steady f rel (ref_fails k top idx) t (fun r _ => F r) (s ++ [cls t])) as (o & -> & G).
  rewrite removelast_last. destruct o as [t'|e| |]; cbn in *; try contradiction; eexists; (split; [reflexivity|]); cbn; [exact G|].
  destruct G as (r & I & G). destruct e; cbn in *; try contradiction.
  - destruct G as (n & M & X). exists n. split; [econstructor; eassumption|exact X].
  - destruct G as [-> G]. split; [reflexivity|]. rewrite Forall_forall. intros N. auto.
Qed.
Lemma ref2_steady top idx r : steady (compile_ref2 top idx r) (ref2_compiled (in_index idx) r) (ref_fails 0 top idx r).
Proof.
  apply gref_steady. intros t s. eexists; split; [reflexivity|]. cbn. auto.
Qed.
Lemma ref1_steady top idx r : steady (compile_ref1 top idx r) (ref1_compiled (in_index idx) r) (ref_fails 1 top idx r).
Proof. apply gref_steady. intros t. apply embedded_steady. apply ref2_steady. Qed.
Lemma ref0_steady top idx r : steady (compile_ref0 top idx r) (ref0_compiled (in_index idx) r) (ref_fails 2 top idx r).
Proof. apply gref_steady. intros t. apply embedded_steady. apply ref1_steady. Qed.
Lemma libref_steady top idx r : steady (compile_libref top idx r) (libref_compiled (in_index idx) r) (ref_fails 3 top idx r).
Proof. apply gref_steady. intros t. apply embedded_steady. apply ref0_steady. Qed.

Lemma compile_type_steady top idx t :
  exists o, translate_ty (compile_libref top idx) t [] = (o, []) /\
  gives (ty_related (libref_compiled (in_index idx)) t) (fun e => exists r, In r (refs t) /\ ref_fails 3 top idx r e) o.
Proof. apply (translate_steady _ _ (ref_fails 3 top idx)). intros r _. apply libref_steady. Qed.

(** ** Laws of compiled references *)

Section Levels.
(** What holds for a level given that it holds for the types in place. *)
Context {I : Type}.
Implicit Types (inner : ty tref -> I -> Prop) (names : string -> semid -> Prop).
Lemma ref_weaken names names' inner inner' r r' :
  (forall n id, mentions r n -> names n id -> names' n id) ->
  (forall t t', (forall r0 n, In r0 (refs t) -> mentions r0 n -> mentions r n) -> inner t t' -> inner' t t') ->
  ref_compiled names inner r r' -> ref_compiled names' inner' r r'.
Proof.
  intros N J. destruct r, r'; cbn; auto.
  - apply J. intros. econstructor; eassumption.
  - apply N. constructor.
Qed.
Lemma ref_fun names names' inner inner' r a b :
  (forall n i j, mentions r n -> names n i -> names' n j -> i = j) ->
  (forall t a b, (forall r0 n, In r0 (refs t) -> mentions r0 n -> mentions r n) -> inner t a -> inner' t b -> a = b) ->
  ref_compiled names inner r a -> ref_compiled names' inner' r b -> a = b.
Proof.
  intros N J. destruct r, a, b; cbn; try contradiction.
  - intros X Y. f_equal. eapply J; [|exact X|exact Y]. intros. econstructor; eassumption.
  - intros X Y. f_equal. eapply N; [constructor|exact X|exact Y].
  - intros [A B] [C D]. f_equal. match goal with |- ?x = ?y => destruct x, y end; cbn in *; congruence.
Qed.
Lemma ref_mentions names inner r r' n :
  (forall t t' r0, inner t t' -> In r0 (refs t) -> mentions r0 n -> exists id, names n id) ->
  ref_compiled names inner r r' -> mentions r n -> exists id, names n id.
Proof.
  intros J. destruct r, r'; cbn; try contradiction; intros X M; inversion M; subst; [eapply J; eassumption|now exists id].
Qed.
Lemma ref_nested k names inner r r' :
  (forall t t', inner t t' -> nested k (TrEmbedded t)) -> ref_compiled names inner r r' -> nested k r.
Proof. intros J. destruct r, r'; try contradiction; [apply J|destruct k; cbn; auto|destruct k; cbn; auto]. Qed.
(** Two sources of one result mention the same names. *)
Lemma ref_same names inner r1 r2 r' n :
  (forall t1 t2 t' r0, inner t1 t' -> inner t2 t' -> In r0 (refs t1) -> mentions r0 n -> exists r3, In r3 (refs t2) /\ mentions r3 n) ->
  (forall a b id, names a id -> names b id -> a = b) ->
  ref_compiled names inner r1 r' -> ref_compiled names inner r2 r' -> mentions r1 n -> mentions r2 n.
Proof.
  intros J N. destruct r1, r', r2; cbn; try contradiction; intros X Y M.
  - inversion M; subst. edestruct J as (r3 & I3 & M3); [exact X|exact Y|eassumption|eassumption|]. econstructor; eassumption.
  - inversion M; subst. rewrite (N _ _ _ X Y). constructor.
  - inversion M.
Qed.
End Levels.

Ltac levels tac := unfold libref_compiled, ref0_compiled, ref1_compiled, ref2_compiled; tac.

Section TyLevels.
Context {B : Type} (rel rel' : tref -> B -> Prop).
Lemma ty_mentions (names : string -> semid -> Prop) n t t' r0 :
  (forall r r', rel r r' -> mentions r n -> exists id, names n id) -> ty_related rel t t' -> In r0 (refs t) -> mentions r0 n -> exists id, names n id.
Proof. intros H T I M. apply ty_related_refs in T. destruct (Forall2_In_l _ _ _ _ T I) as (r' & _ & R). eauto. Qed.
Lemma ty_nested k t t' : (forall r r', rel r r' -> nested k r) -> ty_related rel t t' -> Forall (nested k) (refs t).
Proof. intros H T. apply ty_related_refs in T. apply Forall_forall. intros r I. destruct (Forall2_In_l _ _ _ _ T I) as (r' & _ & R). eauto. Qed.
Lemma ty_same n t1 t2 t' r0 : (forall r1 r2 r', rel r1 r' -> rel r2 r' -> mentions r1 n -> mentions r2 n) ->
  ty_related rel t1 t' -> ty_related rel t2 t' -> In r0 (refs t1) -> mentions r0 n -> exists r3, In r3 (refs t2) /\ mentions r3 n.
Proof.
  intros H T T' I M. apply ty_related_refs in T, T'. revert T' I. generalize (refs t2).
  induction T as [|x y l l' R F IH]; intros l2 T' []; inversion T'; subst.
  - eexists. split; [now left|]. eapply H; eauto.
  - destruct (IH _ H5 H0) as (r3 & I3 & M3). exists r3. cbn. auto.
Qed.
End TyLevels.

(** The laws at the outer level, by the four levels. *)
Lemma libref_weaken (names names' : string -> semid -> Prop) r r' : (forall n id, mentions r n -> names n id -> names' n id) ->
  libref_compiled names r r' -> libref_compiled names' r r'.
Proof.
  intros N. apply ref_weaken; [exact N|]. intros t0 t0' M0. apply ty_related_weaken. intros r0 r0' I0.
  apply ref_weaken; [eauto|]. intros t1 t1' M1. apply ty_related_weaken. intros r1 r1' I1.
  apply ref_weaken; [eauto|]. intros t2 t2' M2. apply ty_related_weaken. intros r2 r2' I2.
  apply ref_weaken; [eauto|]. auto.
Qed.
Lemma libref_fun (names names' : string -> semid -> Prop) r a b : (forall n i j, mentions r n -> names n i -> names' n j -> i = j) ->
  libref_compiled names r a -> libref_compiled names' r b -> a = b.
Proof.
  intros N. apply ref_fun; [exact N|]. intros t0 a0 b0 M0. apply ty_related_fun. intros r0 c0 d0 I0.
  apply ref_fun; [eauto|]. intros t1 a1 b1 M1. apply ty_related_fun. intros r1 c1 d1 I1.
  apply ref_fun; [eauto|]. intros t2 a2 b2 M2. apply ty_related_fun. intros r2 c2 d2 I2.
  apply ref_fun; [eauto|]. intros ? ? ? ? [].
Qed.
Lemma libref_mentions names r r' n : libref_compiled names r r' -> mentions r n -> exists id, names n id.
Proof.
  apply ref_mentions. intros t0 t0' r0. apply ty_mentions. intros a0 b0.
  apply ref_mentions. intros t1 t1' r1. apply ty_mentions. intros a1 b1.
  apply ref_mentions. intros t2 t2' r2. apply ty_mentions. intros a2 b2.
  apply ref_mentions. intros ? ? ? [].
Qed.
Lemma libref_nested names r r' : libref_compiled names r r' -> nested 3 r.
Proof.
  apply ref_nested. intros t0 t0'. apply (ty_nested _ 2). intros r0 r0'.
  apply ref_nested. intros t1 t1'. apply (ty_nested _ 1). intros r1 r1'.
  apply ref_nested. intros t2 t2'. apply (ty_nested _ 0). intros r2 r2'.
  apply ref_nested. intros ? ? [].
Qed.
Lemma libref_same (names : string -> semid -> Prop) r1 r2 r' n : (forall a b id, names a id -> names b id -> a = b) ->
  libref_compiled names r1 r' -> libref_compiled names r2 r' -> mentions r1 n -> mentions r2 n.
Proof.
  intros N. apply ref_same; [|exact N]. intros t0 t0' t0'' r0. apply ty_same. intros a0 b0 c0.
  apply ref_same; [|exact N]. intros t1 t1' t1'' r1'. apply ty_same. intros a1 b1 c1.
  apply ref_same; [|exact N]. intros t2 t2' t2'' r2'. apply ty_same. intros a2 b2 c2.
  apply ref_same; [|exact N]. intros ? ? ? ? [].
Qed.
