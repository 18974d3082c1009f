(** Facts on the binary format: every value has at most one encoding, and equal items of a collection have equal
    encodings. *)
From Coq Require Import NArith ZArith List Bool String Ascii Strings.Byte Lia.
From Verif Require Import Base Ty Ids Val TypeSys Encode Decode SpecUtf8 Spec SpecWire WireProofs.
Import ListNotations.
Local Open Scope N_scope.

Lemma le_number_inj a b : lenN a = lenN b -> le_number a = le_number b -> a = b.
Proof.
  intros L E. rewrite !le_number_unle in E. rewrite <- (le_unle a), <- (le_unle b), E. f_equal. unfold lenN in L. lia.
Qed.

Lemma le_number_bound bs : le_number bs < 2 ^ (8 * lenN bs).
Proof. rewrite le_number_unle. apply unle_bound. Qed.

Lemma le_signed_inj a b : lenN a = lenN b -> le_signed a = le_signed b -> a = b.
Proof.
  intros L E. apply le_number_inj; [exact L|]. unfold le_signed in E. cbv zeta in E. rewrite L in E.
  pose proof (le_number_bound a) as A. pose proof (le_number_bound b) as B. rewrite L in A.
  set (m := 2 ^ (8 * lenN b)) in *. clearbody m.
  destruct (N.ltb_spec (2 * le_number a) m), (N.ltb_spec (2 * le_number b) m); lia.
Qed.

Lemma prefix_same max n p q : len_prefix max n p -> len_prefix max n q -> p = q.
Proof. intros [L1 E1] [L2 E2]. apply le_number_inj; congruence. Qed.

Lemma text_same s a b : text s a -> text s b -> a = b.
Proof. unfold text. intros -> E. apply (f_equal sbytes) in E. now rewrite !sbytes_bstring in E. Qed.

Lemma restricted_same sys fs a1 a2 min max b1 b2 min' max' :
  restricted_string sys fs a1 a2 min max -> restricted_string sys fs b1 b2 min' max' -> max = max'.
Proof.
  intros [f r x t1 t2 -> F1 C1 F2 F3 C2] [f' r' x' t1' t2' E F1' C1' F2' F3' C2'].
  injection E as -> ->. rewrite F2 in F2'. injection F2' as _ _ ->. reflexivity.
Qed.

Lemma NoDup_map_same {A B} (f : A -> B) l x y : NoDup (map f l) -> In x l -> In y l -> f x = f y -> x = y.
Proof.
  induction l as [|a l IH]; [easy|]. cbn. intros N [<-|X] [<-|Y] E; inversion N as [|? ? NI N']; subst; auto.
  - destruct NI. rewrite E. now apply in_map.
  - destruct NI. rewrite <- E. now apply in_map.
Qed.

Lemma to_N_same a b : Byte.to_N a = Byte.to_N b -> a = b.
Proof. intros E. apply (f_equal Byte.of_N) in E. rewrite !Byte.of_to_N in E. now injection E. Qed.

(** The type under an id is one. *)
Ltac find F :=
  let x := lazymatch type of F with ?x = _ => x end in
  match goal with
  | F' : x = Some _ |- _ => lazymatch F' with F => fail | _ => rewrite F in F'; first [discriminate F'|inversion F'; subst; clear F'] end
  end.
Ltac texts :=
  match goal with
  | T : text ?s ?a, T' : text ?s ?b |- _ ++ ?a = _ ++ ?b =>
      assert (a = b) as <- by (exact (text_same _ _ _ T T')); f_equal; eapply prefix_same; eassumption
  end.

Section Same.
Variables (mem : N) (sys : type_system).
Hypothesis W : wf_sys sys.

Lemma wire_same : forall id v bs, wire mem sys id v bs -> forall bs', wire mem sys id v bs' -> bs = bs'.
Proof.
  intros id v bs H.
  apply (wire_mut mem sys
    (fun id v bs => forall bs', wire mem sys id v bs' -> bs = bs')
    (fun ids l bs => forall bs', wires mem sys ids l bs' -> bs = bs')); try exact H; clear id v bs H.
  - intros id F bs' H. now inversion H.
  - intros id p w bs F U L bs' H. inversion H as [|? p' w' ? F' U' L' E1 E2 E3| | | | | | | | | | | | | |]; subst.
    rewrite F in F'. injection F' as <-. apply le_number_inj; congruence.
  - intros id p w bs F U L bs' H. inversion H as [| |? p' w' ? F' U' L' E1 E2 E3| | | | | | | | | | | | |]; subst.
    rewrite F in F'. injection F' as <-. apply le_signed_inj; congruence.
  - intros id vs v b F I T bs' H. inversion H as [| | |? vs' v' b' F' I' T'| | | | | | | | | | | |]; subst.
    rewrite F in F'. injection F' as <-. destruct (wf_types _ W _ _ F) as [N1 _].
    assert (v' = v) as -> by (now apply (NoDup_map_same v_name vs)).
    f_equal. apply to_N_same. congruence.
  - intros id vs v r w b bs F I T H1 IH bs' H.
    inversion H as [| | | |? vs' v' r' w' b' bs2 F' I' T' H'| | | | | | | | | | |]; subst.
    rewrite F in F'. injection F' as <-. destruct (wf_types _ W _ _ F) as [N1 _].
    assert (X : (v', r') = (v, r)) by (now apply (NoDup_map_same (fun e => v_name (fst e)) vs)).
    injection X as -> ->. f_equal; [|now apply IH]. apply to_N_same. congruence.
  - intros id fs l bs F NR H1 IH bs' H. inversion H; subst; find F. apply IH. assumption.
  - intros id fs a1 a2 mn mx s p bs F RS P L TX A bs' H. inversion H; subst; find F.
    match goal with R' : restricted_string sys _ _ _ _ ?y |- _ =>
      lazymatch R' with RS => fail | _ => pose proof (restricted_same _ _ _ _ _ _ _ _ _ _ RS R') as E; subst y end end.
    texts.
  - intros id fs l bs F NM H1 IH bs' H. inversion H; subst; find F. now apply IH.
  - intros id r bs F B L bs' H. inversion H; subst; find F; congruence.
  - intros id r l bs F B L H1 IH bs' H. inversion H; subst; find F. now apply IH.
  - intros id r rt a mn mx s p bs F F2 CT P L TX A bs' H. inversion H; subst; find F; texts.
  - intros id r rt mn mx p bs F F2 CT B M P L bs' H. inversion H; subst; find F. f_equal. eapply prefix_same; eassumption.
  - intros id r rt mn mx s p bs F F2 CT B U M P L TX A bs' H. inversion H; subst; find F; texts.
  - intros id r rt mn mx l p bs F F2 CT NB P L H1 IH bs' H. inversion H; subst; find F. f_equal; [eapply prefix_same; eassumption|now apply IH].
  - intros id r mn mx l p bs F P L H1 IH bs' H. inversion H; subst; find F. f_equal; [eapply prefix_same; eassumption|now apply IH].
  - intros id k r mn mx l p bs F P L H1 IH bs' H. inversion H; subst; find F. f_equal; [eapply prefix_same; eassumption|now apply IH].
  - intros bs' H. now inversion H.
  - intros id v b ids l bs H1 IH1 H2 IH2 bs' H. inversion H; subst. f_equal; [now apply IH1|now apply IH2].
Qed.
End Same.

(** ** Items of a collection and their encodings *)

Lemma same_chunks {A B} (R : A -> B -> Prop) l ch :
  (forall a b b', R a b -> R a b' -> b = b') -> (forall a a' b, R a b -> R a' b -> a = a') ->
  Forall2 R l ch -> (NoDup l <-> NoDup ch).
Proof.
  intros F G H.
  induction H as [|a b l ch H1 H2 IH]; [split; constructor|].
  assert (X' : forall a, In a l -> exists b, In b ch /\ R a b).
  { clear -H2. induction H2 as [|a b l ch H1 H2 IH]; [easy|]. intros x [<-|I]; [exists b; split; [now left|assumption]|].
    destruct (IH x I) as [y [J Y]]. exists y. split; [now right|assumption]. }
  assert (Y' : forall b, In b ch -> exists a, In a l /\ R a b).
  { clear -H2. induction H2 as [|a b l ch H1 H2 IH]; [easy|]. intros x [<-|I]; [exists a; split; [now left|assumption]|].
    destruct (IH x I) as [y [J Y]]. exists y. split; [now right|assumption]. }
  split; intros N; inversion N as [|? ? NI N']; subst; (constructor; [|now apply IH]); intros I; apply NI.
  - destruct (Y' _ I) as [a' [J Ra]]. now rewrite (G _ _ _ H1 Ra).
  - destruct (X' _ I) as [b' [J Rb]]. now rewrite (F _ _ _ H1 Rb).
Qed.

Lemma wire_value c sys id v v' bs : wf_sys sys -> wire (cap c) sys id v bs -> wire (cap c) sys id v' bs -> v = v'.
Proof.
  intros W H H'. apply (wire_read c sys W) in H as [n H]. apply (wire_read c sys W) in H' as [n' H'].
  specialize (H (n + n')%nat [] ltac:(lia)). specialize (H' (n + n')%nat [] ltac:(lia)).
  rewrite H in H'. now injection H'.
Qed.

Lemma wires_items mem sys r l bs : wires mem sys (repeat r (List.length l)) l bs ->
  exists chunks, bs = List.concat chunks /\ Forall2 (wire mem sys r) l chunks.
Proof.
  revert bs. induction l as [|v l IH]; intros bs H; inversion H; subst; [exists []; auto|].
  match goal with H : wires _ _ _ l _ |- _ => apply IH in H as [ch [-> H]] end. eexists (_ :: ch). split; [reflexivity|]. now constructor.
Qed.

Lemma wires_entries mem sys k r l bs : wires mem sys (in_turn (repeat (k, r) (List.length l))) (in_turn l) bs ->
  exists chunks, bs = List.concat (map (fun e => fst e ++ snd e) chunks)
    /\ Forall2 (fun e b => wire mem sys k (fst e) (fst b) /\ wire mem sys r (snd e) (snd b)) l chunks.
Proof.
  revert bs. induction l as [|[a b] l IH]; intros bs H; [inversion H; subst; exists []; auto|].
  cbn in H. inversion H as [|? ? b1 ? ? bs1 H1 H2]; subst. inversion H2 as [|? ? b2 ? ? bs2 H3 H4]; subst.
  apply IH in H4 as [ch [-> H4]]. exists ((b1, b2) :: ch). cbn. split; [now rewrite app_assoc|]. now constructor.
Qed.
