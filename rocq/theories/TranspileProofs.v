(** Proofs about the derivation of libraries from Rust types: what the builder holds. *)
From Coq Require Import NArith List Bool String Sorted Permutation Lia.
From Verif Require Import Base Sha256 Ty Ids TypeSys Spec SpecIds IdProofs LibCodec SpecLib LibCodecProofs Build MapLemmas Compile
  Transpile SpecTranspile.
Import ListNotations.
Local Open Scope N_scope.
Local Opaque tagged_hash.

(** ** Induction *)

Lemma all_Forall {A} (P : A -> Prop) l : all P l <-> Forall P l.
Proof. induction l; cbn; [split; constructor|]. rewrite Forall_cons_iff, IHl. tauto. Qed.

Lemma stype_induction (P : stype -> Prop) : (forall n body, Forall P (refs body) -> P (SType n body)) -> forall s, P s.
Proof.
  intros H. fix IH 1. intros [n body]. apply H. destruct body; cbn [refs].
  - constructor.
  - constructor.
  - constructor.
  - induction vs as [|[v r] vs IHv]; cbn; constructor; auto.
  - induction fs as [|r fs IHv]; constructor; auto.
  - induction fs as [|[v r] fs IHv]; cbn; constructor; auto.
  - repeat constructor; auto.
  - repeat constructor; auto.
  - repeat constructor; auto.
  - repeat constructor; auto.
Qed.
Lemma tref_induction (P : tref -> Prop) : (forall t, Forall P (refs t) -> P (TrEmbedded t)) ->
  (forall n, P (TrNamed n)) -> (forall e, P (TrExtern e)) -> forall r, P r.
Proof.
  intros H HN HE. fix IH 1. intros [t|n|e]; [|apply HN|apply HE]. apply H. destruct t; cbn [refs].
  - constructor.
  - constructor.
  - constructor.
  - induction vs as [|[v r] vs IHv]; cbn; constructor; auto.
  - induction fs as [|r fs IHv]; constructor; auto.
  - induction fs as [|[v r] fs IHv]; cbn; constructor; auto.
  - repeat constructor; auto.
  - repeat constructor; auto.
  - repeat constructor; auto.
  - repeat constructor; auto.
Qed.

Definition rust_subs (t : rust) : list rust :=
  match t with
  | RuPrim _ | RuNothing _ _ | RuUnicode _ | RuEnum _ _ _ => []
  | RuString c c1 _ => [c; c1]
  | RuArray t _ | RuList t _ | RuSet t _ => [t]
  | RuMap k t _ => [k; t]
  | RuUnion _ _ vs _ => flat_map (fun v => map snd (snd (snd v))) vs
  | RuProduct _ _ _ fs => map snd fs
  end.
Lemma rust_induction (P : rust -> Prop) : (forall t, Forall P (rust_subs t) -> P t) -> forall t, P t.
Proof.
  intros H. fix IH 1. intros t. apply H. destruct t; cbn [rust_subs].
  - constructor.
  - constructor.
  - constructor.
  - repeat constructor; auto.
  - repeat constructor; auto.
  - repeat constructor; auto.
  - repeat constructor; auto.
  - repeat constructor; auto.
  - constructor.
  - induction vs as [|[v [k fs]] vs IHv]; cbn; [constructor|]. apply Forall_app. split; [|exact IHv].
    induction fs as [|[n t] fs IHf]; cbn; constructor; auto.
  - induction fs as [|[n t] fs IHf]; cbn; constructor; auto.
Qed.

(** ** Equality *)

Lemma list_eqb_refl {A} (eqb : A -> A -> bool) l : Forall (fun a => eqb a a = true) l -> list_eqb eqb l l = true.
Proof. induction 1 as [|a l H _ IH]; cbn; [reflexivity|]. now rewrite H. Qed.
Lemma variant_eqb_refl v : variant_eqb v v = true.
Proof. unfold variant_eqb. now rewrite N.eqb_refl. Qed.
Lemma tref_eqb_refl r : tref_eqb r r = true.
Proof.
  induction r as [t H|n|e] using tref_induction; cbn.
  - assert (SZ : forall s, sizing_eqb s s = true) by (intros s; unfold sizing_eqb; now rewrite !N.eqb_refl).
    destruct t; cbn [refs ty_eqb] in *.
    + apply N.eqb_refl.
    + reflexivity.
    + apply list_eqb_refl. apply Forall_forall. intros v _. apply variant_eqb_refl.
    + apply list_eqb_refl. rewrite Forall_map in H. eapply Forall_impl; [|exact H]. cbn. intros a ->. now rewrite variant_eqb_refl.
    + now apply list_eqb_refl.
    + apply list_eqb_refl. rewrite Forall_map in H. eapply Forall_impl; [|exact H]. cbn. intros a ->. now rewrite String.eqb_refl.
    + apply Forall_cons_iff in H as [-> _]. now rewrite N.eqb_refl.
    + apply Forall_cons_iff in H as [-> _]. now rewrite SZ.
    + apply Forall_cons_iff in H as [-> _]. now rewrite SZ.
    + apply Forall_cons_iff in H as [-> H]. apply Forall_cons_iff in H as [-> _]. now rewrite SZ.
  - apply String.eqb_refl.
  - unfold symref_eqb. now rewrite !String.eqb_refl, !N.eqb_refl.
Qed.
Lemma ty_eqb_refl t : ty_eqb tref_eqb t t = true.
Proof. exact (tref_eqb_refl (TrEmbedded t)). Qed.

(** ** Variants in the order of tags *)

Lemma place_In {A} (tag : A -> N) a l x : In x (place tag a l) <-> x = a \/ In x l.
Proof.
  induction l as [|b l IH]; cbn; [intuition congruence|]. destruct (tag a <? tag b); cbn; [intuition congruence|]. rewrite IH. tauto.
Qed.
Lemma place_length {A} (tag : A -> N) a l : List.length (place tag a l) = S (List.length l).
Proof. induction l as [|b l IH]; cbn; [reflexivity|]. destruct (tag a <? tag b); cbn; congruence. Qed.
Lemma place_map {A B} (f : A -> B) (tag : A -> N) (tag' : B -> N) a l : (forall a, tag' (f a) = tag a) ->
  place tag' (f a) (map f l) = map f (place tag a l).
Proof. intros H. induction l as [|b l IH]; cbn; [reflexivity|]. rewrite !H. destruct (tag a <? tag b); cbn; congruence. Qed.
Lemma fold_place_In {A} (tag : A -> N) l acc x : In x (fold_left (fun s a => place tag a s) l acc) <-> In x acc \/ In x l.
Proof.
  revert acc. induction l as [|b l IH]; intros acc; cbn; [tauto|]. rewrite IH, place_In. intuition congruence.
Qed.
Lemma by_tag_In {A} (tag : A -> N) l x : In x (by_tag tag l) <-> In x l.
Proof. unfold by_tag. rewrite fold_place_In. cbn. tauto. Qed.
Lemma by_tag_length {A} (tag : A -> N) l : List.length (by_tag tag l) = List.length l.
Proof.
  unfold by_tag. change (List.length l) with (List.length (@nil A) + List.length l)%nat. generalize (@nil A).
  induction l as [|b l IH]; intros acc; cbn; [lia|]. rewrite IH, place_length. lia.
Qed.
Lemma by_tag_map {A B} (f : A -> B) (tag : A -> N) (tag' : B -> N) l : (forall a, tag' (f a) = tag a) ->
  by_tag tag' (map f l) = map f (by_tag tag l).
Proof.
  intros H. unfold by_tag. change (@nil B) with (map f []). generalize (@nil A).
  induction l as [|b l IH]; intros acc; cbn; [reflexivity|]. rewrite (place_map f tag tag') by exact H. apply IH.
Qed.

Definition apart (v v' : variant) : Prop := v_tag v <> v_tag v' /\ v_name v <> v_name v'.
Lemma variant_cmp_apart v v' : apart v v' -> variant_cmp v v' = if v_tag v <? v_tag v' then Lt else Gt.
Proof.
  intros [T N]. unfold variant_cmp. apply N.eqb_neq in T as T'. apply String.eqb_neq in N. rewrite T', N. cbn.
  destruct (N.ltb_spec (v_tag v) (v_tag v')); [now apply N.compare_lt_iff|]. apply N.compare_gt_iff. lia.
Qed.
Lemma insert_place {R} v (r : R) m : Forall (fun e => apart v (fst e)) m ->
  om_insert variant_cmp v r m = place (fun e => v_tag (fst e)) (v, r) m.
Proof.
  induction 1 as [|[v' r'] m A _ IH]; cbn; [reflexivity|]. cbn in A. rewrite (variant_cmp_apart _ _ A).
  destruct (v_tag v <? v_tag v'); [reflexivity|]. now rewrite IH.
Qed.
Lemma set_insert_place v s : Forall (apart v) s -> set_insert variant_cmp v s = place v_tag v s.
Proof.
  induction 1 as [|v' m A _ IH]; cbn; [reflexivity|]. rewrite (variant_cmp_apart _ _ A).
  destruct (v_tag v <? v_tag v'); [reflexivity|]. now rewrite IH.
Qed.
(** Variants with different names and tags. *)
Fixpoint distinct (vs : list variant) : Prop :=
  match vs with [] => True | v :: vs => Forall (apart v) vs /\ distinct vs end.
Lemma variants_distinct vs : NoDup (map v_tag vs) -> NoDup (map v_name vs) -> distinct vs.
Proof.
  induction vs as [|v vs IH]; cbn; [auto|]. intros T N. inversion T as [|? ? T1 T2]; subst. inversion N as [|? ? N1 N2]; subst. split; [|auto].
  apply Forall_forall. intros w I. split; intros E.
  - apply T1. rewrite E. now apply in_map.
  - apply N1. rewrite E. now apply in_map.
Qed.
Lemma set_fold vs : forall acc, distinct vs -> Forall (fun v => Forall (apart v) acc) vs ->
  fold_left (fun s v => set_insert variant_cmp v s) vs acc = fold_left (fun s v => place v_tag v s) vs acc.
Proof.
  induction vs as [|v vs IH]; intros acc D F; cbn; [reflexivity|]. apply Forall_cons_iff in F as [F1 F]. destruct D as [D1 D].
  rewrite (set_insert_place _ _ F1). apply IH; [exact D|]. rewrite Forall_forall in *. intros w I. apply Forall_forall. intros x X.
  apply place_In in X as [->|X].
  - destruct (D1 w I). split; congruence.
  - specialize (F w I). rewrite Forall_forall in F. now apply F.
Qed.

(** ** References *)

Lemma refs_map {R S} (f : R -> S) (t : ty R) : refs (map_ty f t) = map f (refs t).
Proof. destruct t; cbn; try reflexivity; now rewrite !map_map. Qed.
Lemma product_refs tuple fs : refs (product tuple fs) = map snd fs.
Proof. destruct fs; [reflexivity|]. now destruct tuple. Qed.
Lemma part_trans a b c : part a b -> part b c -> part a c.
Proof. intros P Q. induction Q as [|? ? ? ? I Q IH]; [exact P|]. econstructor; eauto. Qed.
Lemma part_cases p n body : part p (SType n body) -> p = SType n body \/ exists r, In r (refs body) /\ part p r.
Proof. intros H. inversion H; subst; eauto. Qed.

Section Builder.
Variable own : string.
Variable known : list (dependency * option (list semid)).
Notation ref := (st_ref own known).
Notation def := (st_def own known).

Lemma foreign_commit s : (forall p lib n, part p s -> st_name p = Some (lib, n) -> lib <> own) -> commit_tref (ref s) = st_commit s.
Proof.
  induction s as [n body IH] using stype_induction. intros H. destruct n as [[lib n]|]; cbn [st_ref st_commit].
  - assert (N : lib <> own) by (eapply H; [constructor|reflexivity]). apply String.eqb_neq in N. rewrite N. reflexivity.
  - cbn [commit_tref]. symmetry. apply commit_map_ty. rewrite Forall_forall in *. intros r I. symmetry. apply IH; [exact I|].
    intros p lib n P. apply H. econstructor; eauto.
Qed.
Lemma foreign_id lib n body : (forall p lib' n', part p (SType (Some (lib, n)) body) -> st_name p = Some (lib', n') -> lib' <> own) ->
  sem_id_named commit_tref n (map_ty ref body) = st_id (SType (Some (lib, n)) body).
Proof.
  intros H. unfold sem_id_named, sem_id_inner, sem_message. cbn [st_id]. f_equal. f_equal. symmetry. apply commit_map_ty.
  apply Forall_forall. intros r I. symmetry. apply foreign_commit. intros p lib' n' P. apply H. econstructor; eauto.
Qed.

Variable U : stype -> Prop.
Hypothesis U_closed : forall s p, U s -> part p s -> U p.
Hypothesis U_coherent : coherent U.
Hypothesis U_libraries : in_libraries U.
Hypothesis U_layered : layered own U.
Hypothesis U_known : from_known own known U.

Definition present (b : lib_builder) (s : stype) : Prop :=
  match st_name s with
  | None => True
  | Some (lib, n) =>
      if (lib =? own)%string then om_get String.compare n (lb_types b) = Some (def s)
      else exists ids, om_get String.compare lib (lb_extern b) = Some ids /\ In (st_id s) (map fst ids)
  end.
Definition done (b : lib_builder) (s : stype) : Prop := forall p, part p s -> present b p.

Record inv (b : lib_builder) : Prop := {
  inv_lib : lb_lib b = own;
  inv_known : lb_known b = known;
  inv_types : msorted String.compare (lb_types b);
  inv_extern : msorted String.compare (lb_extern b);
  inv_sound : forall n t, om_get String.compare n (lb_types b) = Some t ->
    exists s, U s /\ st_name s = Some (own, n) /\ t = def s /\ done b s;
  inv_ids : forall lib ids, om_get String.compare lib (lb_extern b) = Some ids ->
    msorted N.compare ids /\ ids <> [] /\ lib <> own
    /\ forall id n, In (id, n) ids -> exists s, U s /\ st_name s = Some (lib, n) /\ id = st_id s
}.
Definition grows (b b' : lib_builder) : Prop := forall p, U p -> present b p -> present b' p.

Lemma grows_refl b : grows b b.
Proof. intros p _ H. exact H. Qed.
Lemma grows_trans a b c : grows a b -> grows b c -> grows a c.
Proof. intros H K p I P. apply K; auto. Qed.
Lemma done_grows b b' s : U s -> grows b b' -> done b s -> done b' s.
Proof. intros I G D p P. apply G; eauto. Qed.

Lemma inv_last b r : inv b -> inv (set_last b r).
Proof. intros I. destruct I. now constructor. Qed.
Lemma present_last b r s : present (set_last b r) s <-> present b s.
Proof. reflexivity. Qed.
Lemma grows_last b r : grows b (set_last b r).
Proof. intros p _ H. exact H. Qed.

Lemma find_known s lib n : U s -> st_name s = Some (lib, n) -> lib <> own ->
  exists k, find (fun k => (d_name (fst k) =? lib)%string) known = Some k /\ dep_id known lib = d_id (fst k).
Proof.
  intros I E N. destruct (U_known s lib n I E N) as (k & K & L). unfold dep_id.
  destruct (find _ known) as [k'|] eqn:F; [eauto|]. exfalso. apply (find_none _ _ F) in K. apply String.eqb_neq in K. contradiction.
Qed.

Definition compiled (b b' : lib_builder) (s : stype) : Prop := inv b' /\ grows b b' /\ lb_last b' = Some (ref s) /\ done b' s.

Lemma report_spec lib name body b :
  let s := SType (full_name lib name) body in
  U s -> inv b -> (forall r, In r (refs body) -> done b r) ->
  exists b', report_compiled b lib name (map_ty ref body) = Ok b' /\ compiled b b' s.
Proof.
  intros s I V D. unfold report_compiled. destruct name as [n|].
  2:{ eexists. split; [reflexivity|]. split; [now apply inv_last|]. split; [apply grows_last|]. split; [reflexivity|].
      intros p P. apply present_last. unfold s in P. apply part_cases in P as [->|(r & R & P)]; [constructor|]. now apply (D r). }
  cbn [full_name option_map] in s. rewrite (inv_lib b V). destruct (lib =? own)%string eqn:L.
  - apply String.eqb_eq in L as L'. subst lib.
    assert (SN : st_name s = Some (own, n)) by reflexivity.
    exists (mkLibBuilder own (lb_known b) (lb_extern b) (om_insert String.compare n (map_ty ref body) (lb_types b)) (Some (TrNamed n))).
    assert (E : match om_get String.compare n (lb_types b) with Some old => ty_eqb tref_eqb old (map_ty ref body) | None => true end = true).
    { destruct (om_get String.compare n (lb_types b)) as [old|] eqn:G; [|reflexivity].
      destruct (inv_sound b V _ _ G) as (s' & I' & N' & -> & _). rewrite (U_coherent s' s _ I' I N' SN). apply ty_eqb_refl. }
    split; [destruct (om_get String.compare n (lb_types b)); [now rewrite E|reflexivity]|].
    assert (G : grows b (mkLibBuilder own (lb_known b) (lb_extern b) (om_insert String.compare n (map_ty ref body) (lb_types b)) (Some (TrNamed n)))).
    { intros p IP. unfold present. destruct (st_name p) as [[l m]|] eqn:NP; [|auto]. cbn [lb_types lb_extern].
      destruct (l =? own)%string eqn:LP; [|auto]. rewrite (mget_ins _ string_lawful) by apply V. intros Q.
      destruct (String.compare m n) eqn:C; auto. apply (law_eq _ string_lawful) in C. subst m. apply String.eqb_eq in LP. subst l.
      rewrite (U_coherent p s _ IP I NP SN). reflexivity. }
    assert (P : present (mkLibBuilder own (lb_known b) (lb_extern b) (om_insert String.compare n (map_ty ref body) (lb_types b)) (Some (TrNamed n))) s).
    { unfold present. rewrite SN, String.eqb_refl. cbn [lb_types]. rewrite (mget_ins _ string_lawful) by apply V.
      rewrite (cmp_refl _ string_lawful). reflexivity. }
    assert (DN : done (mkLibBuilder own (lb_known b) (lb_extern b) (om_insert String.compare n (map_ty ref body) (lb_types b)) (Some (TrNamed n))) s).
    { intros p Q. unfold s in Q. apply part_cases in Q as [->|(r & R & Q)]; [exact P|]. apply G; [|now apply (D r)].
      eapply U_closed; [exact I|]. econstructor; eauto. }
    split; [|split; [exact G|split; [|exact DN]]].
    + split; cbn [lb_lib lb_known lb_types lb_extern]; try apply V; [reflexivity|apply (mins_sorted _ string_lawful); apply V| ].
      intros m t. rewrite (mget_ins _ string_lawful) by apply V. intros Q.
      assert (Y : m = n /\ t = map_ty ref body \/ om_get String.compare m (lb_types b) = Some t).
      { destruct (String.compare m n) eqn:C; auto. apply (law_eq _ string_lawful) in C. injection Q as <-. now left. }
      destruct Y as [[-> ->]|Y]; [exists s; repeat split; auto|].
      destruct (inv_sound b V _ _ Y) as (s' & I' & N' & E' & D'). exists s'. repeat split; auto. eapply done_grows; eauto.
    + cbn [lb_last]. unfold s. cbn [st_ref]. rewrite L. reflexivity.
  - apply String.eqb_neq in L as L'.
    assert (SN : st_name s = Some (lib, n)) by reflexivity.
    destruct (find_known s lib n I SN L') as (k & F & DI).
    unfold dependency_id. rewrite (inv_known b V), F. cbn [bind].
    assert (ID : sem_id_named commit_tref n (map_ty ref body) = st_id s).
    { apply foreign_id. intros p l m P Q. eapply U_layered; [exact I|exact SN|exact L'|exact P|exact Q]. }
    rewrite ID. assert (IDE : exists sid, sid = st_id s) by (eexists; exact eq_refl). destruct IDE as [sid IDE]. rewrite <- IDE. set (ids := match om_get String.compare lib (lb_extern b) with Some ids => ids | None => [] end).
    assert (SI : msorted N.compare ids).
    { unfold ids. destruct (om_get String.compare lib (lb_extern b)) eqn:G; [apply (inv_ids b V _ _ G)|constructor]. }
    set (b' := mkLibBuilder own known (om_insert String.compare lib (om_insert N.compare sid n ids) (lb_extern b)) (lb_types b)
      (Some (TrExtern (mkSymRef lib n (d_id (fst k)) sid)))).
    assert (G : grows b b').
    { intros p IP. unfold present. destruct (st_name p) as [[l m]|] eqn:NP; [|auto]. cbn [b' lb_types lb_extern].
      destruct (l =? own)%string eqn:LP; [auto|]. rewrite (mget_ins _ string_lawful) by apply V. intros (ids' & Q & M).
      destruct (String.compare l lib) eqn:C; eauto. apply (law_eq _ string_lawful) in C. subst l.
      eexists. split; [reflexivity|]. apply (mins_keys _ N_lawful); [exact SI|]. right. unfold ids. now rewrite Q. }
    assert (P : present b' s).
    { unfold present. rewrite SN, L, <- IDE. cbn [b' lb_extern]. rewrite (mget_ins _ string_lawful) by apply V.
      rewrite (cmp_refl _ string_lawful). eexists. split; [reflexivity|]. apply (mins_keys _ N_lawful); [exact SI|left; exact eq_refl]. }
    exists b'. split; [reflexivity|]. split; [|split; [exact G|split]].
    + split; cbn [b' lb_lib lb_known lb_types lb_extern]; try apply V; try reflexivity.
      * apply (mins_sorted _ string_lawful); apply V.
      * intros m t Q. destruct (inv_sound b V _ _ Q) as (s' & I' & N' & E' & D'). exists s'. repeat split; auto. eapply done_grows; eauto.
      * intros l ids'. rewrite (mget_ins _ string_lawful) by apply V. intros Q.
        assert (Y : l = lib /\ ids' = om_insert N.compare sid n ids \/ om_get String.compare l (lb_extern b) = Some ids').
        { destruct (String.compare l lib) eqn:C; auto. apply (law_eq _ string_lawful) in C. injection Q as Q'. left. split; [exact C|symmetry; exact Q']. }
        destruct Y as [[-> ->]|Y]; [|now apply (inv_ids b V)].
        split; [now apply (mins_sorted _ N_lawful)|]. split; [|split; [exact L'|]].
        -- intros X. assert (Z : In sid (map fst (om_insert N.compare sid n ids))) by (apply (mins_keys _ N_lawful); [exact SI|left; exact eq_refl]).
           rewrite X in Z. destruct Z.
        -- intros id m M. apply (mins_In _ N_lawful) in M as [[= -> ->]|M]; [exists s; split; [exact I|split; [exact SN|exact IDE]]|].
           unfold ids in M. destruct (om_get String.compare lib (lb_extern b)) as [ids'|] eqn:G'; [|destruct M].
           destruct (inv_ids b V _ _ G') as (_ & _ & _ & H). now apply H.
    + cbn [b' lb_last]. unfold s. cbn [st_ref]. rewrite L, DI. fold s. rewrite IDE. exact eq_refl.
    + intros p Q. unfold s in Q. apply part_cases in Q as [->|(r & R & Q)]; [exact P|]. apply G; [|now apply (D r)].
      eapply U_closed; [exact I|]. econstructor; eauto.
Qed.

Lemma rust_named t : describable t -> st_name (meaning t) = full_name (fst (rust_name t)) (snd (rust_name t)).
Proof. destruct t; cbn; tauto. Qed.

Definition encodes (dbg : bool) (t : rust) : Prop :=
  describable t -> U (meaning t) -> forall b, inv b -> exists b', encode dbg t b = Ok b' /\ compiled b b' (meaning t).

Lemma compile_type_spec dbg t b : encodes dbg t -> describable t -> U (meaning t) -> inv b ->
  exists b', compile_type (encode dbg t) (rust_name t) b = Ok (b', ref (meaning t)) /\ inv b' /\ grows b b' /\ done b' (meaning t).
Proof.
  intros H O I V. destruct (H O I b V) as (b' & E & V' & G & L & D). pose proof (rust_named t O) as N.
  unfold compile_type. destruct (rust_name t) as [lib [n|]]; cbn [fst snd full_name option_map] in N.
  2:{ exists b'. rewrite E. cbn. rewrite L. cbn. auto. }
  destruct (lib =? LIB_EMBEDDED)%string eqn:LE.
  { apply String.eqb_eq in LE. now apply (U_libraries _ _ _ I) in N. }
  rewrite (inv_lib b V). destruct (lib =? own)%string eqn:LO; cbn [negb].
  - destruct (om_get String.compare n (lb_types b)) as [t0|] eqn:G0.
    + apply String.eqb_eq in LO. subst lib. destruct (inv_sound b V _ _ G0) as (s & I' & N' & _ & D').
      rewrite (U_coherent s (meaning t) _ I' I N' N) in D'. exists b. split; [|split; [exact V|split; [apply grows_refl|exact D']]].
      f_equal. f_equal. destruct (meaning t) as [nm body]. cbn in N. subst nm. cbn [st_ref]. now rewrite String.eqb_refl.
    + exists b'. rewrite E. cbn. rewrite L. cbn. auto.
  - rewrite E. cbn [bind]. rewrite L. cbn [expect bind]. apply String.eqb_neq in LO as LN.
    destruct (find_known _ _ _ I N LN) as (k & F & DI). unfold dependency_id. rewrite (inv_known b' V'), F. cbn [bind].
    exists b'. split; [|auto]. f_equal. f_equal. destruct (meaning t) as [nm body]. cbn in N. subst nm. cbn [st_ref]. rewrite LO, DI. reflexivity.
Qed.

Notation compile_ dbg := (fun t b => compile_type (encode dbg t) (rust_name t) b).
Lemma fields_spec dbg fs : Forall (encodes dbg) (map snd fs) -> all (fun f => describable (snd f)) fs ->
  (forall f, In f fs -> U (meaning (snd f))) -> forall b, inv b ->
  exists b', compile_fields (compile_ dbg) fs b = Ok (b', map (fun f => (fst f, ref (meaning (snd f)))) fs)
    /\ inv b' /\ grows b b' /\ forall f, In f fs -> done b' (meaning (snd f)).
Proof.
  induction fs as [|[n t] fs IH]; intros H O I b V.
  - exists b. split; [reflexivity|]. split; [exact V|]. split; [apply grows_refl|intros f []].
  - cbn [map snd fst] in *. apply Forall_cons_iff in H as [Ht H]. destruct O as [Ot O]. cbn [snd] in Ot.
    destruct (compile_type_spec dbg t b Ht Ot (I _ (or_introl eq_refl)) V) as (b1 & E1 & V1 & G1 & D1).
    destruct (IH H O (fun f J => I f (or_intror J)) b1 V1) as (b2 & E2 & V2 & G2 & D2).
    exists b2. split; [|split; [exact V2|split; [eapply grows_trans; eauto|]]].
    + unfold compile_fields. rewrite E1. cbn [bind]. fold (compile_fields (compile_ dbg)). rewrite E2. reflexivity.
    + intros f [<-|J]; [|now apply D2]. cbn [snd]. eapply done_grows; [exact (I _ (or_introl eq_refl))|exact G2|exact D1].
Qed.
Lemma build_struct_spec tuple fs : sized 0 255 fs ->
  build_struct tuple (map (fun f => (fst f, ref (meaning (snd f)))) fs)
  = Ok (map_ty ref (product tuple (map (fun f => (fst f, meaning (snd f))) fs))).
Proof.
  intros S. destruct fs as [|f fs]; [reflexivity|]. unfold build_struct, product.
  set (l := f :: fs) in *. assert (X : map (fun f => (fst f, ref (meaning (snd f)))) l <> []) by discriminate.
  destruct (map (fun f => (fst f, ref (meaning (snd f)))) l) as [|x y] eqn:E; [congruence|]. rewrite <- E. clear X E x y.
  assert (X : map (fun f => (fst f, meaning (snd f))) l <> []) by discriminate.
  destruct (map (fun f => (fst f, meaning (snd f))) l) as [|x y] eqn:E; [congruence|]. rewrite <- E. clear X E x y.
  unfold sized, lenN in S. unfold lenN. rewrite map_length.
  replace (N.of_nat (List.length l) <=? u8_max) with true by (symmetry; apply N.leb_le; unfold u8_max; lia). cbn [negb].
  destruct tuple; cbn [map_ty]; now rewrite !map_map.
Qed.

Definition variant_type (body : variant_kind * list (string * rust)) : stype :=
  match fst body with
  | KUnit => SType None (TPrim P_UNIT)
  | KFields tuple => SType None (product tuple (map (fun f => (fst f, meaning (snd f))) (snd body)))
  end.
Lemma variant_spec dbg body : Forall (encodes dbg) (map snd (snd body)) -> sized 0 255 (snd body) ->
  all (fun f => describable (snd f)) (snd body) -> U (variant_type body) -> forall b, inv b ->
  exists b', compile_variant (compile_ dbg) body b = Ok b' /\ compiled b b' (variant_type body).
Proof.
  destruct body as [[|tuple] fs]; cbn [fst snd]; unfold variant_type; cbn [fst snd]; intros H S O I b V.
  - eexists. split; [reflexivity|]. split; [now apply inv_last|]. split; [apply grows_last|]. split; [reflexivity|].
    intros p P. apply part_cases in P as [->|(r & [] & _)]. constructor.
  - assert (IF : forall f, In f fs -> U (meaning (snd f))).
    { intros f J. eapply U_closed; [exact I|]. econstructor; [|constructor]. rewrite product_refs. apply in_map_iff.
      exists (fst f, meaning (snd f)). split; [reflexivity|]. now apply (in_map (fun f => (fst f, meaning (snd f)))). }
    destruct (fields_spec dbg fs H O IF b V) as (b' & E & V' & G & D). cbn [compile_variant]. rewrite E. cbn [bind].
    rewrite (build_struct_spec tuple fs S). cbn [bind]. eexists. split; [reflexivity|]. split; [now apply inv_last|].
    split; [eapply grows_trans; [exact G|apply grows_last]|]. split; [reflexivity|].
    intros p P. apply present_last. apply part_cases in P as [->|(r & R & P)]; [constructor|]. rewrite product_refs in R.
    apply in_map_iff in R as (f' & <- & R). apply in_map_iff in R as (f & <- & R). cbn [snd] in P. now apply (D f).
Qed.
Lemma define_spec dbg vs : Forall (encodes dbg) (flat_map (fun v => map snd (snd (snd v))) vs) ->
  all (fun v => sized 0 255 (snd (snd v)) /\ all (fun f => describable (snd f)) (snd (snd v))) vs ->
  (forall v, In v vs -> U (variant_type (snd v))) -> distinct (map fst vs) ->
  forall acc b, inv b -> Forall (fun v => Forall (fun e => apart (fst v) (fst e)) acc) vs ->
  exists b', define_variants (compile_ dbg) vs b acc
    = Ok (b', fold_left (fun s e => place (fun e => v_tag (fst e)) e s) (map (fun v => (fst v, ref (variant_type (snd v)))) vs) acc)
    /\ inv b' /\ grows b b' /\ forall v, In v vs -> done b' (variant_type (snd v)).
Proof.
  induction vs as [|[v body] vs IH]; intros H O I Di acc b V A.
  - exists b. split; [reflexivity|]. split; [exact V|]. split; [apply grows_refl|intros f []].
  - cbn [map snd fst flat_map] in *. apply Forall_app in H as [Ht H]. destruct O as [[S Ot] O]. cbn [snd] in S, Ot.
    apply Forall_cons_iff in A as [A1 A]. destruct Di as [Di1 Di].
    destruct (variant_spec dbg body Ht S Ot (I _ (or_introl eq_refl)) b V) as (b1 & E1 & V1 & G1 & L1 & D1).
    destruct (IH H O (fun f J => I f (or_intror J)) Di (place (fun e => v_tag (fst e)) (v, ref (variant_type body)) acc) b1 V1)
      as (b2 & E2 & V2 & G2 & D2).
    { rewrite Forall_forall in *. intros w J. apply Forall_forall. intros e K. apply place_In in K as [->|K].
      - cbn [fst]. destruct (Di1 (fst w) (in_map fst _ _ J)). split; congruence.
      - specialize (A w J). rewrite Forall_forall in A. now apply A. }
    exists b2. split; [|split; [exact V2|split; [eapply grows_trans; eauto|]]].
    + unfold define_variants. rewrite E1. cbn [bind]. rewrite L1. cbn [expect bind]. fold (define_variants (compile_ dbg)).
      rewrite (insert_place v _ acc) by (eapply Forall_impl; [|exact A1]; auto). rewrite E2. reflexivity.
    + intros f [<-|J]; [|now apply D2]. cbn [snd]. eapply done_grows; [exact (I _ (or_introl eq_refl))|exact G2|exact D1].
Qed.
Lemma write_spec dbg vs : Forall (encodes dbg) (flat_map (fun v => map snd (snd (snd v))) vs) ->
  all (fun v => sized 0 255 (snd (snd v)) /\ all (fun f => describable (snd f)) (snd (snd v))) vs ->
  (forall v, In v vs -> U (variant_type (snd v))) ->
  forall n b, inv b -> (n < List.length vs)%nat ->
  exists b', write_nth (compile_ dbg) vs n b = Ok b' /\ inv b' /\ grows b b'.
Proof.
  induction vs as [|[v body] vs IH]; intros H O I n b V L; [cbn in L; lia|].
  cbn [map snd fst flat_map] in *. apply Forall_app in H as [Ht H]. destruct O as [[S Ot] O]. cbn [snd] in S, Ot.
  destruct n as [|n].
  - destruct (variant_spec dbg body Ht S Ot (I _ (or_introl eq_refl)) b V) as (b1 & E1 & V1 & G1 & L1 & D1). eauto.
  - destruct (IH H O (fun f J => I f (or_intror J)) n b V) as (b1 & E & X); [cbn in L; lia|]. exists b1. split; [exact E|exact X].
Qed.

Lemma confined_ok {A} (l : list A) : sized 1 255 l -> confined_variants l = Ok l.
Proof.
  intros [S1 S2]. unfold confined_variants, u8_max. apply N.leb_le in S1. rewrite S1. cbn [andb].
  replace (lenN l <=? _) with true; [reflexivity|]. symmetry. apply N.leb_le. lia.
Qed.
Lemma u64_decr_ok dbg n : 1 <= n -> u64_decr dbg n = Ok (n - 1).
Proof. intros H. unfold u64_decr. destruct (N.eqb_spec n 0); [lia|reflexivity]. Qed.

(** One component, the type itself without a name. *)
Lemma embedded_spec b b' body : inv b' -> grows b b' -> (forall r, In r (refs body) -> done b' r) ->
  compiled b (set_last b' (TrEmbedded (map_ty ref body))) (SType None body).
Proof.
  intros V G D. split; [now apply inv_last|]. split; [eapply grows_trans; [exact G|apply grows_last]|]. split; [reflexivity|].
  intros p P. apply present_last. apply part_cases in P as [->|(r & R & P)]; [constructor|]. now apply (D r).
Qed.

Lemma encode_spec dbg t : encodes dbg t.
Proof.
  induction t as [t H] using rust_induction. intros O I b V.
  destruct t; cbn [rust_subs] in H; cbn [encode]; cbn [describable] in O; cbn [meaning] in *.
  - eexists. split; [reflexivity|]. apply (embedded_spec b b (TPrim code)); [exact V|apply grows_refl|intros r []].
  - destruct O.
  - eexists. split; [reflexivity|]. apply (embedded_spec b b (TList (SType None TUnicode) s)); [exact V|apply grows_refl|].
    intros r [<-|[]] p P. apply part_cases in P as [->|(r & [] & _)]. constructor.
  - apply Forall_cons_iff in H as [Hc H]. apply Forall_cons_iff in H as [Hc1 _]. destruct O as (Oc & Oc1 & S1 & S2).
    assert (Ic1 : U (meaning t2)) by (eapply U_closed; [exact I|]; econstructor; [now left|constructor]).
    assert (Ic : U (meaning t1)).
    { eapply U_closed; [exact I|]. econstructor; [right; now left|]. econstructor; [now left|constructor]. }
    destruct (Hc1 Oc1 Ic1 b V) as (b1 & E1 & V1 & G1 & L1 & D1). rewrite E1. cbn [bind]. rewrite L1. cbn [expect bind].
    destruct (Hc Oc Ic b1 V1) as (b2 & E2 & V2 & G2 & L2 & D2). rewrite E2. cbn [bind]. rewrite L2. cbn [expect bind].
    rewrite (u64_decr_ok _ _ S1), (u64_decr_ok _ _ S2). cbn [bind]. eexists. split; [reflexivity|].
    apply (embedded_spec b b2 (TTuple [meaning t2; SType None (TList (meaning t1) (mkSizing (s_min s - 1) (s_max s - 1)))]));
      [exact V2|eapply grows_trans; eauto|].
    intros r [<-|[<-|[]]]; [eapply done_grows; [exact Ic1|exact G2|exact D1]|].
    intros p P. apply part_cases in P as [->|(r & [<-|[]] & P)]; [constructor|]. now apply D2.
  - apply Forall_cons_iff in H as [Ht _].
    assert (It : U (meaning t)) by (eapply U_closed; [exact I|]; econstructor; [now left|constructor]).
    destruct (Ht O It b V) as (b1 & E1 & V1 & G1 & L1 & D1). rewrite E1. cbn [bind]. rewrite L1. cbn [expect bind].
    eexists. split; [reflexivity|]. apply (embedded_spec b b1 (TArray (meaning t) len)); [exact V1|exact G1|].
    now intros r [<-|[]].
  - apply Forall_cons_iff in H as [Ht _].
    assert (It : U (meaning t)) by (eapply U_closed; [exact I|]; econstructor; [now left|constructor]).
    destruct (Ht O It b V) as (b1 & E1 & V1 & G1 & L1 & D1). rewrite E1. cbn [bind]. rewrite L1. cbn [expect bind].
    eexists. split; [reflexivity|]. apply (embedded_spec b b1 (TList (meaning t) s)); [exact V1|exact G1|].
    now intros r [<-|[]].
  - apply Forall_cons_iff in H as [Ht _].
    assert (It : U (meaning t)) by (eapply U_closed; [exact I|]; econstructor; [now left|constructor]).
    destruct (Ht O It b V) as (b1 & E1 & V1 & G1 & L1 & D1). rewrite E1. cbn [bind]. rewrite L1. cbn [expect bind].
    eexists. split; [reflexivity|]. apply (embedded_spec b b1 (TSet (meaning t) s)); [exact V1|exact G1|].
    now intros r [<-|[]].
  - apply Forall_cons_iff in H as [Hk H]. apply Forall_cons_iff in H as [Ht _]. destruct O as (Ok_ & Ot).
    assert (Ik : U (meaning t1)) by (eapply U_closed; [exact I|]; econstructor; [now left|constructor]).
    assert (It : U (meaning t2)) by (eapply U_closed; [exact I|]; econstructor; [right; now left|constructor]).
    destruct (Hk Ok_ Ik b V) as (b1 & E1 & V1 & G1 & L1 & D1). rewrite E1. cbn [bind]. rewrite L1. cbn [expect bind].
    destruct (Ht Ot It b1 V1) as (b2 & E2 & V2 & G2 & L2 & D2). rewrite E2. cbn [bind]. rewrite L2. cbn [expect bind].
    eexists. split; [reflexivity|]. apply (embedded_spec b b2 (TMap (meaning t1) (meaning t2) s)); [exact V2|eapply grows_trans; eauto|].
    intros r [<-|[<-|[]]]; [|exact D2]. eapply done_grows; [exact Ik|exact G2|exact D1].
  - destruct O as (S & T & N). pose proof (variants_distinct vs T N) as Di.
    rewrite (set_fold vs [] Di) by (apply Forall_forall; constructor). fold (by_tag v_tag vs).
    rewrite confined_ok by (unfold sized, lenN in *; now rewrite by_tag_length). cbn [bind].
    destruct (report_spec lib name (TEnum (by_tag v_tag vs)) b I V) as (b1 & E1 & V1 & G1 & L1 & D1); [intros r []|].
    cbn [map_ty] in E1. rewrite E1. cbn [bind].
    destruct (report_spec lib name (TEnum (by_tag v_tag vs)) b1 I V1) as (b2 & E2 & V2 & G2 & L2 & D2); [intros r []|].
    exists b2. split; [exact E2|]. split; [exact V2|]. split; [eapply grows_trans; eauto|]. split; [exact L2|exact D2].
  - destruct O as ((S & T & N) & W & Ov). rewrite map_map in T, N.
    pose proof (variants_distinct (map fst vs)) as Di. rewrite !map_map in Di. specialize (Di T N).
    set (body := TUnion (by_tag (fun e : variant * stype => v_tag (fst e)) (map (fun v => (fst v, variant_type (snd v))) vs))).
    change (U (SType (full_name lib name) body)) in I.
    change (exists b', (let* (b, defined) := define_variants (compile_ dbg) vs b [] in
      let* defined := confined_variants defined in
      let* b := report_compiled b lib name (TUnion defined) in
      let* b := write_nth (compile_ dbg) vs written b in
      report_compiled b lib name (TUnion defined)) = Ok b' /\ compiled b b' (SType (full_name lib name) body)).
    assert (RB : forall r, In r (refs body) <-> exists v, In v vs /\ r = variant_type (snd v)).
    { intros r. unfold body. cbn [refs]. rewrite in_map_iff. split.
      - intros (e & <- & J). rewrite by_tag_In in J. apply in_map_iff in J as (v & <- & J). now exists v.
      - intros (v & J & ->). exists (fst v, variant_type (snd v)). split; [reflexivity|]. apply by_tag_In. apply in_map_iff. now exists v. }
    assert (Iv : forall v, In v vs -> U (variant_type (snd v))).
    { intros v J. eapply U_closed; [exact I|]. econstructor; [|constructor]. apply RB. now exists v. }
    destruct (define_spec dbg vs H Ov Iv Di [] b V) as (b1 & E1 & V1 & G1 & D1).
    { apply Forall_forall. constructor. }
    rewrite E1. cbn [bind]. fold (by_tag (fun e : variant * tref => v_tag (fst e)) (map (fun v => (fst v, ref (variant_type (snd v)))) vs)).
    assert (EB : by_tag (fun e : variant * tref => v_tag (fst e)) (map (fun v => (fst v, ref (variant_type (snd v)))) vs)
      = map (fun e => (fst e, ref (snd e))) (by_tag (fun e : variant * stype => v_tag (fst e)) (map (fun v => (fst v, variant_type (snd v))) vs))).
    { rewrite <- (by_tag_map (fun e => (fst e, ref (snd e))) (fun e : variant * stype => v_tag (fst e)) (fun e : variant * tref => v_tag (fst e))) by reflexivity.
      now rewrite map_map. }
    rewrite EB. rewrite confined_ok by (unfold sized, lenN in *; rewrite map_length in S; now rewrite map_length, by_tag_length, map_length).
    cbn [bind]. change (TUnion (map (fun e => (fst e, ref (snd e))) (by_tag (fun e : variant * stype => v_tag (fst e)) (map (fun v => (fst v, variant_type (snd v))) vs))))
      with (map_ty ref body).
    assert (DB : forall b', grows b1 b' -> forall r, In r (refs body) -> done b' r).
    { intros b' G r R. apply RB in R as (v & J & ->). eapply done_grows; [now apply Iv|exact G|now apply D1]. }
    destruct (report_spec lib name body b1 I V1 (DB b1 (grows_refl b1))) as (b2 & E2 & V2 & G2 & L2 & D2). rewrite E2. cbn [bind].
    destruct (write_spec dbg vs H Ov Iv written b2 V2 W) as (b3 & E3 & V3 & G3). rewrite E3. cbn [bind].
    destruct (report_spec lib name body b3 I V3 (DB b3 (grows_trans _ _ _ G2 G3))) as (b4 & E4 & V4 & G4 & L4 & D4).
    exists b4. split; [exact E4|]. split; [exact V4|]. split; [|split; [exact L4|exact D4]].
    eapply grows_trans; [exact G1|]. eapply grows_trans; [exact G2|]. eapply grows_trans; eauto.
  - destruct O as (S & Of).
    assert (IF : forall f, In f fs -> U (meaning (snd f))).
    { intros f J. eapply U_closed; [exact I|]. econstructor; [|constructor]. rewrite product_refs. apply in_map_iff.
      exists (fst f, meaning (snd f)). split; [reflexivity|]. now apply (in_map (fun f => (fst f, meaning (snd f)))). }
    destruct (fields_spec dbg fs H Of IF b V) as (b1 & E1 & V1 & G1 & D1). rewrite E1. cbn [bind].
    rewrite (build_struct_spec tuple fs S). cbn [bind].
    destruct (report_spec lib name (product tuple (map (fun f => (fst f, meaning (snd f))) fs)) b1 I V1) as (b2 & E2 & V2 & G2 & L2 & D2).
    { intros r R. rewrite product_refs in R. apply in_map_iff in R as (f' & <- & R). apply in_map_iff in R as (f & <- & R). now apply (D1 f). }
    exists b2. split; [exact E2|]. split; [exact V2|]. split; [eapply grows_trans; eauto|]. split; [exact L2|exact D2].
Qed.

Lemma inv_new : inv (builder_with own known).
Proof. split; cbn; try reflexivity; try constructor; discriminate. Qed.
Lemma transpile_spec dbg ts : Forall describable ts -> (forall t, In t ts -> U (meaning t)) -> forall b, inv b ->
  exists b', transpile dbg ts b = Ok b' /\ inv b' /\ grows b b' /\ forall t, In t ts -> done b' (meaning t).
Proof.
  induction ts as [|t ts IH]; intros O I b V.
  - exists b. split; [reflexivity|]. split; [exact V|]. split; [apply grows_refl|intros t []].
  - apply Forall_cons_iff in O as [Ot O]. pose proof (I t (or_introl eq_refl)) as It.
    destruct (encode_spec dbg t Ot It b V) as (b1 & E1 & V1 & G1 & L1 & D1). cbn [transpile]. rewrite E1. cbn [bind].
    destruct (IH O (fun t J => I t (or_intror J)) b1 V1) as (b2 & E2 & V2 & G2 & D2).
    exists b2. split; [exact E2|]. split; [exact V2|]. split; [eapply grows_trans; eauto|].
    intros u [<-|J]; [|now apply D2]. eapply done_grows; [exact It|exact G2|exact D1].
Qed.
End Builder.
