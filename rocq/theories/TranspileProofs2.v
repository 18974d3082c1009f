(** Proofs about the derivation of libraries from Rust types: the symbolic library. *)
From Coq Require Import NArith List Bool String Sorted Permutation Lia.
From Verif Require Import Base Sha256 Ty Ids TypeSys Spec SpecIds TyProofs IdProofs LibCodec SpecLib LibCodecProofs Build BuildProofs
  MapLemmas Compile SpecCompile CompileProofs2 Transpile SpecTranspile TranspileProofs.
Import ListNotations.
Local Open Scope N_scope.
Local Opaque tagged_hash.

(** ** Lists and maps *)

Lemma om_get_NoDup {V} k (v : V) m : NoDup (map fst m) -> (om_get String.compare k m = Some v <-> In (k, v) m).
Proof.
  induction m as [|[k1 v1] m IH]; cbn; intros ND; [split; [discriminate|intros []]|].
  inversion ND as [|? ? N ND']; subst. specialize (IH ND').
  destruct (String.compare k k1) eqn:C.
  - apply (law_eq _ string_lawful) in C. subst k1. split; [intros [= ->]; now left|]. intros [[= <-]|I]; [reflexivity|].
    exfalso. apply N. now apply (in_map fst) in I.
  - rewrite IH. split; [now right|]. intros [[= -> ->]|I]; [|exact I]. rewrite (cmp_refl _ string_lawful) in C. discriminate C.
  - rewrite IH. split; [now right|]. intros [[= -> ->]|I]; [|exact I]. rewrite (cmp_refl _ string_lawful) in C. discriminate C.
Qed.
Lemma fold_ins {V} (l : list (string * V)) : NoDup (map fst l) -> forall m, msorted String.compare m ->
  (forall e, In e m -> ~ In (fst e) (map fst l)) ->
  msorted String.compare (fold_left (fun m e => om_insert String.compare (fst e) (snd e) m) l m)
  /\ forall k v, In (k, v) (fold_left (fun m e => om_insert String.compare (fst e) (snd e) m) l m) <-> In (k, v) m \/ In (k, v) l.
Proof.
  induction l as [|[k v] l IH]; intros ND m S D; cbn [fold_left fst snd].
  - split; [exact S|]. intros. cbn. tauto.
  - cbn in ND. inversion ND as [|? ? N ND']; subst.
    assert (M : forall a b, In (a, b) (om_insert String.compare k v m) <-> (a, b) = (k, v) \/ In (a, b) m).
    { intros a b. rewrite <- (mget_In _ string_lawful) by now apply (mins_sorted _ string_lawful).
      rewrite (mget_ins _ string_lawful) by exact S. rewrite <- (mget_In _ string_lawful) by exact S.
      destruct (String.compare a k) eqn:C.
      - apply (law_eq _ string_lawful) in C. subst a. split; [intros [= ->]; now left|]. intros [[= ->]|G]; [reflexivity|].
        apply (mget_In _ string_lawful) in G; [|exact S]. exfalso. apply (D _ G). now left.
      - split; [now right|]. intros [[= -> ->]|G]; [|exact G]. rewrite (cmp_refl _ string_lawful) in C. discriminate C.
      - split; [now right|]. intros [[= -> ->]|G]; [|exact G]. rewrite (cmp_refl _ string_lawful) in C. discriminate C. }
    destruct (IH ND' (om_insert String.compare k v m)) as [A B].
    + now apply (mins_sorted _ string_lawful).
    + intros [a b] I. apply M in I as [[= -> ->]|I]; [exact N|]. intros J. apply (D _ I). now right.
    + split; [exact A|]. intros a b. rewrite B, M. cbn. intuition congruence.
Qed.
Lemma fold_sorted {V} (l m : list (string * V)) : msorted String.compare m -> Permutation l m ->
  fold_left (fun m e => om_insert String.compare (fst e) (snd e) m) l [] = m.
Proof.
  intros S P. destruct (fold_ins l) with (m := @nil (string * V)) as [A B].
  - eapply Permutation_NoDup; [apply Permutation_map, Permutation_sym, P|]. now apply (msorted_NoDup _ string_lawful).
  - constructor.
  - intros e [].
  - apply (msorted_eq _ string_lawful); [exact A|exact S|]. intros k v. rewrite B. split.
    + intros [[]|I]. eapply Permutation_in; eauto.
    + intros I. right. eapply Permutation_in; [apply Permutation_sym|]; eauto.
Qed.

(** ** Checks *)

Lemma check_refs_ok types within rs : (forall n c, In (TrNamed n, c) rs -> In n (map fst types)) -> check_refs types within rs = Ok tt.
Proof.
  induction rs as [|[r c] rs IH]; intros H; cbn; [reflexivity|].
  assert (H' : forall n c, In (TrNamed n, c) rs -> In n (map fst types)) by (intros n c' I; eapply H; right; exact I).
  destruct r; auto. destruct (om_get String.compare name types) eqn:G; [now apply IH|].
  apply (mget_none _ string_lawful) in G. exfalso. apply G. eapply H. now left.
Qed.
Lemma check_types_ok (dbg : bool) types ts : (forall n t, In (n, t) ts -> lenN (refs t) <= (if dbg then 254 else 255)) ->
  (forall n t m, In (n, t) ts -> In (TrNamed m) (refs t) -> In m (map fst types)) -> check_types dbg types ts = Ok tt.
Proof.
  induction ts as [|[n t] ts IH]; intros L H; cbn [check_types]; [reflexivity|].
  destruct (type_refs_ok dbg t (L _ _ (or_introl eq_refl))) as (l & -> & E & _).
  rewrite check_refs_ok; [cbn [bind]|].
  - apply IH; intros; [eapply L|eapply H]; try right; eauto.
  - intros m c I. eapply H; [now left|]. rewrite <- E. apply (in_map fst) in I. exact I.
Qed.

Definition dep_named (known : list (dependency * option (list semid))) (lib : string) :=
  find (fun k => (d_name (fst k) =? lib)%string) known.
Lemma find_deps_ok known libs : (forall lib, In lib libs -> lib <> "_"%string /\ exists k, dep_named known lib = Some k) ->
  forall used, NoDup libs -> (forall lib, In lib libs -> ~ In lib (map fst used)) -> msorted String.compare used ->
  exists used', find_deps known libs used = Ok used' /\ msorted String.compare used'
    /\ forall lib d, In (lib, d) used' <-> In (lib, d) used \/ In lib libs /\ exists o, dep_named known lib = Some (d, o).
Proof.
  induction libs as [|lib libs IH]; intros K used ND D S; cbn [find_deps].
  - exists used. split; [reflexivity|]. split; [exact S|]. intros. cbn. tauto.
  - destruct (K lib (or_introl eq_refl)) as (NE & k & F). apply String.eqb_neq in NE. unfold LIB_EMBEDDED. rewrite NE.
    unfold dep_named in F. rewrite F. inversion ND as [|? ? N ND']; subst.
    assert (M : forall a b, In (a, b) (om_insert String.compare lib (fst k) used) <-> (a, b) = (lib, fst k) \/ In (a, b) used).
    { intros a b. destruct (fold_ins [(lib, fst k)]) with (m := used) as [_ B].
      - cbn. constructor; [intros []|constructor].
      - exact S.
      - intros e I [J|[]]. cbn in J. apply (D lib (or_introl eq_refl)). rewrite J. now apply in_map.
      - cbn in B. rewrite B. intuition congruence. }
    destruct (IH (fun l I => K l (or_intror I)) (om_insert String.compare lib (fst k) used) ND') as (used' & E & S' & B).
    + intros l I J. apply in_map_iff in J as ([a b] & <- & J). cbn in I. apply M in J as [[= -> ->]|J]; [contradiction|].
      apply (D a (or_intror I)). now apply (in_map fst) in J.
    + now apply (mins_sorted _ string_lawful).
    + exists used'. split; [exact E|]. split; [exact S'|]. intros l d. rewrite B, M. split.
      * intros [[[= -> ->]|I]|(I & X)]; auto.
        -- right. split; [now left|]. destruct k as [d o]. exists o. exact F.
        -- right. split; [now right|exact X].
      * intros [I|([->|I] & (o & X))]; auto.
        -- left. left. unfold dep_named in X. rewrite F in X. injection X as ->. reflexivity.
        -- right. split; [exact I|eauto].
Qed.

(** The ids of used types are in the set of the dependency, if it is given. *)
Definition provided (known : list (dependency * option (list semid))) (lib : string) (ids : list (semid * string)) : Prop :=
  forall id d types, In id (map fst ids) -> dep_named known lib = Some (d, Some types) -> In id types.

Lemma find_id known d o : NoDup (map (fun k : dependency * option (list semid) => d_id (fst k)) known) -> In (d, o) known ->
  find (fun k => d_id (fst k) =? d_id d) known = Some (d, o).
Proof.
  induction known as [|[d' o'] known IH]; cbn; [intros _ []|]. intros ND [E|I].
  - injection E as -> ->. now rewrite N.eqb_refl.
  - inversion ND as [|? ? N ND']; subst. destruct (N.eqb_spec (d_id d') (d_id d)) as [X|X]; [|now apply IH].
    exfalso. apply N. rewrite X. apply (in_map (fun k : dependency * option (list semid) => d_id (fst k))) in I. exact I.
Qed.
Lemma dep_named_In known lib k : dep_named known lib = Some k -> In k known /\ d_name (fst k) = lib.
Proof. intros F. apply find_some in F as [I E]. split; [exact I|now apply String.eqb_eq]. Qed.

Lemma check_dep_result known used lib d o ids : NoDup (map (fun k : dependency * option (list semid) => d_id (fst k)) known) ->
  om_get String.compare lib used = Some d -> In (d, o) known ->
  match check_dep known used lib ids with
  | Ok _ => forall types, o = Some types -> incl (map fst ids) types
  | Err e => exists id n types, e = TeMissesType lib id n /\ In (id, n) ids /\ o = Some types /\ ~ In id types
  | _ => False
  end.
Proof.
  intros ND G I. induction ids as [|[id n] ids IH]; cbn [check_dep map fst]; [intros types _ x []|].
  rewrite G, (find_id _ _ _ ND I). destruct o as [types|].
  - destruct (existsb (N.eqb id) types) eqn:X.
    + apply existsb_exists in X as (x & J & X). apply N.eqb_eq in X. subst x.
      destruct (check_dep known used lib ids) as [u|e| |]; try contradiction.
      * intros types' [= <-] x [<-|K]; [exact J|]. now apply (IH types eq_refl).
      * destruct IH as (id' & n' & types' & -> & K & [= <-] & N). exists id', n', types. split; [reflexivity|]. split; [now right|]. auto.
    + exists id, n, types. split; [reflexivity|]. split; [now left|]. split; [reflexivity|].
      intros J. assert (Y : existsb (N.eqb id) types = true) by (apply existsb_exists; exists id; split; [exact J|apply N.eqb_refl]). congruence.
  - destruct (check_dep known used lib ids) as [u|e| |]; try contradiction; [discriminate|].
    destruct IH as (id' & n' & types' & _ & _ & X & _). discriminate X.
Qed.

Definition misses known (exts : list (string * list (semid * string))) (e : transpile_error) : Prop :=
  exists lib ids id n d types, e = TeMissesType lib id n /\ In (lib, ids) exts /\ In (id, n) ids
    /\ dep_named known lib = Some (d, Some types) /\ ~ In id types.
Lemma check_deps_result known used : NoDup (map (fun k : dependency * option (list semid) => d_id (fst k)) known) ->
  (forall lib d, om_get String.compare lib used = Some d -> exists o, dep_named known lib = Some (d, o)) ->
  forall exts m, (forall lib ids, In (lib, ids) exts -> In lib (map fst used) /\ lenN ids <= u16_max) ->
  match check_deps known used exts m with
  | Ok m' => m' = fold_left (fun m e => om_insert String.compare (fst e) (snd e) m) exts m
             /\ forall lib ids, In (lib, ids) exts -> provided known lib ids
  | Err e => misses known exts e
  | _ => False
  end.
Proof.
  intros ND H exts. induction exts as [|[lib ids] exts IH]; intros m P; cbn [check_deps]; [split; [reflexivity|intros lib ids []]|].
  destruct (P _ _ (or_introl eq_refl)) as (K & L). destruct (mget_key _ string_lawful _ _ K) as [d G]. destruct (H _ _ G) as (o & F).
  destruct (dep_named_In _ _ _ F) as [I _]. pose proof (check_dep_result known used lib d o ids ND G I) as R.
  destruct (check_dep known used lib ids) as [[]|e| |]; try contradiction.
  - cbn [bind]. apply N.leb_le in L. rewrite L.
    specialize (IH (om_insert String.compare lib ids m) (fun l i J => P l i (or_intror J))).
    destruct (check_deps known used exts _) as [m'|e| |]; try contradiction.
    + destruct IH as [-> A]. split; [reflexivity|]. intros l i [[= <- <-]|J]; [|now apply A].
      intros id d' types J F'. rewrite F in F'. injection F' as -> ->. now apply (R types eq_refl).
    + destruct IH as (l & i & id & n & d' & types & -> & J & X). exists l, i, id, n, d', types. split; [reflexivity|]. split; [now right|exact X].
  - destruct R as (id & n & types & -> & J & -> & N). cbn [bind]. exists lib, ids, id, n, d, types. split; [reflexivity|]. split; [now left|]. auto.
Qed.

(** ** The symbolic library *)

Lemma used_length {V W} (l : list (string * V)) (l' : list (string * W)) : NoDup (map fst l) -> incl (map fst l) (map fst l') -> lenN l <= lenN l'.
Proof. intros ND I. unfold lenN. apply NoDup_incl_length in I; [|exact ND]. rewrite !map_length in I. lia. Qed.
Lemma set_insert_length d s : (List.length (set_insert dep_cmp d s) <= S (List.length s))%nat.
Proof. induction s as [|x s IH]; cbn; [lia|]. destruct (dep_cmp d x); cbn; lia. Qed.
Lemma fold_set_length {V} (used : list (V * dependency)) : forall s,
  (List.length (fold_left (fun s e => set_insert dep_cmp (snd e) s) used s) <= List.length used + List.length s)%nat.
Proof.
  induction used as [|e used IH]; intros s; cbn; [lia|]. specialize (IH (set_insert dep_cmp (snd e) s)).
  pose proof (set_insert_length (snd e) s). lia.
Qed.
Lemma fold_set_In (known : list (dependency * option (list semid))) (used : list (string * dependency)) :
  NoDup (map (fun k : dependency * option (list semid) => d_id (fst k)) known) ->
  (forall e, In e used -> In (snd e) (map fst known)) -> forall s, dsorted s -> incl s (map fst known) ->
  dsorted (fold_left (fun s e => set_insert dep_cmp (snd e) s) used s)
  /\ forall d, In d (fold_left (fun s e => set_insert dep_cmp (snd e) s) used s) <-> In d s \/ exists lib, In (lib, d) used.
Proof.
  intros ND. assert (UN : forall x y, In x (map fst known) -> In y (map fst known) -> d_id x = d_id y -> x = y).
  { intros x y X Y E. apply in_map_iff in X as ([x' o] & <- & X). apply in_map_iff in Y as ([y' o'] & <- & Y). cbn [fst] in *.
    pose proof (find_id _ _ _ ND X) as F. pose proof (find_id _ _ _ ND Y) as F'. rewrite E in F. congruence. }
  induction used as [|[l d] used IH]; intros H s S I; cbn [fold_left snd].
  - split; [exact S|]. intros x. split; [now left|]. intros [X|(l & [])]. exact X.
  - assert (Hd : In d (map fst known)) by (apply (H (l, d)); now left).
    assert (M : forall x, In x (set_insert dep_cmp d s) <-> x = d \/ In x s).
    { intros x. apply set_insert_dep; [exact S|]. intros y Y E. now apply UN; [apply I| |]. }
    destruct (IH (fun e J => H e (or_intror J)) (set_insert dep_cmp d s)) as [A B].
    + now apply set_insert_sorted.
    + intros x X. apply M in X as [->|X]; auto.
    + split; [exact A|]. intros x. rewrite B, M. split.
      * intros [[->|X]|(l' & X)]; [right; exists l; now left|now left|right; exists l'; now right].
      * intros [X|(l' & [[= -> ->]|X])]; eauto.
Qed.

Record symbols_ok (dbg : bool) (known : list (dependency * option (list semid))) (b : lib_builder) : Prop := {
  so_some : lb_types b <> [];
  so_ids : NoDup (map (fun k : dependency * option (list semid) => d_id (fst k)) known);
  so_items : forall n t, In (n, t) (lb_types b) -> lenN (refs t) <= if dbg then 254 else 255;
  so_counts : forall lib ids, In (lib, ids) (lb_extern b) -> lenN ids <= u16_max;
  so_libs : lenN (lb_extern b) <= u8_max
}.

Section Symbols.
Variable own : string.
Variable known : list (dependency * option (list semid)).
Variable U : stype -> Prop.
Hypothesis U_closed : forall s p, U s -> part p s -> U p.
Hypothesis U_libraries : in_libraries U.
Hypothesis U_known : from_known own known U.
Notation inv := (inv own known U).

Lemma named_present b n t m : inv b -> In (n, t) (lb_types b) -> In (TrNamed m) (refs t) -> In m (map fst (lb_types b)).
Proof.
  intros V I R. apply (mget_In _ string_lawful) in I; [|apply V]. destruct (inv_sound _ _ _ b V _ _ I) as (s & Us & N & -> & D).
  unfold st_def in R. rewrite refs_map in R. apply in_map_iff in R as (r & E & R).
  assert (P : present own known b r).
  { apply D. destruct s as [nm body]. econstructor; [exact R|constructor]. }
  destruct r as [[[lib nm]|] body]; cbn [st_ref] in E; [|discriminate E]. unfold present in P. cbn [st_name] in P.
  destruct (lib =? own)%string; [|discriminate E]. injection E as ->.
  apply (mget_In _ string_lawful) in P; [|apply V]. now apply (in_map fst) in P.
Qed.
Lemma extern_known b lib ids : inv b -> In (lib, ids) (lb_extern b) -> lib <> "_"%string /\ exists k, dep_named known lib = Some k.
Proof.
  intros V I. apply (mget_In _ string_lawful) in I; [|apply V]. destruct (inv_ids _ _ _ b V _ _ I) as (_ & NE & NO & H).
  destruct ids as [|[id n] ids]; [congruence|]. destruct (H id n (or_introl eq_refl)) as (s & Us & N & _). split.
  - exact (U_libraries s lib n Us N).
  - destruct (find_known own known U U_known s lib n Us N NO) as (k & F & _). now exists k.
Qed.

Lemma symbols_spec dbg b b' : inv b -> reordered b b' -> symbols_ok dbg known b ->
  exists deps, dsorted deps /\ (forall d, In d deps <-> exists lib o, In lib (map fst (lb_extern b)) /\ dep_named known lib = Some (d, o))
    /\ lenN deps <= u8_max
    /\ match compile_symbols dbg b' with
       | Ok s => s = mkSymLib own deps (lb_extern b) (lb_types b) /\ forall lib ids, In (lib, ids) (lb_extern b) -> provided known lib ids
       | Err e => misses known (lb_extern b) e
       | _ => False
       end.
Proof.
  intros V [RL RK RE RT] [NE ND IT CN LI]. unfold compile_symbols. rewrite RL, RK, (inv_lib _ _ _ b V), (inv_known _ _ _ b V).
  assert (NE' : lb_types b' <> []) by (intros X; rewrite X in RT; apply Permutation_nil in RT; contradiction).
  destruct (lb_types b') as [|x y] eqn:ET; [congruence|]. rewrite <- ET. clear NE'. rewrite <- ET in RT. clear ET x y.
  assert (PT : forall e, In e (lb_types b') <-> In e (lb_types b)) by (intros e; split; apply Permutation_in; [exact RT|now apply Permutation_sym]).
  assert (PK : forall e, In e (map fst (lb_types b')) <-> In e (map fst (lb_types b)))
    by (intros e; split; apply Permutation_in; apply Permutation_map; [exact RT|now apply Permutation_sym]).
  assert (PE : forall e, In e (lb_extern b') <-> In e (lb_extern b)) by (intros e; split; apply Permutation_in; [exact RE|now apply Permutation_sym]).
  assert (PEK : forall e, In e (map fst (lb_extern b')) <-> In e (map fst (lb_extern b)))
    by (intros e; split; apply Permutation_in; apply Permutation_map; [exact RE|now apply Permutation_sym]).
  rewrite check_types_ok; [cbn [bind]| |].
  2:{ intros n t I. apply PT in I. eapply IT. exact I. }
  2:{ intros n t m I R. apply PT in I. apply PK. eapply named_present; eauto. }
  destruct (find_deps_ok known (map fst (lb_extern b'))) with (used := @nil (string * dependency)) as (used & E & S & M).
  - intros lib I. apply in_map_iff in I as ([l ids] & <- & I). apply PE in I. eapply extern_known; eauto.
  - eapply Permutation_NoDup; [apply Permutation_map, Permutation_sym, RE|]. apply (msorted_NoDup _ string_lawful). apply V.
  - intros lib _ [].
  - constructor.
  - rewrite E. cbn [bind].
    assert (M' : forall lib d, In (lib, d) used <-> In lib (map fst (lb_extern b)) /\ exists o, dep_named known lib = Some (d, o)).
    { intros lib d. rewrite M, PEK. cbn. tauto. }
    destruct (fold_set_In known used ND) with (s := @nil dependency) as [DS DM].
    + intros [lib d] I. apply M' in I as [_ (o & F)]. apply dep_named_In in F as [F _]. now apply (in_map fst) in F.
    + constructor.
    + intros x [].
    + exists (fold_left (fun s e => set_insert dep_cmp (snd e) s) used []).
      assert (LD : lenN (fold_left (fun s e => set_insert dep_cmp (snd e) s) used []) <= u8_max).
      { pose proof (fold_set_length used []) as A. cbn [List.length] in A.
        assert (B : lenN used <= lenN (lb_extern b)).
        { apply used_length; [now apply (msorted_NoDup _ string_lawful)|]. intros l I. apply in_map_iff in I as ([l' d] & <- & I). now apply M' in I. }
        unfold lenN in *. lia. }
      split; [exact DS|]. split; [|split; [exact LD|]].
      { intros d. rewrite DM. split.
        * intros [[]|(lib & I)]. apply M' in I as [I (o & F)]. exists lib, o. auto.
        * intros (lib & o & I & F). right. exists lib. apply M'. eauto. }
      pose proof (check_deps_result known used ND) as R. specialize (R ltac:(intros lib d G; apply (mget_In _ string_lawful) in G; [|exact S]; apply M' in G as [_ X]; exact X)).
      specialize (R (lb_extern b') []). destruct (check_deps known used (lb_extern b') []) as [m|e| |]; cbn [bind].
      * destruct R as [-> PR].
        { intros lib ids I. apply PE in I. split; [|eapply CN; exact I].
          destruct (extern_known b lib ids V I) as (_ & [d o] & F). apply (in_map fst _ (lib, d)). apply M'. split; [|eauto].
          now apply (in_map fst) in I. }
        rewrite (fold_sorted (lb_extern b') (lb_extern b)) by (apply V || exact RE).
        rewrite (fold_sorted (lb_types b') (lb_types b)) by (apply V || exact RT).
        apply N.leb_le in LI as LI'. rewrite LI'. cbn [negb]. apply N.leb_le in LD as LD'. rewrite LD'. cbn [negb].
        split; [reflexivity|]. intros lib ids I. apply PR. now apply PE.
      * destruct R as (lib & ids & id & n & d & types & -> & I & X).
        { intros lib ids I. apply PE in I. split; [|eapply CN; exact I].
          destruct (extern_known b lib ids V I) as (_ & [d o] & F). apply (in_map fst _ (lib, d)). apply M'. split; [|eauto].
          now apply (in_map fst) in I. }
        exists lib, ids, id, n, d, types. split; [reflexivity|]. split; [now apply PE|exact X].
      * apply R. intros lib ids I. apply PE in I. split; [|eapply CN; exact I].
        destruct (extern_known b lib ids V I) as (_ & [d o] & F). apply (in_map fst _ (lib, d)). apply M'. split; [|eauto].
        now apply (in_map fst) in I.
      * apply R. intros lib ids I. apply PE in I. split; [|eapply CN; exact I].
        destruct (extern_known b lib ids V I) as (_ & [d o] & F). apply (in_map fst _ (lib, d)). apply M'. split; [|eauto].
        now apply (in_map fst) in I.
Qed.
End Symbols.
