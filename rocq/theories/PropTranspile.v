(** Properties of the derivation of libraries from Rust types: C54-C58. *)
From Coq Require Import NArith Arith List Bool String Sorted Permutation Lia.
From Verif Require Import Base Sha256 Ty Ids TypeSys Spec SpecIds IdProofs LibCodec SpecLib LibCodecProofs Build SpecBuild BuildProofs BuildProofs2
  MapLemmas Compile SpecCompile CompileProofs3 Transpile SpecTranspile TranspileProofs TranspileProofs2 TranspileProofs3 PropBuild.
Import ListNotations.
Local Open Scope string_scope.
Local Open Scope N_scope.
Local Opaque tagged_hash.

(** ** Types for the examples *)

Definition ex_word : rust := RuProduct "Other" (Some "Word") true [("", RuPrim P_U16)].
Definition ex_side : rust := RuProduct "Own" (Some "Side") true [("", RuPrim P_U8)].
Definition ex_kind : rust := RuEnum "Own" (Some "Kind") [mkVariant "big" 7; mkVariant "small" 1].
Definition ex_mark : rust := RuUnion "Own" (Some "Mark")
  [(mkVariant "none" 0, (KUnit, [])); (mkVariant "pair" 2, (KFields true, [("", ex_word); ("", ex_word)]));
   (mkVariant "kind" 1, (KFields false, [("kind", ex_kind); ("word", ex_word)]))] 1.
Definition ex_area : rust := RuProduct "Own" (Some "Area") false [("side", ex_side); ("marks", RuList ex_mark (mkSizing 0 255))].
Definition ex_deps (id : libid) (ids : list semid) : list (dependency * option (list semid)) := [(mkDep id "Other", Some ids)].

Definition ex_word_def : ty lib_ref := TTuple [RInline (TPrim P_U16)].
Definition ex_other : type_lib := mkLib "Other" [] [] [("Word", ex_word_def)].
Definition ex_known := ex_deps (lib_id ex_other) (map lib_type_id (l_types ex_other)).
Definition ex_run (dbg : bool) (known : list (dependency * option (list semid))) (own : string) (ts : list rust) : option type_lib :=
  match transpile dbg ts (builder_with own known) with
  | Ok b => match compile_builder 9 dbg b with Ok l => Some l | _ => None end
  | _ => None
  end.
Lemma ex_run_derives dbg known own ts l : ex_run dbg known own ts = Some l -> derives dbg own known ts (Ok l).
Proof.
  unfold ex_run. destruct (transpile dbg ts (builder_with own known)) as [b|e| |] eqn:E; try discriminate.
  destruct (compile_builder 9 dbg b) as [l'|e| |] eqn:C; try discriminate. intros [= <-]. exact (derives_run _ _ _ _ _ _ _ E C).
Qed.
Definition ex_own : type_lib :=
  let side := TTuple [RInline (TPrim P_U8)] in
  let kind := TEnum [mkVariant "small" 1; mkVariant "big" 7] in
  let word := RExtern (mkExtern (lib_id ex_other) (lib_type_id ("Word", ex_word_def))) in
  let mark := TUnion [(mkVariant "none" 0, RInline (TPrim P_UNIT));
    (mkVariant "kind" 1, RInline (TStruct [("kind", RNamed (lib_type_id ("Kind", kind))); ("word", word)]));
    (mkVariant "pair" 2, RInline (TTuple [word; word]))] in
  mkLib "Own" [mkDep (lib_id ex_other) "Other"] [("Other", [(lib_type_id ("Word", ex_word_def), "Word")])]
    [("Area", TStruct [("side", RNamed (lib_type_id ("Side", side)));
                       ("marks", RInline (TList (RNamed (lib_type_id ("Mark", mark))) (mkSizing 0 255)))]);
     ("Kind", kind); ("Mark", mark); ("Side", side)].
Example ex_other_derived : forall dbg, derives dbg "Other" [] [ex_word] (Ok ex_other).
Proof. intros dbg. apply ex_run_derives. destruct dbg; vm_compute; reflexivity. Qed.
Example ex_own_derived : forall dbg, derives dbg "Own" ex_known [ex_area; ex_kind] (Ok ex_own).
Proof. intros dbg. apply ex_run_derives; destruct dbg; vm_compute; reflexivity. Qed.
Example ex_own_derived' : forall dbg, derives dbg "Own" ex_known [ex_kind; ex_side; ex_area] (Ok ex_own).
Proof. intros dbg. apply ex_run_derives; destruct dbg; vm_compute; reflexivity. Qed.

(** Checks for finite sets of types. *)
Lemma coherent_by (U : stype -> Prop) (f : string * string -> stype) : (forall s q, U s -> st_name s = Some q -> s = f q) -> coherent U.
Proof. intros H s s' q Us Us' N N'. rewrite (H s q Us N). symmetry. now apply H. Qed.
Lemma counts_by (U : stype -> Prop) (names : list string) : (forall s lib n, U s -> st_name s = Some (lib, n) -> In n names) -> lenN names <= 65535 -> counts_ok U.
Proof.
  intros H L lib l ND F. assert (I : incl l names) by (intros n I; destruct (F n I) as (s & Us & N); eauto).
  apply NoDup_incl_length in I; [|exact ND]. unfold lenN in *. lia.
Qed.
Ltac each_type := let I := fresh "I" in intros ? ? I; apply involved_parts in I; cbn in I;
  repeat (destruct I as [<-|I]; [cbn; try discriminate|]); try destruct I.
Lemma ex_own_transpilable id ids ts : ts = [ex_area; ex_kind] \/ ts = [ex_kind; ex_side; ex_area] -> transpilable "Own" (ex_deps id ids) ts.
Proof.
  set (f := fun q : string * string => meaning (if (snd q =? "Word")%string then ex_word else if (snd q =? "Side")%string then ex_side
    else if (snd q =? "Kind")%string then ex_kind else if (snd q =? "Mark")%string then ex_mark else ex_area)).
  assert (P : forall s, involved ts s -> (ts = [ex_area; ex_kind] \/ ts = [ex_kind; ex_side; ex_area]) ->
     st_name s = None \/ exists lib n, st_name s = Some (lib, n) /\ s = f (lib, n) /\ In n ["Word"; "Side"; "Kind"; "Mark"; "Area"]
       /\ ((lib = "Other" /\ s = meaning ex_word) \/ (lib = "Own" /\ lenN (refs (st_body s)) <= 254))).
  { intros s I [-> | ->]; apply involved_parts in I; cbn in I;
      repeat (destruct I as [<-|I]; [first [now left|right; do 2 eexists; (split; [reflexivity|]); (split; [reflexivity|]); (split; [cbn; tauto|]);
        first [left; (split; [reflexivity|reflexivity])|right; (split; [reflexivity|vm_compute; discriminate])]]|]); destruct I. }
  intros E. assert (Q := fun s I => P s I E). clear P.
  assert (NAMED : forall s lib n, involved ts s -> st_name s = Some (lib, n) ->
    s = f (lib, n) /\ In n ["Word"; "Side"; "Kind"; "Mark"; "Area"] /\ ((lib = "Other" /\ s = meaning ex_word) \/ (lib = "Own" /\ lenN (refs (st_body s)) <= 254))).
  { intros s lib n I N. destruct (Q s I) as [X|(lib' & n' & X & Y)]; rewrite N in X; [discriminate X|]. injection X as <- <-. exact Y. }
  clear Q. split.
  - assert (D : describable ex_area /\ describable ex_kind /\ describable ex_side).
    { cbn. unfold sized. repeat match goal with |- _ /\ _ => split | |- True => exact I end; try (vm_compute; discriminate); try lia;
        repeat constructor; cbn; intuition discriminate. }
    destruct D as (D1 & D2 & D3). destruct E as [-> | ->]; repeat apply Forall_cons; auto.
  - exists (meaning ex_area), "Area". split; [|reflexivity]. exists ex_area. split; [|constructor]. destruct E as [-> | ->]; cbn; tauto.
  - apply (coherent_by _ f). intros s [lib n] I N. now apply NAMED in N.
  - intros s lib n I N. destruct (NAMED _ _ _ I N) as (_ & _ & [[-> _]|[-> _]]); discriminate.
  - intros s lib n s' lib' n' I N NO P N'. destruct (NAMED _ _ _ I N) as (_ & _ & [[-> ->]|[-> _]]); [|congruence].
    apply part_parts in P. cbn in P. destruct P as [<-|[<-|[]]]; cbn in N'; [injection N' as <- _; discriminate|discriminate N'].
  - intros s lib n I N NO. destruct (NAMED _ _ _ I N) as (_ & _ & [[-> _]|[-> _]]); [|congruence]. eexists. split; [now left|reflexivity].
  - intros s n I N. destruct (NAMED _ _ _ I N) as (_ & _ & [[X _]|[_ X]]); [discriminate X|exact X].
  - apply (counts_by _ ["Word"; "Side"; "Kind"; "Mark"; "Area"]); [|vm_compute; discriminate]. intros s lib n I N. now apply NAMED in N.
  - vm_compute. discriminate.
  - cbn. constructor; [intros []|constructor].
Qed.
Lemma ex_other_transpilable : transpilable "Other" [] [ex_word].
Proof.
  assert (NAMED : forall s lib n, involved [ex_word] s -> st_name s = Some (lib, n) -> s = meaning ex_word /\ lib = "Other" /\ n = "Word").
  { intros s lib n I N. apply involved_parts in I. cbn in I. destruct I as [<-|[<-|[]]]; cbn in N; [|discriminate N]. injection N as <- <-. auto. }
  split.
  - constructor; [|constructor]. cbn. unfold sized. repeat split; vm_compute; discriminate.
  - exists (meaning ex_word), "Word". split; [|reflexivity]. exists ex_word. split; [now left|constructor].
  - apply (coherent_by _ (fun _ => meaning ex_word)). intros s [lib n] I N. now apply NAMED in N.
  - intros s lib n I N. destruct (NAMED _ _ _ I N) as (_ & -> & _). discriminate.
  - intros s lib n s' lib' n' I N NO. destruct (NAMED _ _ _ I N) as (_ & -> & _). congruence.
  - intros s lib n I N NO. destruct (NAMED _ _ _ I N) as (_ & -> & _). congruence.
  - intros s n I N. destruct (NAMED _ _ _ I N) as (-> & _). vm_compute. discriminate.
  - apply (counts_by _ ["Word"]); [|vm_compute; discriminate]. intros s lib n I N. destruct (NAMED _ _ _ I N) as (_ & _ & ->). now left.
  - vm_compute. discriminate.
  - constructor.
Qed.

(** ** C54 *)

(** In a derived library each type has the name, the structure and the id of the Rust type; there are
    exactly the types of this library which take part. For other libraries there are the ids of their types.
    Missing: the cases below, and what [transpilable] excludes. *)
Theorem C54_partial : forall dbg own known ts l, transpilable own known ts -> derives dbg own known ts (Ok l) ->
  l_name l = own /\ increasing (by_key name_lt) (l_types l)
  /\ (forall n, In n (map fst (l_types l)) <-> exists s, involved ts s /\ st_name s = Some (own, n))
  /\ (forall s n, involved ts s -> st_name s = Some (own, n) ->
       exists t, In (n, t) (l_types l) /\ lib_type_id (n, t) = st_id s /\ map_ty libref_id t = map_ty st_id (st_body s))
  /\ (forall lib, In lib (map fst (l_extern l)) <-> exists s n, involved ts s /\ st_name s = Some (lib, n) /\ lib <> own)
  /\ (forall lib ids id, In (lib, ids) (l_extern l) ->
       (In id (map fst ids) <-> exists s n, involved ts s /\ st_name s = Some (lib, n) /\ id = st_id s))
  /\ (forall d, In d (l_deps l) <-> exists s lib n o, involved ts s /\ st_name s = Some (lib, n) /\ lib <> own
       /\ find (fun k => (d_name (fst k) =? lib)%string) known = Some (d, o)).
Proof.
  intros dbg own known ts l T D. pose proof (derives_library dbg own known ts l T D) as (A & B & C & E & F & G & H & _). auto 10.
Qed.
Example C54_case : transpilable "Own" ex_known [ex_area; ex_kind] /\ derives true "Own" ex_known [ex_area; ex_kind] (Ok ex_own).
Proof. split; [apply ex_own_transpilable; now left|]. apply ex_own_derived. Qed.
Print Assumptions C54_partial.

(** A library has a type and the Rust type with its name has another id. *)
Definition misdescribed (dbg : bool) (ts : list rust) : Prop :=
  exists l s n t, derives dbg "Own" [] ts (Ok l) /\ involved ts s /\ st_name s = Some ("Own", n) /\ In (n, t) (l_types l)
    /\ lib_type_id (n, t) <> st_id s.
Lemma misdescribed_by dbg ts l t n u : ex_run dbg [] "Own" ts = Some l -> In t ts -> st_name (meaning t) = Some ("Own", n) ->
  In (n, u) (l_types l) -> (lib_type_id (n, u) =? st_id (meaning t)) = false -> misdescribed dbg ts.
Proof.
  intros R I N J E. exists l, (meaning t), n, u. split; [now apply ex_run_derives|]. split; [exists t; split; [exact I|constructor]|].
  split; [exact N|]. split; [exact J|]. apply N.eqb_neq. exact E.
Qed.

(** Two different types with the same name: the second one is taken for the first one when it is a field. *)
Definition ex_foo : rust := RuProduct "Own" (Some "Foo") true [("", RuPrim P_U8)].
Definition ex_foo' : rust := RuProduct "Own" (Some "Foo") true [("", RuPrim P_U16)].
Definition ex_bar : rust := RuProduct "Own" (Some "Bar") false [("foo", ex_foo')].
Theorem C54_refuted : exists ts, Forall describable ts /\ forall dbg, misdescribed dbg ts.
Proof.
  exists [ex_foo; ex_bar]. split.
  - repeat constructor; cbn; unfold sized; vm_compute; discriminate.
  - intros dbg. apply (misdescribed_by dbg _ (mkLib "Own" [] [] [("Bar", TStruct [("foo", RNamed (lib_type_id ("Foo", TTuple [RInline (TPrim P_U8)])))]);
      ("Foo", TTuple [RInline (TPrim P_U8)])]) ex_bar "Bar" (TStruct [("foo", RNamed (lib_type_id ("Foo", TTuple [RInline (TPrim P_U8)])))])).
    + destruct dbg; vm_compute; reflexivity.
    + right. now left.
    + reflexivity.
    + now left.
    + vm_compute. reflexivity.
Qed.
Print Assumptions C54_refuted.

(** A field which writes nothing gets the type of the previous one. *)
Definition ex_void : rust := RuProduct "Own" (Some "Foo") false [("a", RuPrim P_U16); ("void", RuNothing "Own" (Some "Void"))].
Theorem C54_nothing_refuted : exists ts, coherent (involved ts) /\ forall dbg, misdescribed dbg ts
  /\ derives dbg "Own" [] ts (Ok (mkLib "Own" [] [] [("Foo", TStruct [("a", RInline (TPrim P_U16)); ("void", RInline (TPrim P_U16))])])).
Proof.
  exists [ex_void]. split.
  - apply (coherent_by _ (fun q => if (snd q =? "Foo")%string then meaning ex_void else SType (Some q) (TPrim P_UNIT))).
    intros s q I. apply involved_parts in I. cbn in I.
    destruct I as [<-|[<-|[<-|[]]]]; cbn; [intros [= <-]; reflexivity|discriminate|intros [= <-]; reflexivity].
  - intros dbg.
    assert (R : ex_run dbg [] "Own" [ex_void] = Some (mkLib "Own" [] [] [("Foo", TStruct [("a", RInline (TPrim P_U16)); ("void", RInline (TPrim P_U16))])]))
      by (destruct dbg; vm_compute; reflexivity).
    split; [|now apply ex_run_derives].
    apply (misdescribed_by dbg _ _ ex_void "Foo" (TStruct [("a", RInline (TPrim P_U16)); ("void", RInline (TPrim P_U16))]) R).
    + now left.
    + reflexivity.
    + now left.
    + vm_compute. reflexivity.
Qed.
Print Assumptions C54_nothing_refuted.

(** A restricted string which may be empty: in a release build the list of the other characters has the
    least length [2 ^ 64 - 1]; in a debug build there is a panic. *)
Definition ex_string : rust := RuProduct "Own" (Some "Foo") true [("", RuString (RuPrim P_BYTE) (RuPrim P_BYTE) (mkSizing 0 10))].
Theorem C54_string_refuted : derives false "Own" [] [ex_string] (Ok (mkLib "Own" [] [] [("Foo",
    TTuple [RInline (TTuple [RInline (TPrim P_BYTE); RInline (TList (RInline (TPrim P_BYTE)) (mkSizing (2 ^ 64 - 1) 9))])])]))
  /\ transpile true [ex_string] (builder_with "Own" []) = Panic.
Proof. split; [apply ex_run_derives|]; vm_compute; reflexivity. Qed.
Print Assumptions C54_string_refuted.

(** A type of another library which holds a type of this one: its id is not the right one. *)
Definition ex_generic : rust := RuProduct "Other" (Some "Wrap") true [("", ex_foo)].
Definition ex_holder : rust := RuProduct "Own" (Some "Bar") true [("", ex_generic)].
Theorem C54_layers_refuted : exists ts l ids, Forall describable ts /\ coherent (involved ts)
  /\ derives true "Own" [(mkDep 77 "Other", None)] ts (Ok l) /\ l_extern l = [("Other", ids)]
  /\ exists s, involved ts s /\ st_name s = Some ("Other", "Wrap") /\ ~ In (st_id s) (map fst ids).
Proof.
  exists [ex_holder].
  assert (R : exists l, ex_run true [(mkDep 77 "Other", None)] "Own" [ex_holder] = Some l
    /\ match l_extern l with [(lib, [(id, n)])] => (lib =? "Other")%string && negb (id =? st_id (meaning ex_generic)) = true | _ => False end).
  { eexists. split; [vm_compute; reflexivity|]. vm_compute. reflexivity. }
  destruct R as (l & R & X). destruct (l_extern l) as [|[lib [|[id n] [|? ?]]] [|? ?]] eqn:EX; try contradiction.
  apply andb_prop in X as [L X]. apply String.eqb_eq in L. subst lib. apply negb_true_iff, N.eqb_neq in X.
  exists l, [(id, n)]. split; [repeat constructor; cbn; unfold sized; vm_compute; discriminate|]. split; [|split; [|split; [exact EX|]]].
  - apply (coherent_by _ (fun q => meaning (if (snd q =? "Bar")%string then ex_holder else if (snd q =? "Wrap")%string then ex_generic else ex_foo))).
    intros s q I. apply involved_parts in I. cbn in I.
    destruct I as [<-|[<-|[<-|[<-|[]]]]]; cbn; [intros [= <-]; reflexivity|intros [= <-]; reflexivity|intros [= <-]; reflexivity|discriminate].
  - now apply ex_run_derives.
  - exists (meaning ex_generic). split; [|split; [reflexivity|]].
    + exists ex_holder. split; [now left|]. econstructor; [now left|constructor].
    + cbn [map fst]. intros [E|[]]. exact (X E).
Qed.
Print Assumptions C54_layers_refuted.

(** ** C55 *)

(** The derivation returns. It fails only if a type is not provided by the dependency, or if there are too
    many levels of types without name. *)
Theorem C55 : forall dbg own known ts, transpilable own known ts ->
  (exists r, derives dbg own known ts r)
  /\ forall r, derives dbg own known ts r ->
     match r with
     | Ok _ => levels_ok own (involved ts) /\ forall lib id n, ~ lacking own known (involved ts) lib id n
     | Err (inl e) => exists lib id n, e = TeMissesType lib id n /\ lacking own known (involved ts) lib id n
     | Err (inr e) => (exists n path inner, e = NestedInline n path inner) /\ ~ levels_ok own (involved ts)
     | _ => False
     end.
Proof.
  intros dbg own known ts T. split; [now apply derives_total|]. intros r D.
  destruct (derives_spec _ _ _ _ _ T D) as (b & deps & _ & _ & _ & _ & M). destruct r as [l|[e|e]| |]; try contradiction.
  - destruct M as (_ & L & N). auto.
  - exact M.
  - exact M.
Qed.
(** Examples: success; a dependency without the type; too many levels. *)
Definition ex_deep : rust := RuProduct "Own" (Some "Deep") true [("", RuArray (RuArray (RuArray (RuArray (RuPrim P_U8) 1) 1) 1) 1)].
Example C55_case : transpilable "Own" ex_known [ex_area; ex_kind] /\ transpilable "Own" (ex_deps 5 []) [ex_area; ex_kind]
  /\ derives true "Own" ex_known [ex_area; ex_kind] (Ok ex_own)
  /\ derives true "Own" (ex_deps 5 []) [ex_area; ex_kind] (Err (inl (TeMissesType "Other" (lib_type_id ("Word", ex_word_def)) "Word")))
  /\ exists e, derives true "Own" [] [ex_deep] (Err (inr e)).
Proof.
  split; [apply ex_own_transpilable; now left|]. split; [apply ex_own_transpilable; now left|]. split; [apply ex_own_derived|].
  assert (RUN : forall known own ts e, match transpile true ts (builder_with own known) with
      | Ok b => compile_symbols true b = Err e | _ => False end -> derives true own known ts (Err (inl e))).
  { intros known own ts e H. destruct (transpile true ts (builder_with own known)) as [b|x| |] eqn:E; try contradiction.
    exists b, b. split; [exact E|]. split; [split; reflexivity|]. exists O. intros fuel _. unfold compile_builder. now rewrite H. }
  split; [apply RUN; vm_compute; reflexivity|].
  exists (NestedInline "Deep" [cls (TArray tt 1); cls (TArray tt 1)] (Some (cls (TArray tt 1)))).
  destruct (transpile true [ex_deep] (builder_with "Own" [])) as [b|x| |] eqn:E; try (vm_compute in E; discriminate E).
  exists b, b. split; [exact E|]. split; [split; reflexivity|]. exists 1%nat. vm_compute in E. injection E as <-. intros [|fuel] L; [lia|].
  vm_compute. reflexivity.
Qed.
Print Assumptions C55.

(** ** C56 *)

(** The library is determined by the types: the order of calls, repetitions, the order of iteration over hash
    maps and the kind of build do not matter. *)
Theorem C56 : forall dbg dbg' own known ts ts' l l', transpilable own known ts -> transpilable own known ts' ->
  (forall s, involved ts s <-> involved ts' s) -> ids_differ (involved ts) ->
  derives dbg own known ts (Ok l) -> derives dbg' own known ts' (Ok l') -> l = l'.
Proof. exact derives_unique. Qed.
Example C56_case : transpilable "Own" ex_known [ex_area; ex_kind] /\ transpilable "Own" ex_known [ex_kind; ex_side; ex_area]
  /\ (forall s, involved [ex_area; ex_kind] s <-> involved [ex_kind; ex_side; ex_area] s) /\ ids_differ (involved [ex_area; ex_kind])
  /\ derives true "Own" ex_known [ex_area; ex_kind] (Ok ex_own) /\ derives false "Own" ex_known [ex_kind; ex_side; ex_area] (Ok ex_own).
Proof.
  split; [apply ex_own_transpilable; now left|]. split; [apply ex_own_transpilable; now right|]. split; [|split; [|split]].
  - intros s. rewrite !involved_parts. cbn. intuition.
  - assert (ND : forall t t', In t [ex_word; ex_side; ex_kind; ex_mark; ex_area] -> In t' [ex_word; ex_side; ex_kind; ex_mark; ex_area] ->
      st_id (meaning t) = st_id (meaning t') -> t = t').
    { intros t t' I I' E. apply N.eqb_eq in E.
      repeat destruct I as [<-|I]; try destruct I; repeat destruct I' as [<-|I']; try destruct I'; try reflexivity; vm_compute in E; discriminate E. }
    assert (NAMED : forall s lib n, involved [ex_area; ex_kind] s -> st_name s = Some (lib, n) ->
      exists t, In t [ex_word; ex_side; ex_kind; ex_mark; ex_area] /\ s = meaning t).
    { intros s lib n I N. apply involved_parts in I. cbn in I.
      repeat (destruct I as [<-|I]; [first [discriminate N|
        exists ex_word; split; [cbn; tauto|reflexivity]|
        exists ex_side; split; [cbn; tauto|reflexivity]|
        exists ex_kind; split; [cbn; tauto|reflexivity]|
        exists ex_mark; split; [cbn; tauto|reflexivity]|
        exists ex_area; split; [cbn; tauto|reflexivity]]|]). destruct I. }
    intros s s' lib n n' I I' N N' E. destruct (NAMED _ _ _ I N) as (t & T & ->). destruct (NAMED _ _ _ I' N') as (t' & T' & ->).
    rewrite (ND t t' T T' E) in N. congruence.
  - apply ex_own_derived.
  - apply ex_own_derived'.
Qed.
Print Assumptions C56.

(** ** C57 *)

(** A type of another library is referred to by the id which it has in that library. *)
Theorem C57 : forall dbg own known ts l dbg' own' known' ts' l',
  transpilable own known ts -> derives dbg own known ts (Ok l) ->
  transpilable own' known' ts' -> derives dbg' own' known' ts' (Ok l') -> own <> own' ->
  forall s n, involved ts s -> involved ts' s -> st_name s = Some (own', n) ->
  exists t ids, In (n, t) (l_types l') /\ In (own', ids) (l_extern l) /\ In (lib_type_id (n, t)) (map fst ids).
Proof.
  intros dbg own known ts l dbg' own' known' ts' l' T D T' D' NE s n I I' N.
  destruct (derives_library _ _ _ _ _ T D) as (_ & _ & _ & _ & K & X & _).
  destruct (derives_library _ _ _ _ _ T' D') as (_ & _ & _ & A & _).
  destruct (A s n I' N) as (t & J & E & _).
  assert (KK : In own' (map fst (l_extern l))) by (apply K; exists s, n; auto).
  apply in_map_iff in KK as ([lib ids] & EL & KK). cbn in EL. subst lib. exists t, ids. split; [exact J|]. split; [exact KK|].
  rewrite E. apply (X own' ids (st_id s) KK). eauto.
Qed.
(** So nothing is missing if the dependency is given with the ids of its types and all the types in use were
    transpiled for it. *)
Theorem C57_provided : forall own known ts dbg' own' known' ts' l',
  transpilable own' known' ts' -> derives dbg' own' known' ts' (Ok l') ->
  (forall s n, involved ts s -> st_name s = Some (own', n) -> involved ts' s) ->
  find (fun k => (d_name (fst k) =? own')%string) known = Some (mkDep (lib_id l') own', Some (map lib_type_id (l_types l'))) ->
  forall id n, ~ lacking own known (involved ts) own' id n.
Proof.
  intros own known ts dbg' own' known' ts' l' T' D' H F id n (s & k & types & I & N & NO & -> & F' & E & NI).
  rewrite F in F'. injection F' as <-. cbn in E. injection E as <-. apply NI.
  destruct (derives_library _ _ _ _ _ T' D') as (_ & _ & _ & A & _). destruct (A s n (H s n I N) N) as (t & J & X & _).
  rewrite <- X. now apply in_map.
Qed.
Example C57_case : transpilable "Own" ex_known [ex_area; ex_kind] /\ derives true "Own" ex_known [ex_area; ex_kind] (Ok ex_own)
  /\ transpilable "Other" [] [ex_word] /\ derives true "Other" [] [ex_word] (Ok ex_other)
  /\ involved [ex_area; ex_kind] (meaning ex_word) /\ involved [ex_word] (meaning ex_word)
  /\ (forall s n, involved [ex_area; ex_kind] s -> st_name s = Some ("Other", n) -> involved [ex_word] s)
  /\ find (fun k => (d_name (fst k) =? "Other")%string) ex_known = Some (mkDep (lib_id ex_other) "Other", Some (map lib_type_id (l_types ex_other))).
Proof.
  split; [apply ex_own_transpilable; now left|]. split; [apply ex_own_derived|]. split; [apply ex_other_transpilable|].
  split; [apply ex_other_derived|]. split; [|split; [|split]].
  - apply involved_parts. cbn. tauto.
  - apply involved_parts. cbn. tauto.
  - intros s n I N. apply involved_parts in I. apply involved_parts. cbn in I |- *.
    repeat (destruct I as [<-|I]; [first [discriminate N|now left]|]). destruct I.
  - reflexivity.
Qed.
Print Assumptions C57.
Print Assumptions C57_provided.

(** ** C58 *)

(** The type system assembled from derived libraries has each of their types with all its parts, in the
    structure of the Rust types. *)
Theorem C58 : forall dbg jobs ls sys, Forall2 (derived_by dbg) jobs ls -> covered jobs -> consistent (libs_defs ls) ->
  build dbg ls = Ok sys ->
  forall j s lib n p, In j jobs -> involved (j_types j) s -> st_name s = Some (lib, n) -> part p s ->
  sys_get (ss_types sys) (st_id p) = Some (map_ty st_id (st_body p)).
Proof.
  intros dbg jobs ls sys F CV CON B j s lib n p J I N P.
  assert (DEF : exists d, In d (libs_defs ls) /\ def_id d = st_id p /\ def_ty d = map_ty st_id (st_body p)).
  { remember (height s) as h eqn:EH. revert j s lib n J I N P EH. induction h as [h IH] using lt_wf_ind.
    intros j s lib n J I N P ->. destruct (CV j s lib n J I N) as (j' & J' & <- & I').
    destruct (part_split (j_own j') p s P) as [[S L]|(r & lib' & n' & P1 & P2 & N' & NE)].
    - destruct (CompileProofs.Forall2_In_l _ _ _ _ F J') as (l & Il & T & D).
      destruct (derives_library _ _ _ _ _ T D) as (_ & _ & _ & _ & _ & _ & _ & A).
      destruct (A s p n I' N S L) as (d & Id & X). exists d. split; [|exact X]. unfold libs_defs. apply in_flat_map. eauto.
    - destruct (height_proper r s P1) as [->|H]; [rewrite N in N'; injection N' as <- _; congruence|].
      apply (IH (height r) H j' r lib' n' J' (involved_closed _ _ _ I' P1) N' P2 eq_refl). }
  destruct DEF as (d & Id & E & TY). destruct (C45 dbg ls sys B) as (K & ENT & O).
  assert (KI : In (st_id p) (map fst (ss_types sys))) by (apply K; rewrite <- E; now apply in_map).
  destruct (mget_key _ N_lawful _ _ KI) as [t G]. unfold sys_get. rewrite G. f_equal.
  assert (IT : In (st_id p, t) (ss_types sys)).
  { clear - G. revert G. generalize (st_id p) as id. induction (ss_types sys) as [|[k v] m IHm]; cbn; intros id G; [discriminate G|].
    destruct (N.compare id k) eqn:C; auto. apply (law_eq _ N_lawful) in C. subst k. injection G as ->. now left. }
  destruct (ENT _ _ IT) as (d' & Id' & E' & <-). rewrite <- TY. apply CON; congruence.
Qed.
Definition ex_jobs : list job := [mkJob "Own" ex_known [ex_area; ex_kind]; mkJob "Other" [] [ex_word]].
Example C58_case : Forall2 (derived_by true) ex_jobs [ex_own; ex_other] /\ covered ex_jobs /\ consistent (libs_defs [ex_own; ex_other])
  /\ exists sys, build true [ex_own; ex_other] = Ok sys.
Proof.
  split; [|split; [|split]].
  - constructor; [|constructor; [|constructor]].
    + split; [apply ex_own_transpilable; now left|apply ex_own_derived].
    + split; [apply ex_other_transpilable|apply ex_other_derived].
  - intros j s lib n [<-|[<-|[]]] I N; cbn [j_types] in I; apply involved_parts in I; cbn in I.
    + repeat (destruct I as [<-|I]; [first [discriminate N|
        injection N as <- <-; eexists; (split; [now left|]); (split; [reflexivity|]); apply involved_parts; cbn; tauto|
        injection N as <- <-; eexists; (split; [right; now left|]); (split; [reflexivity|]); apply involved_parts; cbn; tauto]|]). destruct I.
    + repeat (destruct I as [<-|I]; [first [discriminate N|
        injection N as <- <-; eexists; (split; [right; now left|]); (split; [reflexivity|]); apply involved_parts; cbn; tauto]|]). destruct I.
  - assert (X : NoDup (map def_id (libs_defs [ex_own; ex_other]))).
    { assert (E : (fix nodup (l : list N) := match l with [] => true | x :: l => negb (existsb (N.eqb x) l) && nodup l end)
                    (map def_id (libs_defs [ex_own; ex_other])) = true) by (vm_compute; reflexivity).
      revert E. generalize (map def_id (libs_defs [ex_own; ex_other])) as l. induction l as [|x l IH]; intros E; constructor.
      - apply andb_prop in E as [E _]. intros I. apply negb_true_iff in E. rewrite <- not_true_iff_false, existsb_exists in E.
        apply E. exists x. split; [exact I|apply N.eqb_refl].
      - apply IH. now apply andb_prop in E as [_ E]. }
    intros d d' I I' E. assert (d = d'); [|congruence]. revert I I' E X. generalize (libs_defs [ex_own; ex_other]) as ds.
    induction ds as [|x ds IH]; intros I I' E X; [destruct I|]. cbn in X. inversion X as [|? ? N X']; subst.
    destruct I as [->|I], I' as [->|I']; auto.
    + exfalso. apply N. rewrite E. now apply in_map.
    + exfalso. apply N. rewrite <- E. now apply in_map.
  - eexists. vm_compute. reflexivity.
Qed.
Print Assumptions C58.
