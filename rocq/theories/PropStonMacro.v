(** Property of the macro for values: C80. *)
From Coq Require Import NArith ZArith List Bool String Lia.
From Verif Require Import Base Ty Ids Val TypeSys Encode Typify CodecLemmas SpecVal ExampleSys StonMacro SpecStonMacro.
Import ListNotations.
Local Open Scope string_scope.
Local Open Scope N_scope.

(** ** Matching *)

Lemma stands_sv env t v : stands env t v -> sv env t = Some v.
Proof.
  destruct 1 as [s|n s I L|n s I L|n L|x v E|v]; cbn [sv from_literal]; try reflexivity; try exact E.
  - apply N.leb_le in L. rewrite L. repeat (destruct I as [<-|I]; [reflexivity|]). destruct I.
  - apply N.leb_le in L. rewrite L. repeat (destruct I as [<-|I]; [reflexivity|]). destruct I.
  - apply N.leb_le in L. cbn [suffix_max]. rewrite L. reflexivity.
Qed.

Lemma stands_expr env t v : stands env t v -> fits FExpr t = true.
Proof. destruct 1; reflexivity. Qed.

Lemma listed_cons g h gs : listed (g :: h :: gs) = (g ++ KComma :: listed (h :: gs))%list.
Proof. reflexivity. Qed.

Lemma groups_match fs gs : (forall g, In g gs -> forall ts, match_frags fs (g ++ ts) = Some (g, ts)) -> gs <> [] ->
  forall n, (List.length gs <= n)%nat -> match_groups n fs (listed gs) = Some gs.
Proof.
  induction gs as [|g gs IH]; intros M NE n L; [contradiction|]. destruct n as [|n]; [inversion L|]. cbn [match_groups].
  destruct gs as [|h gs].
  - cbn [listed]. pose proof (M g (or_introl eq_refl) []) as E. rewrite app_nil_r in E. rewrite E. reflexivity.
  - rewrite listed_cons, (M g (or_introl eq_refl)). rewrite IH; [reflexivity| |discriminate|cbn in *; lia].
    intros g' I. apply M. now right.
Qed.

Lemma listed_length gs : Forall (fun g => g <> []) gs -> (List.length gs <= List.length (listed gs))%nat.
Proof.
  induction 1 as [|g gs NE F IH]; [cbn; lia|]. destruct gs as [|h gs].
  - destruct g; [contradiction|cbn; lia].
  - rewrite listed_cons, app_length. cbn [List.length] in *. lia.
Qed.

Lemma pattern_groups fs gs : (forall g, In g gs -> forall ts, match_frags fs (g ++ ts) = Some (g, ts)) -> gs <> [] ->
  Forall (fun g => g <> []) gs -> match_pattern (PRep fs) (listed gs) = Some gs.
Proof.
  intros M NE F. cbn [match_pattern]. rewrite (groups_match fs gs M NE).
  - pose proof (listed_length gs F) as L. destruct (listed gs); [|reflexivity]. destruct gs; [contradiction|cbn in L; lia].
  - now apply listed_length.
Qed.

Lemma all_fields env l : Forall (fun f => stands env (snd (fst f)) (snd f)) l ->
  all_some (map (ston_field env) (map (fun f => [KIdent (fst f); snd f]) (map fst l)))
  = Some (map (fun f : string * token * sval => (fst (fst f), snd f)) l).
Proof.
  induction 1 as [|[[n t] v] l S F IH]; [reflexivity|]. cbn [map fst snd all_some ston_field] in *.
  rewrite (stands_sv _ _ _ S). cbn [option_map all_some]. rewrite IH. reflexivity.
Qed.

Lemma all_items env l : Forall (fun f => stands env (fst f) (snd f)) l ->
  all_some (map (ston_item env) (map (fun t => [t]) (map fst l))) = Some (map snd l).
Proof.
  induction 1 as [|[t v] l S F IH]; [reflexivity|]. cbn [map fst snd all_some ston_item] in *.
  rewrite (stands_sv _ _ _ S). cbn [option_map all_some]. rewrite IH. reflexivity.
Qed.

Lemma frags_field n t ts : fits FExpr t = true -> match_frags [FIdent; FExpr] ([KIdent n; t] ++ ts) = Some ([KIdent n; t], ts).
Proof. intros F. cbn [app match_frags fits]. cbn [fits] in F. rewrite F. reflexivity. Qed.

(** Which rule applies to several fields or items. *)
Lemma expand_fields env l : Forall (fun f => stands env (snd (fst f)) (snd f)) l -> (2 <= List.length l)%nat ->
  ston env (fields_text (map fst l)) = Some (v_struc_checked (map (fun f => (fst (fst f), snd f)) l)).
Proof.
  intros F L. unfold ston, rules, fields_text.
  assert (P : match_pattern (PRep [FIdent; FExpr]) (listed (map (fun f => [KIdent (fst f); snd f]) (map fst l)))
    = Some (map (fun f : string * token => [KIdent (fst f); snd f]) (map fst l))).
  { apply pattern_groups.
    - intros g I ts. rewrite map_map in I. apply in_map_iff in I as [[[n t] v] [<- I]]. cbn [fst snd]. apply frags_field.
      rewrite Forall_forall in F. exact (stands_expr _ _ _ (F _ I)).
    - destruct l; [cbn in L; lia|discriminate].
    - apply Forall_forall. intros g I. apply in_map_iff in I as [? [<- I]]. discriminate. }
  remember (map (fun f : string * token => [KIdent (fst f); snd f]) (map fst l)) as gs eqn:G.
  assert (H : exists n t m u gs', gs = [KIdent n; t] :: [KIdent m; u] :: gs' /\ fits FExpr t = true /\ t <> KComma).
  { destruct l as [|[[n t] v] [|[[m u] w] l]]; cbn in L; try lia. inversion F as [|? ? S _]; subst.
    cbn [map fst snd]. do 5 eexists. split; [reflexivity|]. cbn in S. split; [exact (stands_expr _ _ _ S)|]. destruct S; discriminate. }
  destruct H as (n & t & m & u & gs' & -> & Ft & Tc). pose proof (all_fields env l F) as A. rewrite <- G in A. clear G F L.
  set (ts := listed _) in *.
  assert (T : ts = KIdent n :: t :: KComma :: listed ([KIdent m; u] :: gs')) by reflexivity.
  rewrite T in *. clearbody ts.
  cbn [expand]. cbn [match_pattern match_frags fits option_map fst snd] in *. cbn [fits] in Ft. rewrite Ft. cbn [option_map fst snd].
  destruct t as [| |y|lit|v]; try discriminate; cbn [match_groups match_frags fits option_map fst snd List.length];
  cbn [match_groups match_frags fits option_map fst snd List.length] in P; rewrite P, A; reflexivity.
Qed.

Lemma frags_item t ts : fits FExpr t = true -> match_frags [FExpr] ([t] ++ ts) = Some ([t], ts).
Proof. intros F. cbn [app match_frags]. rewrite F. reflexivity. Qed.

Lemma expand_items env l : Forall (fun f => stands env (fst f) (snd f)) l -> (2 <= List.length l)%nat ->
  ston env (items_text (map fst l)) = Some (Ok (VTuple (map snd l))).
Proof.
  intros F L. unfold ston, rules, items_text.
  assert (P : match_pattern (PRep [FExpr]) (listed (map (fun t => [t]) (map fst l))) = Some (map (fun t : token => [t]) (map fst l))).
  { apply pattern_groups.
    - intros g I ts. rewrite map_map in I. apply in_map_iff in I as [[t v] [<- I]]. cbn [fst]. apply frags_item.
      rewrite Forall_forall in F. exact (stands_expr _ _ _ (F _ I)).
    - destruct l; [cbn in L; lia|discriminate].
    - apply Forall_forall. intros g I. apply in_map_iff in I as [? [<- I]]. discriminate. }
  remember (map (fun t : token => [t]) (map fst l)) as gs eqn:G.
  assert (H : exists t u gs', gs = [t] :: [u] :: gs' /\ fits FExpr t = true).
  { destruct l as [|[t v] [|[u w] l]]; cbn in L; try lia. inversion F as [|? ? S _]; subst.
    cbn [map fst snd]. do 3 eexists. split; [reflexivity|exact (stands_expr _ _ _ S)]. }
  destruct H as (t & u & gs' & -> & Ft). pose proof (all_items env l F) as A. rewrite <- G in A. clear G F L.
  set (ts := listed _) in *.
  assert (T : ts = t :: KComma :: listed ([u] :: gs')) by reflexivity.
  rewrite T in *. clearbody ts.
  cbn [expand]. destruct t as [| |y|lit|v]; try discriminate;
    cbn [match_pattern match_frags fits option_map fst snd]; cbn [match_pattern] in P; rewrite P, A; reflexivity.
Qed.

(** ** C80: values written with the macro *)

(** Structures of two or more fields have the fields as written. *)
Theorem C80_struct_partial : forall env l, Forall (fun f => stands env (snd (fst f)) (snd f)) l -> (2 <= List.length l)%nat ->
  Forall (fun f => name_ok (fst (fst f)) = true) l -> NoDup (map (fun f => fst (fst f)) l) ->
  ston env (fields_text (map fst l)) = Some (Ok (VStruct (map (fun f => (fst (fst f), snd f)) l))).
Proof.
  intros env l F L N D. rewrite (expand_fields env l F L). unfold v_struc_checked, v_struc.
  assert (B : forallb (fun f : string * sval => name_ok (fst f)) (map (fun f : string * token * sval => (fst (fst f), snd f)) l) = true).
  { apply forallb_forall. intros f I. apply in_map_iff in I as [g [<- I]]. rewrite Forall_forall in N. exact (N g I). }
  rewrite B, imap_collect; [reflexivity|]. rewrite map_map. exact D.
Qed.
Print Assumptions C80_struct_partial.

(** Tuples of two or more items have the items as written. *)
Theorem C80_tuple_partial : forall env l, Forall (fun f => stands env (fst f) (snd f)) l -> (2 <= List.length l)%nat ->
  ston env (items_text (map fst l)) = Some (Ok (VTuple (map snd l))).
Proof. exact expand_items. Qed.
Print Assumptions C80_tuple_partial.

(** Unions, by name and by number; optionals; other values. *)
Theorem C80_union : forall env x t v, stands env t v -> name_ok x = true ->
  ston env [KIdent x; t] = Some (Ok (VUnion (Name x) v)) /\ ston env [KLit (LStr x); t] = Some (Ok (VUnion (Name x) v)).
Proof.
  intros env x t v S N. pose proof (stands_sv _ _ _ S) as E. pose proof (stands_expr _ _ _ S) as F. unfold ston, rules.
  destruct t as [| |y|l|w]; try discriminate;
    cbn [expand match_pattern match_frags fits option_map fst snd tag_literal]; rewrite E; unfold vname; rewrite N; split; reflexivity.
Qed.
Print Assumptions C80_union.

Theorem C80_union_number : forall env n t v, stands env t v -> n <= 255 ->
  ston env [KLit (LInt n None); t] = Some (Ok (VUnion (Ord n) v)).
Proof.
  intros env n t v S N. pose proof (stands_sv _ _ _ S) as E. pose proof (stands_expr _ _ _ S) as F. unfold ston, rules.
  apply N.leb_le in N.
  destruct t as [| |y|l|w]; try discriminate;
    cbn [expand match_pattern match_frags fits option_map fst snd tag_literal suffix_max]; rewrite E, N; reflexivity.
Qed.
Print Assumptions C80_union_number.

Theorem C80_value : forall env t v, stands env t v -> ston env [t] = Some (Ok v).
Proof.
  intros env t v S. pose proof (stands_sv _ _ _ S) as E. pose proof (stands_expr _ _ _ S) as F. unfold ston, rules.
  destruct t as [| |y|l|w]; try discriminate; cbn [expand match_pattern match_frags fits option_map fst snd]; rewrite E; reflexivity.
Qed.
Print Assumptions C80_value.

Theorem C80_none : forall env, ston env [KTilde] = Some (Ok (VUnion (Name "none") VUnit))
  /\ unwrap_option (VUnion (Name "none") VUnit) = Ok None.
Proof. intros env. split; reflexivity. Qed.
Print Assumptions C80_none.

(** Names which are not valid are never taken: the program panics. *)
Theorem C80_names : forall env l, Forall (fun f => stands env (snd (fst f)) (snd f)) l -> l <> [] ->
  (exists f, In f l /\ name_ok (fst (fst f)) = false) -> ston env (fields_text (map fst l)) = Some Panic.
Proof.
  intros env l F NE (f & I & N). destruct l as [|[[n t] v] [|g l]]; [contradiction| |].
  - destruct I as [<-|[]]. inversion F as [|? ? S _]; subst. cbn [fst snd] in *.
    pose proof (stands_sv _ _ _ S) as E. pose proof (stands_expr _ _ _ S) as X. unfold ston, rules, fields_text. cbn [map listed fst snd].
    destruct t as [| |y|li|w]; try discriminate;
      cbn [expand match_pattern match_frags fits option_map fst snd]; rewrite E; unfold vname; rewrite N; reflexivity.
  - rewrite (expand_fields env _ F) by (cbn; lia). unfold v_struc_checked.
    match goal with |- Some (if ?b then _ else _) = _ => destruct b eqn:B end; [|reflexivity].
    rewrite forallb_forall in B. specialize (B (fst (fst f), snd f)). cbn [fst] in B. rewrite B in N; [discriminate|].
    apply in_map_iff. exists f. split; [reflexivity|exact I].
Qed.
Print Assumptions C80_names.

(** The example of the documentation, and other inputs. *)
Definition no_vars : scope := fun _ => None.
Example C80_case :
  ston no_vars [KIdent "name"; KLit (LStr "Some name"); KComma; KIdent "ticker"; KLit (LStr "TICK"); KComma;
    KIdent "precision"; KLit (LInt 8 (Some SU8))]
  = Some (Ok (VStruct [("name", VStr "Some name"); ("ticker", VStr "TICK"); ("precision", VNum (Uint 8))]))
  /\ ston no_vars [KLit (LInt 1 None); KComma; KLit (LStr "some"); KComma; KLit (LStr "val")]
    = Some (Ok (VTuple [VNum (Int 1); VStr "some"; VStr "val"])).
Proof.
  split.
  - apply (C80_struct_partial no_vars [("name", KLit (LStr "Some name"), VStr "Some name");
      ("ticker", KLit (LStr "TICK"), VStr "TICK"); ("precision", KLit (LInt 8 (Some SU8)), VNum (Uint 8))]).
    + repeat constructor; cbn; auto. discriminate.
    + cbn. lia.
    + repeat constructor.
    + repeat constructor; cbn; intuition discriminate.
  - apply (C80_tuple_partial no_vars [(KLit (LInt 1 None), VNum (Int 1)); (KLit (LStr "some"), VStr "some"); (KLit (LStr "val"), VStr "val")]).
    + repeat constructor; discriminate.
    + cbn. lia.
Qed.
Example C80_union_case : ston no_vars [KIdent "some"; KLit (LStr "value")] = Some (Ok (VUnion (Name "some") (VStr "value")))
  /\ ston no_vars [KLit (LInt 3 None); KExpr VUnit] = Some (Ok (VUnion (Ord 3) VUnit))
  /\ ston (fun x => if String.eqb x "a" then Some (VStr "b") else None) [KIdent "a"] = Some (Ok (VStr "b")).
Proof.
  split; [apply C80_union; [constructor|reflexivity]|]. split; [apply C80_union_number; [constructor|discriminate]|].
  apply C80_value. constructor. reflexivity.
Qed.
Example C80_names_case : ston no_vars (fields_text [("Name", KExpr VUnit); ("b", KExpr VUnit)]) = Some Panic.
Proof.
  apply (C80_names no_vars [("Name", KExpr VUnit, VUnit); ("b", KExpr VUnit, VUnit)]); [repeat constructor|discriminate|].
  eexists. split; [now left|reflexivity].
Qed.

(** A structure of one field is not: it becomes an union. Whatever the type of the field, it is not accepted as the
    structure, though the structure with this field may be. *)
Theorem C80_refuted :
  (forall env n t v, stands env t v -> name_ok n = true -> exists w,
     ston env (fields_text [(n, t)]) = Some (Ok w) /\
     forall fuel sys id r, type_of sys id = Some (TStruct [(n, r)]) -> typify (S fuel) sys w id = Err (TypeMismatch w (TStruct [(n, r)])))
  /\ exists sys id n r t v, type_of sys id = Some (TStruct [(n, r)]) /\ stands no_vars t v /\ name_ok n = true
     /\ typify 2 sys (VStruct [(n, v)]) id = Ok (mkTyped id (VStruct [(n, v)])).
Proof.
  split.
  - intros env n t v S N. exists (VUnion (Name n) v). split; [exact (proj1 (C80_union env n t v S N))|].
    intros fuel sys id r T. unfold typify. cbn [typify_val]. rewrite T. reflexivity.
  - exists [(1, TPrim 1); (2, TStruct [("name", 1)])], 2, "name", 1, (KLit (LInt 8 (Some SU8))), (VNum (Uint 8)).
    split; [vm_compute; reflexivity|]. split; [constructor; [now left|discriminate]|]. split; [reflexivity|]. vm_compute. reflexivity.
Qed.
Print Assumptions C80_refuted.

(** A number without a suffix is signed, so that it is not accepted for any unsigned type, though the number is in its range. *)
Theorem C80_numbers_refuted : forall env n, n <= 255 -> exists w, ston env [KLit (LInt n None)] = Some (Ok w)
  /\ forall fuel sys id p, type_of sys id = Some (TPrim p) -> 1 <= p <= 8 ->
     typify (S fuel) sys w id = Err (TypeMismatch w (TPrim p))
     /\ typify (S fuel) sys (VNum (Uint n)) id = Ok (mkTyped id (VNum (Uint n))).
Proof.
  intros env n L. exists (VNum (Int (Z.of_N n))). split; [apply C80_value; constructor; lia|].
  intros fuel sys id p T P. unfold typify. cbn [typify_val]. rewrite T. cbn [ok_or bind typify_ty].
  assert (S : is_small_signed p = false) by (unfold is_small_signed; apply andb_false_iff; left; apply N.leb_gt; lia).
  assert (U : is_small_unsigned p = true) by (unfold is_small_unsigned; apply N.leb_le; lia).
  rewrite S, U. split; reflexivity.
Qed.
Print Assumptions C80_numbers_refuted.

(** Tags alone are not values of enumerations, though the macro has a rule for them: they are taken for variables, so that
    the program does not compile; the rule is never used. *)
Theorem C80_enum_refuted : forall env x, name_ok x = true ->
  svenum (KIdent x) = Some (Ok (VEnum (Name x))) /\ (env x = None -> ston env [KIdent x] = None)
  /\ forall v, env x = Some v -> ston env [KIdent x] = Some (Ok v).
Proof.
  intros env x N. split; [cbn; unfold vname; now rewrite N|]. split.
  - intros E. unfold ston, rules. cbn [expand match_pattern match_frags fits option_map fst snd sv]. rewrite E. reflexivity.
  - intros v E. apply C80_value. now constructor.
Qed.
Print Assumptions C80_enum_refuted.

(** A field written twice is taken silently, the last value counts. *)
Theorem C80_repeated_refuted : forall env n t u v w, stands env t v -> stands env u w -> name_ok n = true ->
  ston env (fields_text [(n, t); (n, u)]) = Some (Ok (VStruct [(n, w)])).
Proof.
  intros env n t u v w S U N.
  change [(n, t); (n, u)] with (map fst [(n, t, v); (n, u, w)]).
  rewrite (expand_fields env [(n, t, v); (n, u, w)] (Forall_cons (n, t, v) S (Forall_cons (n, u, w) U (Forall_nil _))) (le_n 2)).
  unfold v_struc_checked, v_struc. cbn [map forallb fst snd fold_left imap_insert]. rewrite N. cbn [andb].
  rewrite String.eqb_refl. reflexivity.
Qed.
Print Assumptions C80_repeated_refuted.
