(** Properties of access to parts of values: C40 and C42. *)
From Coq Require Import NArith ZArith List Bool String Strings.Byte Lia.
From Verif Require Import Base Val SpecVal ValLemmas SpecUtf8 Utf8Proofs.
Import ListNotations.
Local Open Scope string_scope.
Local Open Scope N_scope.

Lemma bytes_eqb_eq a : forall b, bytes_eqb a b = true <-> a = b.
Proof.
  induction a as [|x a IH]; intros [|y b]; cbn; try (split; (discriminate || reflexivity)).
  rewrite andb_true_iff, IH. split.
  - intros [E ->]. f_equal. destruct (Byte.byte_dec_bl x y E). reflexivity.
  - intros [= -> ->]. split; [now apply Byte.byte_dec_lb|reflexivity].
Qed.

Lemma has_match_spec k v : (forall x, v = VNum x -> exists n, x = Uint n) -> has_match k v = true <-> key_is k v.
Proof.
  intros P. split.
  - destruct k, v; cbn; try discriminate.
    + destruct n0; try discriminate. intros E. apply N.eqb_eq in E. subst. now constructor.
    + destruct t; try discriminate. intros E. apply N.eqb_eq in E. subst. now constructor.
    + intros E. apply bytes_eqb_eq in E. subst. constructor.
    + intros E. apply String.eqb_eq in E. subst. constructor.
  - destruct 1 as [n x E|n|b|s]; cbn.
    + destruct (P x eq_refl) as [m ->]. cbn in E. apply N.eqb_eq. lia.
    + apply N.eqb_refl.
    + now apply bytes_eqb_eq.
    + apply String.eqb_refl.
Qed.

Lemma find_split {A} (f : A -> bool) l x : find f l = Some x <->
  exists l1 l2, l = (l1 ++ x :: l2)%list /\ f x = true /\ forall y, In y l1 -> f y = false.
Proof.
  induction l as [|a l IH]; cbn.
  - split; [discriminate|]. intros ([|] & l2 & E & _); discriminate.
  - destruct (f a) eqn:F.
    + split.
      * intros [= ->]. exists [], l. split; [reflexivity|]. split; [exact F|]. intros y [].
      * intros ([|b l1] & l2 & E & Fx & N); injection E as -> ->; [reflexivity|].
        rewrite N in F by now left. discriminate.
    + rewrite IH. split.
      * intros (l1 & l2 & -> & Fx & N). exists (a :: l1), l2. split; [reflexivity|]. split; [exact Fx|].
        intros y [<-|I]; auto.
      * intros ([|b l1] & l2 & E & Fx & N); injection E as -> ->; [congruence|].
        exists l1, l2. split; [reflexivity|]. split; [exact Fx|]. intros y I. apply N. now right.
Qed.

Lemma val_step v s v' : plain v -> val_at_path v [s] = Ok v' <-> points v s v'.
Proof.
  intros P. split.
  - intros H. destruct v, s; try discriminate; cbn in H.
    + unfold imap_get in H. destruct (find _ fs) as [[n w]|] eqn:F in H; [|discriminate]. injection H as <-.
      apply find_some in F as [I E]. apply String.eqb_eq in E. cbn in *. subst. now constructor.
    + destruct nth_error eqn:E in H; [|discriminate]. injection H as <-. now constructor.
    + destruct nth_error eqn:E in H; [|discriminate]. injection H as <-. now constructor.
    + destruct nth_error eqn:E in H; [|discriminate]. injection H as <-. now constructor.
    + destruct (find _ l) as [[key w]|] eqn:F in H; [|discriminate]. injection H as <-.
      apply find_split in F as (l1 & l2 & -> & M & N). cbn in *. constructor.
      * apply has_match_spec; [|exact M]. intros x E. apply (P key); [|exact E]. rewrite map_app. apply in_or_app. right. now left.
      * intros e I K. apply has_match_spec in K; [rewrite (N e I) in K; discriminate|].
        intros x E. apply (P (fst e)); [|exact E]. rewrite map_app. apply in_or_app. left. now apply in_map.
  - intros H. destruct H as [l no v E|fs name v I|l i v E|l i v E|l1 l2 k key v K N]; cbn.
    + now rewrite E.
    + cbn in P. unfold imap_get. enough (F : find (fun e => (fst e =? name)%string) fs = Some (name, v)) by now rewrite F.
      induction fs as [|[m w] fs IH]; [destruct I|]. cbn in *. inversion P as [|? ? NI ND]; subst.
      destruct (String.eqb_spec m name) as [->|D].
      * destruct I as [[= ->]|I]; [reflexivity|]. destruct NI. apply (in_map fst) in I. exact I.
      * destruct I as [[= -> ->]|I]; [congruence|]. now apply IH.
    + now rewrite E.
    + now rewrite E.
    + cbn in P. enough (F : find (fun e => has_match k (fst e)) (l1 ++ (key, v) :: l2)%list = Some (key, v)) by now rewrite F.
      apply find_split. exists l1, l2. split; [reflexivity|]. split.
      * apply has_match_spec; [|exact K]. intros x E. apply (P key); [|exact E]. rewrite map_app. apply in_or_app. right. now left.
      * intros e I. destruct (has_match k (fst e)) eqn:M; [|reflexivity]. destruct (N e I). apply has_match_spec; [|exact M].
        intros x E. apply (P (fst e)); [|exact E]. rewrite map_app. apply in_or_app. left. now apply in_map.
Qed.

(** ** C40: value paths *)

Definition ex_val : sval :=
  VStruct [("owner", VStr "anyone");
           ("tokens", VMap [(VNum (Uint 7), VList [VNum (Uint 1); VNum (Uint 2)]); (VNum (Uint 8), VList [])]);
           ("pair", VTuple [VNum (Uint 5); VTuple [VStr "deep"; VUnit]])].

(** Paths of at most one step; see [C40_refuted]. *)
Theorem C40_partial : forall v path v', plain v -> (List.length path <= 1)%nat ->
  val_at_path v path = Ok v' <-> leads v path v'.
Proof.
  intros v path v' P L. destruct path as [|s [|s' path]]; [| |cbn in L; lia].
  - cbn. split; [intros [= ->]; constructor|]. inversion 1. reflexivity.
  - rewrite val_step by exact P. split.
    + intros H. eapply L_step; [exact H|constructor].
    + inversion 1 as [|? ? w ? ? H1 H2]; subst. inversion H2; subst. exact H1.
Qed.
Example C40_case : val_at_path ex_val [VSNamed "owner"] = Ok (VStr "anyone").
Proof.
  apply C40_partial; [|cbn; lia|].
  - cbn. repeat constructor; cbn; intuition discriminate.
  - eapply L_step; [constructor; left; reflexivity|constructor].
Qed.
Example C40_key_case : val_at_path (VMap [(VNum (Uint 7), VUnit); (VEnum (Ord 8), VStr "x")]) [VSKey (KNumber 8)] = Ok (VStr "x").
Proof.
  apply C40_partial; [|cbn; lia|].
  - intros key x I E. cbn in I. destruct I as [<-|[<-|[]]]; [injection E as <-; eauto|discriminate].
  - eapply L_step; [|constructor].
    apply (P_map [(VNum (Uint 7), VUnit)] [] (KNumber 8)); [constructor|].
    intros e [<-|[]] H. inversion H as [? ? E| | |]; subst. discriminate E.
Qed.
Print Assumptions C40_partial.

(** A step which does not exist gives an error. *)
Theorem C40_error_partial : forall v s, plain v -> (forall v', ~ leads v [s] v') ->
  exists e, val_at_path v [s] = Err e.
Proof.
  intros v s P N. destruct (val_at_path v [s]) as [v'|e| |] eqn:E; [|eauto| |].
  - destruct (N v'). apply C40_partial; auto.
  - exfalso. destruct v, s; try discriminate; cbn in E; unfold imap_get, ok_or in E;
      repeat match type of E with context [match ?x with _ => _ end] => destruct x; cbn in E; try discriminate end.
  - exfalso. destruct v, s; try discriminate; cbn in E; unfold imap_get, ok_or in E;
      repeat match type of E with context [match ?x with _ => _ end] => destruct x; cbn in E; try discriminate end.
Qed.
Example C40_error_case : exists e, val_at_path ex_val [VSNamed "missing"] = Err e.
Proof.
  apply C40_error_partial.
  - cbn. repeat constructor; cbn; intuition discriminate.
  - intros v' H. inversion H as [|? ? w ? ? H1 H2]; subst. inversion H1 as [|? ? ? I| | |]; subst.
    cbn in I. intuition discriminate.
Qed.
Print Assumptions C40_error_partial.

(** Only the first step counts: the result for an existing path is another value, and a path which does
    not exist gives a value. *)
Theorem C40_refuted :
  (forall v s path, val_at_path v (s :: path) = val_at_path v [s])
  /\ (exists v path v' v'', leads v path v' /\ val_at_path v path = Ok v'' /\ v'' <> v')
  /\ (exists v path v'', (forall v', ~ leads v path v') /\ val_at_path v path = Ok v'').
Proof.
  split; [reflexivity|]. split.
  - exists ex_val, [VSNamed "pair"; VSUnnamed 0], (VNum (Uint 5)). eexists. split; [|split; [reflexivity|discriminate]].
    eapply L_step; [constructor; right; right; left; reflexivity|]. eapply L_step; [constructor; reflexivity|constructor].
  - exists ex_val, [VSNamed "owner"; VSIndex 3]. eexists. split; [|reflexivity].
    intros v' H. inversion H as [|? ? w ? ? H1 H2]; subst. inversion H1 as [|? ? ? I| | |]; subst. cbn in I.
    destruct I as [[= <-]|[[= ]|[[= ]|[]]]]. inversion H2 as [|? ? w ? ? H3 H4]; subst. inversion H3.
Qed.
Print Assumptions C40_refuted.

(** What is found is exactly the target of the first step, whatever the rest of the path is. *)
Theorem C40_exact : forall v s path v', plain v -> val_at_path v (s :: path) = Ok v' <-> leads v [s] v'.
Proof. intros v s path v' P. rewrite (proj1 C40_refuted v s path). apply C40_partial; [exact P|reflexivity]. Qed.
Example C40_exact_case : val_at_path ex_val [VSNamed "owner"; VSIndex 3; VSNamed "x"] = Ok (VStr "anyone").
Proof. apply C40_exact; [repeat constructor; cbn; intuition discriminate|]. apply C40_partial; [repeat constructor; cbn; intuition discriminate|reflexivity|reflexivity]. Qed.
Print Assumptions C40_exact.

(** Entries of maps with large unsigned keys (u128 numbers) are not found by the number of the key, although
    the step holds numbers of that size. *)
Theorem C40_key_refuted : forall n v,
  leads (VMap [(VNum (BigUint n), v)]) [VSKey (KNumber n)] v
  /\ val_at_path (VMap [(VNum (BigUint n), v)]) [VSKey (KNumber n)] = Err (PUnknownKey (KNumber n)).
Proof.
  intros n v. split; [|reflexivity]. eapply L_step; [|constructor].
  apply (P_map [] [] (KNumber n)); [now constructor|intros e []].
Qed.
Example C40_key_refuted_case :
  val_at_path (VMap [(VNum (BigUint 5), VUnit)]) [VSKey (KNumber 5)] = Err (PUnknownKey (KNumber 5)).
Proof. exact (proj2 (C40_key_refuted 5 VUnit)). Qed.
Print Assumptions C40_key_refuted.

(** ** C42: accessors give back what was put in *)

Lemma wraps_skip v w : wraps v w -> skip_wrapper w = skip_wrapper v.
Proof. induction 1; auto. Qed.

Lemma skip_wraps w : wraps (skip_wrapper w) w.
Proof.
  induction w as [|n|s|b|fs IH|t|t v IH|l IH|l IH|l IH|l IH] using sval_ind'; try constructor.
  destruct l as [|x [|y l]]; try constructor. inversion IH; subst. assumption.
Qed.

Ltac through H := unfold unwrap_option, unwrap_num, unwrap_string, unwrap_bytes, unwrap_tuple, unwrap_struct, unwrap_pos,
  unwrap_key, unwrap_union, unwrap_enum_tag; rewrite (wraps_skip _ _ H).

(** Options, numbers, strings, bytes, enumerations and unions, wrapped into any number of newtypes. *)
Theorem C42_option : forall o w, wraps (v_option o) w -> unwrap_option w = Ok o.
Proof. intros [v|] w H; through H; reflexivity. Qed.
Example C42_option_case : unwrap_option (v_newtype (v_newtype (v_some (VStr "x")))) = Ok (Some (VStr "x")).
Proof. apply (C42_option (Some (VStr "x"))). repeat constructor. Qed.
Print Assumptions C42_option.

(** Options as they come from a decoder, by tags: 0 is absent, 1 is present. Nothing else is an option. *)
Theorem C42_option_tags : forall w o, unwrap_option w = Ok o <->
  match o with
  | None => wraps (VUnion (Name "none") VUnit) w \/ wraps (VUnion (Ord 0) VUnit) w
  | Some x => wraps (VUnion (Name "some") x) w \/ wraps (VUnion (Ord 1) x) w
  end.
Proof.
  intros w o. split.
  - intros H. unfold unwrap_option in H. pose proof (skip_wraps w) as W.
    destruct (skip_wrapper w) as [| | | | | |[n|t] c| | | |]; try discriminate H.
    + destruct (String.eqb_spec n "none") as [->|Nn]; cbn [andb] in H.
      * destruct (sval_eqb c VUnit) eqn:Q; [injection H as <-; destruct c; try discriminate Q; left; exact W|discriminate H].
      * destruct (String.eqb_spec n "some") as [->|Ns]; [injection H as <-; left; exact W|discriminate H].
    + destruct (N.eqb_spec t 0) as [->|Nn]; cbn [andb] in H.
      * destruct (sval_eqb c VUnit) eqn:Q; [injection H as <-; destruct c; try discriminate Q; right; exact W|discriminate H].
      * destruct (N.eqb_spec t 1) as [->|Ns]; [injection H as <-; right; exact W|discriminate H].
  - destruct o as [x|]; intros [H|H]; through H; reflexivity.
Qed.
Example C42_option_tags_case : unwrap_option (v_newtype (VUnion (Ord 1) (VStr "x"))) = Ok (Some (VStr "x"))
  /\ unwrap_option (VUnion (Ord 0) VUnit) = Ok None /\ forall o, unwrap_option (VUnion (Ord 2) VUnit) <> Ok o.
Proof.
  split; [apply C42_option_tags; right; repeat constructor|]. split; [apply C42_option_tags; right; constructor|].
  intros o E. apply C42_option_tags in E. destruct o; destruct E as [E|E]; inversion E.
Qed.
Print Assumptions C42_option_tags.

Theorem C42_scalars : forall w,
  (forall n, wraps (VNum n) w -> unwrap_num w = Ok n)
  /\ (forall s, wraps (VStr s) w -> unwrap_string w = Ok s)
  /\ (forall b, wraps (VBytes b) w -> unwrap_bytes w = Ok b)
  /\ (forall t, wraps (VEnum t) w -> unwrap_enum_tag w = Ok t)
  /\ (forall t v, wraps (VUnion t v) w -> unwrap_union w = Ok (t, v)).
Proof. intros w. repeat split; [intros n H|intros s H|intros b H|intros t H|intros t v H]; through H; reflexivity. Qed.
Example C42_scalars_case : unwrap_string (v_newtype (VStr "name")) = Ok "name".
Proof. apply (proj1 (proj2 (C42_scalars _))). repeat constructor. Qed.
Print Assumptions C42_scalars.

(** Text also from bytes and from lists of characters by their codes, exactly if it is UTF-8. *)
Lemma ords_of (ns : list N) : map_outcome (fun c => let* t := unwrap_enum_tag c in unwrap_ord t) (map (fun n => VEnum (Ord n)) ns) = Ok ns.
Proof. induction ns as [|n ns IH]; [reflexivity|]. cbn [map map_outcome]. rewrite IH. reflexivity. Qed.
Lemma bstring_inj a b : bstring a = bstring b -> a = b.
Proof. intros H. rewrite <- (sbytes_bstring a), <- (sbytes_bstring b). now rewrite H. Qed.
Theorem C42_text : forall w b, wraps (VBytes b) w \/ wraps (VList (map (fun c => VEnum (Ord (Byte.to_N c))) b)) w ->
  (is_text b -> unwrap_string w = Ok (bstring b)) /\ (~ is_text b -> unwrap_string w = Panic).
Proof.
  intros w b H.
  assert (E : unwrap_string w = if utf8_valid b then Ok (bstring b) else Panic).
  { destruct H as [H|H]; through H; cbn [skip_wrapper]; [reflexivity|]. destruct b as [|c b]; [reflexivity|].
    rewrite <- (map_map Byte.to_N (fun n => VEnum (Ord n))).
    replace (forallb _ _) with true.
    - rewrite ords_of. cbn [bind]. replace (map b8 (map Byte.to_N (c :: b))) with (c :: b); [reflexivity|].
      rewrite map_map, (map_ext (fun x => b8 (Byte.to_N x)) (fun x => x)) by apply to_N_b8. symmetry. apply map_id.
    - symmetry. apply forallb_forall. intros x I. apply in_map_iff in I as (n & <- & _). reflexivity. }
  rewrite E. destruct (utf8_valid b) eqn:V.
  - apply utf8_spec in V. split; [reflexivity|contradiction].
  - split; [|reflexivity]. intros T. apply utf8_spec in T. congruence.
Qed.
(** The letter a and the euro sign; a lone byte of its encoding. *)
Example C42_text_case :
  unwrap_string (v_newtype (VList (map (fun n => VEnum (Ord n)) [0x61; 0xE2; 0x82; 0xAC]))) = Ok (bstring [x61; xe2; x82; xac])
  /\ unwrap_string (VBytes [x61; xe2]) = Panic.
Proof.
  split.
  - apply (C42_text _ [x61; xe2; x82; xac]); [right; repeat constructor|]. exists [0x61; 0x20AC]. split; [|reflexivity].
    repeat constructor.
  - apply (C42_text _ [x61; xe2]); [left; constructor|]. intros T. apply utf8_spec in T. discriminate T.
Qed.
Print Assumptions C42_text.

Theorem C42_uint : forall max n w, wraps (VNum (Uint n)) w ->
  unwrap_uint max w = if n <=? max then Ok n else Panic.
Proof. intros max n w H. unfold unwrap_uint. rewrite (proj1 (C42_scalars w) (Uint n) H). reflexivity. Qed.
Example C42_uint_case : unwrap_uint 255 (v_newtype (VNum (Uint 200))) = Ok 200.
Proof. apply (C42_uint 255 200). repeat constructor. Qed.
Print Assumptions C42_uint.

(** Items of collections and fields. A tuple of one field is not told apart from a newtype wrapper, hence
    the number of fields. *)
Theorem C42_tuple_partial : forall l w no v, wraps (VTuple l) w -> List.length l <> 1%nat ->
  nth_error l (N.to_nat no) = Some v -> unwrap_tuple w no = Ok v.
Proof.
  intros l w no v H L E. through H. destruct l as [|a [|b l]]; cbn [skip_wrapper].
  - destruct (N.to_nat no); discriminate.
  - now destruct L.
  - rewrite E. reflexivity.
Qed.
Example C42_tuple_case : unwrap_tuple (VTuple [VUnit; VStr "b"]) 1 = Ok (VStr "b").
Proof. eapply C42_tuple_partial; [constructor|discriminate|reflexivity]. Qed.
Print Assumptions C42_tuple_partial.

Theorem C42_tuple_refuted : forall n, unwrap_tuple (VTuple [VNum n]) 0 = Panic
  /\ exists v, unwrap_tuple (VTuple [VTuple [VNum n; VUnit]]) 1 = Ok v /\ nth_error [VTuple [VNum n; VUnit]] 1 = None.
Proof. intros n. split; [reflexivity|]. exists VUnit. split; reflexivity. Qed.
Example C42_tuple_refuted_case : unwrap_tuple (VTuple [VNum (Uint 3)]) 0 = Panic.
Proof. exact (proj1 (C42_tuple_refuted (Uint 3))). Qed.
Print Assumptions C42_tuple_refuted.

(** What is taken from any value: exactly the fields of the first tuple, going inwards, which has not one field; all else
    panics. *)
Lemma skip_not_one v : forall x, skip_wrapper v <> VTuple [x].
Proof.
  revert v. fix go 1. intros [| | | | | | | | |l|] y; try discriminate. destruct l as [|a [|b l]]; cbn [skip_wrapper]; [discriminate|apply go|discriminate].
Qed.
Theorem C42_tuple_exact : forall w no v,
  (unwrap_tuple w no = Ok v <-> exists l, wraps (VTuple l) w /\ List.length l <> 1%nat /\ nth_error l (N.to_nat no) = Some v)
  /\ ((exists v, unwrap_tuple w no = Ok v) \/ unwrap_tuple w no = Panic).
Proof.
  intros w no v. split.
  - split; [|intros (l & H & L & E); exact (C42_tuple_partial l w no v H L E)].
    unfold unwrap_tuple. pose proof (skip_wraps w) as W. pose proof (skip_not_one w) as O.
    destruct (skip_wrapper w) as [| | | | | | | | |l|]; intros H; try discriminate H. exists l. split; [exact W|]. split.
    + destruct l as [|a [|b l]]; cbn; [lia|destruct (O a eq_refl)|lia].
    + destruct (nth_error l (N.to_nat no)) as [x|]; [now injection H as ->|discriminate H].
  - unfold unwrap_tuple. destruct (skip_wrapper w) as [| | | | | | | | |l|]; auto. destruct (nth_error l (N.to_nat no)); cbn; eauto.
Qed.
Example C42_tuple_exact_case : unwrap_tuple (VTuple [VTuple [VUnit; VStr "b"]]) 1 = Ok (VStr "b").
Proof. apply C42_tuple_exact. exists [VUnit; VStr "b"]. split; [repeat constructor|]. split; [discriminate|reflexivity]. Qed.
Print Assumptions C42_tuple_exact.

Theorem C42_items : forall l w no v, wraps (VList l) w \/ wraps (VSet l) w ->
  nth_error l (N.to_nat no) = Some v -> unwrap_pos w no = Ok v.
Proof. intros l w no v [H|H] E; through H; cbn [skip_wrapper]; rewrite E; reflexivity. Qed.
Example C42_items_case : unwrap_pos (v_newtype (VList [VUnit; VStr "b"])) 1 = Ok (VStr "b").
Proof. eapply C42_items; [left; repeat constructor|reflexivity]. Qed.
Print Assumptions C42_items.

(** The value of the first entry of a map with a key equal to the given one ([==] of the values). *)
Theorem C42_keys : forall l w key,
  wraps (VMap l) w ->
  (forall l1 k x l2, l = (l1 ++ (k, x) :: l2)%list -> sval_eqb k key = true -> Forall (fun e => sval_eqb (fst e) key = false) l1 ->
     unwrap_key w key = Ok x)
  /\ (Forall (fun e => sval_eqb (fst e) key = false) l -> unwrap_key w key = Panic).
Proof.
  intros l w key H. split.
  - intros l1 k x l2 -> E F. through H. cbn [skip_wrapper]. clear H. induction F as [|e l1 Q F IH]; cbn.
    + now rewrite E.
    + rewrite Q. exact IH.
  - intros F. through H. cbn [skip_wrapper]. clear H. induction F as [|e l Q F IH]; cbn; [reflexivity|]. now rewrite Q.
Qed.
(** In particular of any entry of a map with different keys, and each value without repeated field names is
    equal to itself. *)
Theorem C42_own_key : forall l1 k x l2 w, wraps (VMap (l1 ++ (k, x) :: l2)) w -> fields_ok k ->
  Forall (fun e => sval_eqb (fst e) k = false) l1 -> unwrap_key w k = Ok x.
Proof.
  intros l1 k x l2 w H K F. destruct (C42_keys _ _ k H) as [G _]. eapply G; [reflexivity| |exact F]. now apply sval_eqb_refl.
Qed.
Example C42_keys_case : unwrap_key (v_newtype (VMap [(VStr "a", VUnit); (VNum (Uint 2), VStr "b")])) (VNum (Uint 2)) = Ok (VStr "b")
  /\ unwrap_key (VMap [(VStr "a", VUnit)]) (VStr "b") = Panic.
Proof.
  split.
  - apply (C42_own_key [(VStr "a", VUnit)] _ _ []); [repeat constructor|exact I|repeat constructor].
  - apply (C42_keys [(VStr "a", VUnit)]); repeat constructor.
Qed.
Print Assumptions C42_keys.
Print Assumptions C42_own_key.

Lemma imap_get_insert {V} k k' (v : V) m : imap_get (imap_insert k v m) k' = if (k' =? k)%string then Some v else imap_get m k'.
Proof.
  unfold imap_get. induction m as [|[a b] m IH]; cbn.
  - rewrite String.eqb_sym. now destruct (k' =? k)%string.
  - destruct (String.eqb_spec a k) as [->|D]; cbn.
    + rewrite (String.eqb_sym k k'). destruct (k' =? k)%string; reflexivity.
    + destruct (String.eqb_spec a k') as [->|D']; cbn; [|exact IH]. destruct (String.eqb_spec k' k); [congruence|reflexivity].
Qed.

(** A structure made from fields holds the last value given for a name. *)
Theorem C42_fields : forall fs w name v, wraps (v_struc fs) w ->
  (exists fs1 fs2, fs = (fs1 ++ (name, v) :: fs2)%list /\ ~ In name (map fst fs2)) ->
  unwrap_struct w name = Ok v.
Proof.
  intros fs w name v H (fs1 & fs2 & -> & N). through H. cbn [skip_wrapper v_struc].
  enough (E : forall m, imap_get m name = Some v -> imap_get (fold_left (fun m e => imap_insert (fst e) (snd e) m) fs2 m) name = Some v).
  { rewrite fold_left_app. cbn [fold_left fst snd]. rewrite E; [reflexivity|]. rewrite imap_get_insert, String.eqb_refl. reflexivity. }
  clear H w. induction fs2 as [|[k u] fs2 IH]; intros m G; [exact G|]. cbn [fold_left fst snd]. apply IH.
  - intros I. apply N. now right.
  - rewrite imap_get_insert. destruct (String.eqb_spec name k) as [->|D]; [|exact G]. destruct N. now left.
Qed.
Example C42_fields_case : unwrap_struct (v_struc [("a", VUnit); ("b", VStr "1"); ("a", VStr "2")]) "a" = Ok (VStr "2").
Proof.
  eapply C42_fields; [constructor|]. exists [("a", VUnit); ("b", VStr "1")], []. split; [reflexivity|intros []].
Qed.
Print Assumptions C42_fields.
