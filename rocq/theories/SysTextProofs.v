(** Proofs about the text of type systems: types with references shown as labels are read unambiguously, as types of
    source text with names for these references. *)
From Coq Require Import NArith Arith List Bool String Ascii Strings.Byte Lia.
From Verif Require Import Base Ty Ids TypeSys LibCodec Build Ston Sty Text SysText SpecSty SpecSysText Spec SpecIds StyProofs.
Import ListNotations.
Local Open Scope N_scope.
Local Open Scope list_scope.

Section Embed.
Context {R : Type}.
(** The same type with names for references, and other ones for the keys of maps. *)
Definition embed (f g : R -> tref) (t : ty R) : ty tref :=
  match t with
  | TPrim c => TPrim c
  | TUnicode => TUnicode
  | TEnum vs => TEnum vs
  | TUnion vs => match as_some (TUnion vs) with
                 | Some r => optional (f r)
                 | None => TUnion (map (fun v => (fst v, f (snd v))) vs)
                 end
  | TTuple fs => TTuple (map f fs)
  | TStruct fs => TStruct (map (fun x => (fst x, f (snd x))) fs)
  | TArray r n => TArray (f r) n
  | TList r s => TList (f r) s
  | TSet r s => TSet (f r) s
  | TMap k r s => TMap (g k) (f r) s
  end.

Lemma as_some_map (f : R -> tref) (vs : list (variant * R)) : as_some (TUnion (map (fun v => (fst v, f (snd v))) vs)) = option_map f (as_some (TUnion vs)).
Proof.
  destruct vs as [|[a x] [|[b y] [|c vs]]]; try reflexivity. cbn [map fst snd as_some].
  now destruct (v_name a =? "none")%string, (v_tag a =? 0), (v_name b =? "some")%string, (v_tag b =? 1).
Qed.
Lemma as_some_form (vs : list (variant * R)) r : as_some (TUnion vs) = Some r ->
  exists x, vs = [(mkVariant "none" 0, x); (mkVariant "some" 1, r)].
Proof.
  destruct vs as [|[a x] [|[b y] [|c vs]]]; try discriminate. cbn. intros H.
  destruct (v_name a =? "none")%string eqn:A, (v_tag a =? 0) eqn:A', (v_name b =? "some")%string eqn:B, (v_tag b =? 1) eqn:B'; try discriminate H.
  injection H as ->. exists x. apply String.eqb_eq in A, B. apply N.eqb_eq in A', B'. destruct a, b. cbn in *. now subst.
Qed.

Section Text.
Variables (pt : N -> bytes) (st : sizing -> bytes) (f g : R -> tref) (sr key : R -> bytes).
Hypothesis F : forall r, sty_ref pt st (f r) = sr r.
Hypothesis G : forall r, sty_ref pt st (g r) = key r.
Hypothesis A : forall r, tref_compound (f r) = false.

Lemma variants_text tag vs : sty_variants (sty_ref pt st) tref_compound tag (map (fun v => (fst v, f (snd v))) vs)
  = sty_variants sr (fun _ => false) tag vs.
Proof.
  revert tag. induction vs as [|[v r] vs IH]; intros tag; [reflexivity|]. cbn [map sty_variants fst snd]. unfold sty_content. rewrite A, F.
  destruct vs as [|w vs]; [reflexivity|]. fold (sty_variants (sty_ref pt st) tref_compound). fold (sty_variants sr (fun _ => false)).
  now rewrite IH.
Qed.
Lemma embed_text t : sty_ty pt st (sty_ref pt st) tref_compound (embed f g t) = sys_ty pt st sr key t.
Proof.
  destruct t as [c| |vs|vs|fs|fs|r n|r s|r s|k r s]; cbn [embed sys_ty sty_ty]; rewrite ?F, ?G; try reflexivity.
  - destruct (as_some (TUnion vs)) as [r|] eqn:E.
    + apply as_some_form in E as (x & ->). cbn. now rewrite F.
    + assert (U : sty_union (sty_ref pt st) tref_compound (map (fun v => (fst v, f (snd v))) vs) = sty_union sr (fun _ => false) vs).
      { destruct vs as [|a [|b vs]]; [reflexivity| |].
        - change (map (fun v => (fst v, f (snd v))) [a]) with [(fst a, f (snd a))]. cbn [sty_union]. f_equal. exact (variants_text 0 [a]).
        - exact (variants_text 0 (a :: b :: vs)). }
      rewrite union_text by now rewrite as_some_map, E. rewrite U. clear -E.
      destruct vs as [|a [|[b r] [|c vs]]]; try reflexivity. unfold is_option. now rewrite E.
  - rewrite map_map. f_equal. apply map_ext. intros r. apply F.
  - rewrite map_map. unfold lenN. rewrite map_length. f_equal. apply map_ext. intros [n r]. unfold sty_field. cbn [fst snd]. now rewrite F.
Qed.
End Text.

Lemma embed_clear pt (f g : R -> tref) u t : legible_ty u t -> (forall r, clear_item pt (f r)) -> (forall r, clear_item pt (g r)) ->
  clear_type pt (embed f g t).
Proof.
  intros L F G. destruct t as [c| |vs|vs|fs|fs|r n|r s|r s|k r s]; cbn [embed legible_ty] in *.
  - now apply clear_simple, content_item, item_prim.
  - apply clear_simple, content_item, item_unicode.
  - destruct L. now apply clear_enum.
  - destruct L as (N & W & _). destruct (as_some (TUnion vs)) as [r|] eqn:E.
    + apply clear_simple, content_item, item_option, F.
    + apply clear_union; [intros Z; apply map_eq_nil in Z; contradiction|now rewrite as_some_map, E|].
      rewrite Forall_map. apply Forall_impl with (2 := W). intros [v r] H. split; [exact H|apply variant_item, F].
  - apply clear_simple. destruct fs as [|a [|b fs]]; [now destruct L|now apply content_item, item_wrapper|].
    cbn [map]. apply content_tuple. rewrite <- !map_cons. rewrite Forall_map. apply Forall_forall. intros r _. apply F.
  - destruct L as [N W]. apply clear_simple, content_struct; [intros Z; apply map_eq_nil in Z; contradiction|].
    rewrite Forall_map. apply Forall_impl with (2 := W). intros [n r] H. split; [exact H|apply F].
  - apply clear_simple, content_item, item_array, content_item, F.
  - apply clear_simple, content_item, item_list, content_item, F.
  - apply clear_simple, content_item, item_set, content_item, F.
  - apply clear_simple, content_item, item_map; [apply G|apply content_item, F].
Qed.

(** Names are shown as they are. *)
Definition plain_ref (r : tref) : Prop := sketch r = r /\ forall t, r <> TrEmbedded t.
Lemma map_sketch {A} (f : A -> tref) l : (forall r, plain_ref (f r)) -> map sketch (map f l) = map f l.
Proof. intros P. rewrite map_map. apply map_ext. intros r. apply P. Qed.
Lemma map_sketch2 {A B} (f : A -> tref) (l : list (B * A)) : (forall r, plain_ref (f r)) ->
  map (fun v => (fst v, sketch (snd v))) (map (fun v => (fst v, f (snd v))) l) = map (fun v => (fst v, f (snd v))) l.
Proof. intros P. rewrite map_map. apply map_ext. intros [b r]. cbn. f_equal. apply P. Qed.
Lemma embed_sketch (f g : R -> tref) t : (forall r, plain_ref (f r)) -> (forall r, plain_ref (g r)) ->
  sketch (TrEmbedded (embed f g t)) = match t with TTuple [r] => f r | _ => TrEmbedded (embed f g t) end.
Proof.
  intros F G. destruct t as [c| |vs|vs|fs|fs|r n|r s|r s|k r s]; cbn [embed]; try reflexivity.
  - destruct (as_some (TUnion vs)) as [r|].
    + unfold optional. cbn [sketch map fst snd]. now rewrite (proj1 (F r)).
    + cbn [sketch]. now rewrite map_sketch2.
  - destruct fs as [|a [|b fs]]; [reflexivity|cbn; apply F|]. cbn [map sketch]. rewrite <- !map_cons. now rewrite map_sketch.
  - cbn [sketch]. now rewrite map_sketch2.
  - cbn [sketch]. now rewrite (proj1 (F r)).
  - cbn [sketch]. now rewrite (proj1 (F r)).
  - cbn [sketch]. now rewrite (proj1 (F r)).
  - cbn [sketch]. now rewrite (proj1 (F r)), (proj1 (G k)).
Qed.
Lemma map_inj_on {A B C} (f f' : A -> C) (l : list (B * A)) : forall l',
  (forall r r', In r (map snd l) -> In r' (map snd l') -> f r = f' r' -> r = r') ->
  map (fun v => (fst v, f (snd v))) l = map (fun v => (fst v, f' (snd v))) l' -> l = l'.
Proof.
  induction l as [|[b a] l IH]; intros [|[b' a'] l'] J E; try discriminate E; [reflexivity|]. cbn in E. injection E as E1 E2 E.
  subst b'. rewrite (J a a' (or_introl eq_refl) (or_introl eq_refl) E2). f_equal. apply IH; [|exact E]. intros r r' I I'. apply J; now right.
Qed.
Lemma map_inj_on1 {A C} (f f' : A -> C) l : forall l',
  (forall r r', In r l -> In r' l' -> f r = f' r' -> r = r') -> map f l = map f' l' -> l = l'.
Proof.
  induction l as [|a l IH]; intros [|a' l'] J E; try discriminate E; [reflexivity|]. cbn in E. injection E as E2 E.
  rewrite (J a a' (or_introl eq_refl) (or_introl eq_refl) E2). f_equal. apply IH; [|exact E]. intros r r' I I'. apply J; now right.
Qed.
Lemma embed_unique (f g f' g' : R -> tref) u t t' :
  (forall r, plain_ref (f r)) -> (forall r, plain_ref (g r)) -> (forall r, plain_ref (f' r)) -> (forall r, plain_ref (g' r)) ->
  legible_ty u t -> legible_ty u t' ->
  (forall r r', In r (refs t) -> In r' (refs t') -> f r = f' r' -> r = r') ->
  (forall r r', In r (refs t) -> In r' (refs t') -> g r = g' r' -> r = r') ->
  sketch (TrEmbedded (embed f g t)) = sketch (TrEmbedded (embed f' g' t')) -> t = t'.
Proof.
  intros F G F' G' L L' J K. rewrite !embed_sketch by assumption. intros E.
  assert (E' : embed f g t = embed f' g' t').
  { assert (TE : forall a b, TrEmbedded a = TrEmbedded b -> a = b) by congruence.
    destruct t as [c| |vs|vs|[|a [|b fs]]|fs|r n|r s|r s|k r s], t' as [c'| |vs'|vs'|[|a' [|b' fs']]|fs'|r' n'|r' s'|r' s'|k' r' s'];
      try exact (TE _ _ E); try (now destruct (proj2 (F a) _ E)); try (symmetry in E; now destruct (proj2 (F' a') _ E)).
    cbn. now rewrite E. }
  clear E. destruct t as [c| |vs|vs|fs|fs|r n|r s|r s|k r s], t' as [c'| |vs'|vs'|fs'|fs'|r' n'|r' s'|r' s'|k' r' s'];
    cbn [embed] in E'; try reflexivity; try discriminate E'; try (now injection E' as ->);
    try (destruct (as_some (TUnion vs)); discriminate E'); try (destruct (as_some (TUnion vs')); discriminate E').
  - cbn [legible_ty] in L, L'. destruct L as (_ & _ & L), L' as (_ & _ & L').
    destruct (as_some (TUnion vs)) as [r|] eqn:S, (as_some (TUnion vs')) as [r'|] eqn:S'.
    + injection E' as E'. apply as_some_form in S as (x & ->), S' as (x' & ->). specialize (L ltac:(discriminate)). specialize (L' ltac:(discriminate)).
      cbn in L, L'. injection L as ->. injection L' as ->. rewrite (J r r'); [reflexivity|right; now left|right; now left|exact E'].
    + exfalso. assert (X : as_some (optional (f r)) = None) by (rewrite E'; now rewrite as_some_map, S'). discriminate X.
    + exfalso. assert (X : as_some (optional (f' r')) = None) by (rewrite <- E'; now rewrite as_some_map, S). discriminate X.
    + injection E' as E'. f_equal. exact (map_inj_on f f' vs vs' J E').
  - injection E' as E'. f_equal. exact (map_inj_on1 f f' fs fs' J E').
  - injection E' as E'. f_equal. exact (map_inj_on f f' fs fs' J E').
  - injection E' as E' ->. f_equal. apply J; [now left|now left|exact E'].
  - injection E' as E' ->. f_equal. apply J; [now left|now left|exact E'].
  - injection E' as E' ->. f_equal. apply J; [now left|now left|exact E'].
  - injection E' as E1 E2 ->. f_equal; [apply K; [now left|now left|exact E1]|apply J; [right; now left|right; now left|exact E2]].
Qed.
End Embed.

(** ** Type systems *)
Section Systems.
Variables (pt : N -> bytes) (st : sizing -> bytes) (id_text id_full sys_text sys_plus : N -> bytes).
Hypothesis PL : prims_legible pt.
Hypothesis SL : sizings_legible st.
Hypothesis IT : ids_legible pt id_text.
Hypothesis IF : ids_legible pt id_full.

Definition named (f : N -> bytes) (id : N) : tref := TrNamed (bstring (f id)).
Lemma named_text f id : sty_ref pt st (named f id) = f id.
Proof. cbn. apply sbytes_bstring. Qed.
Lemma named_item f id : ids_legible pt f -> clear_item pt (named f id).
Proof.
  intros [L _]. destruct (L id) as (A & B & C). apply item_named; rewrite ?sbytes_bstring; auto. intros E. apply B.
  rewrite <- (sbytes_bstring (f id)). unfold semid in *. now rewrite E.
Qed.
Lemma named_plain f id : plain_ref (named f id).
Proof. split; [reflexivity|discriminate]. Qed.
Lemma named_inj f id id' : ids_legible pt f -> named f id = named f id' -> id = id'.
Proof. intros [_ J] E. injection E as E. apply J. rewrite <- (sbytes_bstring (f id)), <- (sbytes_bstring (f id')). now rewrite E. Qed.

(** What follows a definition. *)
Definition next (x : bytes) : Prop := forall y, x <> x20 :: y.
Lemma next_stop x : next x -> stop_type (x0a :: x).
Proof. intros N. right. auto. Qed.
Lemma colon_split a b x y : label a -> label b -> a ++ sbytes ": " ++ x = b ++ sbytes ": " ++ y -> a = b /\ x = y.
Proof.
  intros A B E. change (sbytes ": ") with (sbytes ":" ++ [x20]) in E. rewrite <- !app_assoc in E. rewrite (app_assoc a), (app_assoc b) in E.
  apply closed_split in E as [E1 E2].
  - apply app_inv_tail in E1. now injection E2 as ->.
  - apply closed_app; [now apply label_closed|intros k; reflexivity].
  - apply closed_app; [now apply label_closed|intros k; reflexivity].
  - right. reflexivity.
  - right. reflexivity.
Qed.
Lemma label_line s : label s -> line s.
Proof. intros (_ & F & _) I. rewrite forallb_forall in F. discriminate (F _ I). Qed.

Lemma id_ty_unique u t t' x x' : legible_ty u t -> legible_ty u t' -> next x -> next x' ->
  sys_ty pt st id_text id_full t ++ x0a :: x = sys_ty pt st id_text id_full t' ++ x0a :: x' -> t = t' /\ x = x'.
Proof.
  intros L L' N N' E.
  rewrite <- !(embed_text pt st (named id_text) (named id_full) id_text id_full) in E by (auto using named_text).
  assert (CI : forall r, clear_item pt (named id_text r)) by auto using named_item.
  assert (CF : forall r, clear_item pt (named id_full r)) by auto using named_item.
  destruct (type_unique pt st PL SL (embed (named id_text) (named id_full) t) (embed (named id_text) (named id_full) t') (x0a :: x) (x0a :: x')) as [A B];
    try (now apply next_stop); try (eapply embed_clear; eassumption); [exact E|].
  split; [|now injection B as ->].
  eapply embed_unique with (u := u); try exact A; try assumption; try (apply named_plain).
  - intros r r' _ _ Z. now apply named_inj in Z.
  - intros r r' _ _ Z. now apply named_inj in Z.
Qed.
Lemma sys_entries_next (s : type_system) : next (flat_map (sys_entry pt st id_text id_full) s).
Proof. destruct s as [|e s]; [discriminate|]. intros y E. discriminate E. Qed.
Lemma sys_entries_unique u s : forall s', legible_sys u s -> legible_sys u s' ->
  flat_map (sys_entry pt st id_text id_full) s = flat_map (sys_entry pt st id_text id_full) s' -> s = s'.
Proof.
  induction s as [|[id t] s IH]; intros [|[id' t'] s'] L L' E; try discriminate E; [reflexivity|].
  inversion L as [|? ? Lt Ls]; subst. inversion L' as [|? ? Lt' Ls']; subst. cbn [snd] in *.
  cbn [flat_map] in E. unfold sys_entry at 1 3 in E. cbn [fst snd] in E. rewrite <- !app_assoc in E. apply app_inv_head in E.
  apply colon_split in E as [E1 E]; [|apply IT|apply IT]. apply (id_ty_unique u) in E as [E2 E]; try assumption; try apply sys_entries_next.
  apply (proj2 IT) in E1. subst. f_equal. now apply IH.
Qed.
Lemma sys_unique u s s' : (forall id, ~ In x0a (sys_text id)) -> legible_sys u s -> legible_sys u s' ->
  show_sys pt st id_text id_full sys_text s = show_sys pt st id_text id_full sys_text s' -> s = s'.
Proof.
  intros ST L L' E. unfold show_sys in E. apply app_inv_head in E. cbn [app] in E. apply line_split in E as [_ E]; [|apply ST|apply ST].
  injection E as E. now apply (sys_entries_unique u).
Qed.

(** ** With names *)
Definition sym_ref (f : N -> bytes) (y : symbols) (id : semid) : tref :=
  match lookup y id with Some q => TrExtern (mkSymRef (q_lib q) (q_name q) 0 0) | None => named f id end.
Lemma sym_ref_text f y id : sty_ref pt st (sym_ref f y id) = show_symbol f y id.
Proof. unfold sym_ref, show_symbol. destruct (lookup y id); [reflexivity|apply named_text]. Qed.
Lemma sym_ref_plain f y id : plain_ref (sym_ref f y id).
Proof. unfold sym_ref. destruct (lookup y id); [split; [reflexivity|discriminate]|apply named_plain]. Qed.
Lemma sym_ref_item f s id : names_legible s -> ids_legible pt f -> clear_item pt (sym_ref f (ss_symbols s) id).
Proof.
  intros NL I. unfold sym_ref. destruct (lookup (ss_symbols s) id) as [q|] eqn:E; [|now apply named_item].
  destruct (NL id q E). apply item_extern; now apply word_label.
Qed.
Lemma sym_ref_eq f y y' id id' : ids_legible pt f -> sym_ref f y id = sym_ref f y' id' ->
  lookup y id = lookup y' id' /\ (lookup y id = None -> id = id').
Proof.
  intros I E. unfold sym_ref in E. destruct (lookup y id) as [[a b]|] eqn:L, (lookup y' id') as [[a' b']|] eqn:L'; try discriminate E.
  - cbn in E. injection E as -> ->. split; [reflexivity|discriminate].
  - apply named_inj in E; auto.
Qed.
(** Head lines and types of entries can be read; the types with what is shown of their references. *)
Definition shown_ty (y : symbols) (t : ty semid) : tref := sketch (TrEmbedded (embed (sym_ref id_text y) (sym_ref id_full y) t)).
Lemma sym_entries_next y (s : type_system) : next (flat_map (symsys_entry pt st id_text id_full y) s).
Proof. destruct s as [|[id t] s]; [discriminate|]. intros z E. cbn [flat_map] in E. unfold symsys_entry in E. destruct (lookup y (fst (id, t))); discriminate E. Qed.
Lemma sym_ty_unique u s s' t t' x x' : names_legible s -> names_legible s' -> legible_ty u t -> legible_ty u t' -> next x -> next x' ->
  let y := ss_symbols s in let y' := ss_symbols s' in
  sys_ty pt st (show_symbol id_text y) (show_symbol id_full y) t ++ x0a :: x
  = sys_ty pt st (show_symbol id_text y') (show_symbol id_full y') t' ++ x0a :: x' -> shown_ty y t = shown_ty y' t' /\ x = x'.
Proof.
  intros NL NL' L L' N N' y y' E.
  assert (A : forall y id, tref_compound (sym_ref id_text y id) = false).
  { intros z id. unfold sym_ref. now destruct (lookup z id). }
  rewrite <- (embed_text pt st (sym_ref id_text y) (sym_ref id_full y)) in E by (auto using sym_ref_text).
  rewrite <- (embed_text pt st (sym_ref id_text y') (sym_ref id_full y')) in E by (auto using sym_ref_text).
  destruct (type_unique pt st PL SL (embed (sym_ref id_text y) (sym_ref id_full y) t) (embed (sym_ref id_text y') (sym_ref id_full y') t') (x0a :: x) (x0a :: x')) as [B C];
    try (now apply next_stop); [| |exact E|split; [exact B|now injection C as ->]].
  - eapply embed_clear; [eassumption| |]; intros r; now apply sym_ref_item.
  - eapply embed_clear; [eassumption| |]; intros r; now apply sym_ref_item.
Qed.
Lemma fqn_colon q q' x y : word (sbytes (q_lib q)) -> word (sbytes (q_name q)) -> word (sbytes (q_lib q')) -> word (sbytes (q_name q')) ->
  show_fqn q ++ sbytes ": " ++ x = show_fqn q' ++ sbytes ": " ++ y -> q = q' /\ x = y.
Proof.
  intros A B A' B' E. change (sbytes ": ") with (sbytes ":" ++ [x20]) in E. rewrite <- !app_assoc in E. rewrite (app_assoc (show_fqn q)), (app_assoc (show_fqn q')) in E.
  assert (C : forall q, word (sbytes (q_lib q)) -> word (sbytes (q_name q)) -> closed (show_fqn q ++ sbytes ":")).
  { intros p P P'. unfold show_fqn. repeat (apply closed_app; [|]); try (now apply word_closed); intros k; reflexivity. }
  apply closed_split in E as [E1 E2]; [|now apply C|now apply C|right; reflexivity|right; reflexivity].
  apply app_inv_tail in E1. unfold show_fqn in E1. apply last_dot_words in E1 as [E1 E3]; try (now apply word_label).
  apply sbytes_inj in E1, E3. destruct q, q'. cbn in *. subst. split; [reflexivity|]. now injection E2 as ->.
Qed.
Lemma sym_entries_unique u s s' : names_legible s -> names_legible s' -> forall l l', legible_sys u l -> legible_sys u l' ->
  let y := ss_symbols s in let y' := ss_symbols s' in
  flat_map (symsys_entry pt st id_text id_full y) l = flat_map (symsys_entry pt st id_text id_full y') l' ->
  map (fun e => (fst e, lookup y (fst e), shown_ty y (snd e))) l = map (fun e => (fst e, lookup y' (fst e), shown_ty y' (snd e))) l'.
Proof.
  intros NL NL'. induction l as [|[id t] l IH]; intros [|[id' t'] l'] L L' y y' E.
  - reflexivity.
  - exfalso. cbn [flat_map] in E. unfold symsys_entry in E. destruct (lookup y' (fst (id', t'))); discriminate E.
  - exfalso. cbn [flat_map] in E. unfold symsys_entry in E. destruct (lookup y (fst (id, t))); discriminate E.
  - inversion L as [|? ? Lt Ls]; subst. inversion L' as [|? ? Lt' Ls']; subst. cbn [snd] in *.
    cbn [flat_map] in E. unfold symsys_entry at 1 3 in E. cbn [fst snd] in E. cbn [map fst snd].
    destruct (lookup y id) as [q|] eqn:Q, (lookup y' id') as [q'|] eqn:Q'; try discriminate E; rewrite <- !app_assoc in E; apply app_inv_head in E.
    + cbn [app] in E. apply line_split in E as [E1 E]; [|apply label_line, IT|apply label_line, IT].
      apply app_inv_head in E. destruct (NL _ _ Q), (NL' _ _ Q'). apply fqn_colon in E as [-> E]; try assumption.
      apply (sym_ty_unique u) in E as [E2 E]; try assumption; try apply sym_entries_next.
      apply (proj2 IT) in E1. subst id'. fold y y' in E2. rewrite E2. f_equal. now apply IH.
    + apply colon_split in E as [E1 E]; [|apply IT|apply IT].
      apply (sym_ty_unique u) in E as [E2 E]; try assumption; try apply sym_entries_next.
      apply (proj2 IT) in E1. subst id'. fold y y' in E2. rewrite E2. f_equal. now apply IH.
Qed.
Lemma symsys_unique u s s' : (forall id, ~ In x0a (sys_plus id)) -> names_legible s -> names_legible s' ->
  legible_sys u (ss_types s) -> legible_sys u (ss_types s') -> closed_sys (ss_types s) -> closed_sys (ss_types s') ->
  names_differ s -> show_symsys pt st id_text id_full sys_plus s = show_symsys pt st id_text id_full sys_plus s' ->
  ss_types s = ss_types s' /\ forall id, In id (map fst (ss_types s)) -> lookup (ss_symbols s) id = lookup (ss_symbols s') id.
Proof.
  intros ST NL NL' L L' C C' D E. unfold show_symsys in E. apply app_inv_head in E. cbn [app] in E. apply line_split in E as [_ E]; [|apply ST|apply ST].
  injection E as E. apply (sym_entries_unique u) in E; try assumption.
  set (y := ss_symbols s) in *. set (y' := ss_symbols s') in *.
  assert (K : map fst (ss_types s) = map fst (ss_types s')).
  { apply (f_equal (map (fun z => fst (fst z)))) in E. rewrite !map_map in E. exact E. }
  assert (Lk : forall id, In id (map fst (ss_types s)) -> lookup y id = lookup y' id).
  { clear -E. revert E. generalize (ss_types s) (ss_types s'). intros l. induction l as [|[i t] l IH]; intros [|[i' t'] l'] E id I; try discriminate E; [destruct I|].
    cbn in E. injection E as E1 E2 E3 E. subst i'. destruct I as [I|I]; [cbn in I; now subst|]. exact (IH l' E id I). }
  split; [|exact Lk].
  assert (J : forall f r r', ids_legible pt f -> In r (map fst (ss_types s)) -> In r' (map fst (ss_types s')) ->
    sym_ref f y r = sym_ref f y' r' -> r = r').
  { intros f r r' I A B Z. apply sym_ref_eq in Z as [Z1 Z2]; [|exact I]. destruct (lookup y r) as [q|] eqn:Q; [|auto].
    rewrite <- K in B. apply (D r r' q); auto. fold y. now rewrite (Lk r' B). }
  assert (G : forall l l', (forall e, In e l -> In e (ss_types s)) -> (forall e, In e l' -> In e (ss_types s')) -> legible_sys u l -> legible_sys u l' ->
    map (fun e => (fst e, lookup y (fst e), shown_ty y (snd e))) l = map (fun e => (fst e, lookup y' (fst e), shown_ty y' (snd e))) l' -> l = l').
  { induction l as [|[i t] l IH]; intros [|[i' t'] l'] S S' M M' Z; try discriminate Z; [reflexivity|]. cbn [map fst snd] in Z. injection Z as Z1 Z2 Z3 Z. subst i'.
    inversion M as [|? ? Mt Ml]; subst. inversion M' as [|? ? Mt' Ml']; subst. cbn [snd] in *.
    assert (T : t = t').
    { eapply embed_unique with (u := u); try exact Z3; try assumption; try apply sym_ref_plain.
      - intros r r' A B. apply J; [exact IT|exact (C i t r (S _ (or_introl eq_refl)) A)|exact (C' i t' r' (S' _ (or_introl eq_refl)) B)].
      - intros r r' A B. apply J; [exact IF|exact (C i t r (S _ (or_introl eq_refl)) A)|exact (C' i t' r' (S' _ (or_introl eq_refl)) B)]. }
    subst t'. f_equal. apply IH; try assumption; intros e I; [apply S|apply S']; now right. }
  now apply G.
Qed.
End Systems.

(** ** Compiled libraries *)
Section MapText.
Context {R : Type}.
Variables (pt : N -> bytes) (st : sizing -> bytes) (f : R -> tref) (sr : R -> bytes) (compound : R -> bool).
Hypothesis F : forall r, sty_ref pt st (f r) = sr r.
Hypothesis A : forall r, tref_compound (f r) = compound r.
Lemma map_variants_text tag vs : sty_variants (sty_ref pt st) tref_compound tag (map (fun v => (fst v, f (snd v))) vs)
  = sty_variants sr compound tag vs.
Proof.
  revert tag. induction vs as [|[v r] vs IH]; intros tag; [reflexivity|]. cbn [map sty_variants fst snd]. unfold sty_content. rewrite A, F.
  destruct vs as [|w vs]; [reflexivity|]. fold (sty_variants (sty_ref pt st) tref_compound). fold (sty_variants sr compound).
  now rewrite IH.
Qed.
Lemma map_text t : sty_ty pt st (sty_ref pt st) tref_compound (map_ty f t) = sty_ty pt st sr compound t.
Proof.
  destruct t as [c| |vs|vs|fs|fs|r n|r s|r s|k r s]; cbn [map_ty sty_ty]; rewrite ?F; try reflexivity.
  - assert (U : sty_union (sty_ref pt st) tref_compound (map (fun v => (fst v, f (snd v))) vs) = sty_union sr compound vs).
    { destruct vs as [|a [|b vs]]; [reflexivity| |].
      - change (map (fun v => (fst v, f (snd v))) [a]) with [(fst a, f (snd a))]. cbn [sty_union]. f_equal. exact (map_variants_text 0 [a]).
      - exact (map_variants_text 0 (a :: b :: vs)). }
    pose proof (as_some_map f vs) as S.
    destruct vs as [|a [|[b r] [|c vs]]]; try exact U. cbn [map] in *. unfold is_option. rewrite S. cbn [fst snd] in *.
    destruct (as_some (TUnion [a; (b, r)])); cbn [option_map]; [now rewrite F|exact U].
  - rewrite map_map. f_equal. apply map_ext. intros r. apply F.
  - rewrite map_map. unfold lenN. rewrite map_length. f_equal. apply map_ext. intros [n r]. unfold sty_field. cbn [fst snd]. now rewrite F.
Qed.
Lemma map_compound t : is_compound (map_ty f t) = is_compound t.
Proof. destruct t; cbn; unfold lenN; rewrite ?map_length; reflexivity. Qed.
End MapText.

Section Libraries.
Variables (pt : N -> bytes) (st : sizing -> bytes) (id_full lib_text mnemonic : N -> bytes).
Hypothesis PL : prims_legible pt.
Hypothesis SL : sizings_legible st.
Hypothesis LL : forall id, ~ In x0a (lib_text id).
Hypothesis ML : mnemonics_legible mnemonic.

Lemma source_text {I} (f : I -> ty tref) (g : I -> bytes) r : (forall t, sty_ty pt st (sty_ref pt st) tref_compound (f t) = g t) ->
  sty_ref pt st (source_ref id_full lib_text f r) = show_gref id_full lib_text g r.
Proof. intros H. destruct r as [t|id|e]; cbn [sty_ref source_ref show_gref sr_lib sr_name]; [apply H|apply sbytes_bstring|]. unfold show_extern. now rewrite !sbytes_bstring. Qed.
Lemma source_compound {R} (f : R -> tref) (r : gref (ty R)) :
  tref_compound (source_ref id_full lib_text (map_ty f) r) = gref_compound r.
Proof. destruct r as [t|id|e]; cbn; [apply map_compound|reflexivity|reflexivity]. Qed.
Lemma source_ty_text t : sty_ty pt st (sty_ref pt st) tref_compound (source_ty id_full lib_text t) = show_lib_ty pt st id_full lib_text t.
Proof.
  unfold source_ty, show_lib_ty. apply map_text; [|apply source_compound]. intros r. apply source_text. clear r t. intros t.
  apply map_text; [|apply source_compound]. intros r. apply source_text. clear r t. intros t.
  apply map_text; [|apply source_compound]. intros r. apply source_text. clear r t. intros t.
  apply map_text; [|intros [[]| |]; reflexivity]. intros r. apply source_text. intros [].
Qed.
Local Notation entry := (lib_entry pt st id_full lib_text).
Lemma lib_entries_unique l : forall l', Forall (fun e => word (sbytes (fst e)) /\ clear_type pt (source_ty id_full lib_text (snd e))) l ->
  Forall (fun e => word (sbytes (fst e)) /\ clear_type pt (source_ty id_full lib_text (snd e))) l' -> flat_map entry l = flat_map entry l' ->
  map (fun e => (fst e, sketch (TrEmbedded (source_ty id_full lib_text (snd e))))) l
  = map (fun e => (fst e, sketch (TrEmbedded (source_ty id_full lib_text (snd e))))) l'.
Proof.
  induction l as [|e l IH]; intros [|e' l'] C C' E; try discriminate E; [reflexivity|].
  inversion C as [|? ? [W Ce] Cl]; subst. inversion C' as [|? ? [W' Ce'] Cl']; subst.
  cbn [flat_map] in E. unfold lib_entry at 1 3 in E. rewrite <- !app_assoc in E. apply app_inv_head in E. unfold pad in E. rewrite <- !app_assoc in E.
  assert (B : forall k y, exists y', blanks k ++ sbytes " : " ++ y = x20 :: y'). { intros [|k] y; cbn; eauto. }
  match type of E with _ ++ blanks ?k ++ _ ++ ?a = _ ++ blanks ?k' ++ _ ++ ?b =>
    destruct (B k a) as (y & Y); destruct (B k' b) as (y' & Y') end.
  rewrite Y, Y' in E. apply word_split in E as [N E]; try reflexivity; [|apply W|apply W'].
  rewrite <- Y, <- Y' in E. apply sbytes_inj in N. rewrite N in E. do 2 apply app_inv_head in E. rewrite <- !source_ty_text in E.
  apply type_unique in E as [T E]; auto.
  - cbn [map]. rewrite N, T. f_equal. injection E as E. now apply IH.
  - right. split; [reflexivity|intros q Z; discriminate Z].
  - right. split; [reflexivity|intros q Z; discriminate Z].
Qed.
Definition dep_line (d : dependency) : bytes := sbytes "import " ++ sbytes (d_name d) ++ sbytes "#" ++ mnemonic (d_id d) ++ [x0a].
Lemma dep_lines_unique l : forall l' x x', Forall (fun d => word (sbytes (d_name d))) l -> Forall (fun d => word (sbytes (d_name d))) l' ->
  flat_map dep_line l ++ x0a :: x = flat_map dep_line l' ++ x0a :: x' ->
  map (fun d => (d_name d, mnemonic (d_id d))) l = map (fun d => (d_name d, mnemonic (d_id d))) l' /\ x = x'.
Proof.
  induction l as [|d l IH]; intros [|d' l'] x x' C C' E; try discriminate E; [now injection E as ->|].
  inversion C as [|? ? W Cl]; subst. inversion C' as [|? ? W' Cl']; subst. cbn [flat_map] in E. unfold dep_line at 1 3 in E.
  rewrite <- !app_assoc in E. apply app_inv_head in E. cbn [app] in E. apply named_line in E as (N & M & E); try assumption; try apply ML.
  destruct (IH l' x x' Cl Cl' E) as [A B]. split; [|exact B]. cbn [map]. now rewrite N, M, A.
Qed.
Lemma compiled_unique l l' : clear_compiled id_full lib_text pt l -> clear_compiled id_full lib_text pt l' ->
  show_lib pt st id_full lib_text mnemonic l = show_lib pt st id_full lib_text mnemonic l' ->
  l_name l = l_name l' /\ lib_text (lib_id l) = lib_text (lib_id l')
  /\ map (fun d => (d_name d, mnemonic (d_id d))) (l_deps l) = map (fun d => (d_name d, mnemonic (d_id d))) (l_deps l')
  /\ map (fun e => (fst e, sketch (TrEmbedded (source_ty id_full lib_text (snd e))))) (l_types l)
     = map (fun e => (fst e, sketch (TrEmbedded (source_ty id_full lib_text (snd e))))) (l_types l').
Proof.
  intros (W & D & C) (W' & D' & C') E. unfold show_lib in E. apply app_inv_head in E. revert E. generalize (lib_id l) (lib_id l'). intros i i' E.
  cbn [app] in E. change (sbytes " -- ") with (x20 :: sbytes "-- ") in E. cbn [app] in E.
  apply word_split in E as [N E]; try reflexivity; [|apply W|apply W']. apply sbytes_inj in N. split; [exact N|].
  injection E as E. apply line_split in E as [E1 E]; [|apply LL|apply LL]. split; [exact E1|].
  injection E as E. fold dep_line in E.
  destruct (l_deps l) as [|d ds] eqn:Q, (l_deps l') as [|d' ds'] eqn:Q'; try discriminate E.
  - split; [reflexivity|]. cbn [flat_map app] in E. apply app_inv_head in E. injection E as E. now apply lib_entries_unique.
  - rewrite !app_nil_l in E. change ([x0a] ++ [x0a] ++ ?z) with (x0a :: x0a :: z) in E.
    apply (dep_lines_unique (d :: ds) (d' :: ds')) in E as [A E]; [|assumption|assumption]. split; [exact A|].
    injection E as E. now apply lib_entries_unique.
Qed.
End Libraries.
