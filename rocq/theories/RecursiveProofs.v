(** Proofs about termination with recursive types. *)
From Coq Require Import NArith ZArith List Bool String Ascii Strings.Byte Lia PeanoNat.
From Verif Require Import Base Ty Ids Val TypeSys Encode Decode DecodeShort Typify Spec SpecTypify SpecRecursive.
From Verif Require Import CodecLemmas ValLemmas RoundTrip ReadLemmas Sound CodecProofs TypifyProofs TypifyProofs2 TypifyProofs3.
Import ListNotations.
Local Open Scope N_scope.

(** ** Reading *)

Lemma local_le {A} (rd : bytes -> reading A) d v d' : local rd -> rd d = Ok (v, d') -> (List.length d' <= List.length d)%nat.
Proof. intros L E. apply L in E as (bs & -> & _). rewrite app_length. lia. Qed.
Lemma uint_lt k d n d' : (0 < k)%nat -> read_uint k d = Ok (n, d') -> (List.length d' < List.length d)%nat.
Proof.
  intros K E. unfold read_uint in E. destruct (take k d) as [[a b]|] eqn:T; [|discriminate E]. cbn in E. injection E as _ <-.
  apply take_Some in T as [-> L]. rewrite app_length. lia.
Qed.
Lemma len_lt sz d n d' : read_len sz d = Ok (n, d') -> (List.length d' < List.length d)%nat.
Proof. apply uint_lt. unfold byte_size. repeat match goal with |- context [if ?b then _ else _] => destruct b end; cbn; lia. Qed.

(** Reads which succeed take at least one byte. *)
Definition shrinks {A} (o : reading A) (d : bytes) : Prop := forall v d', o = Ok (v, d') -> (List.length d' < List.length d)%nat.
Lemma shrinks_bind {A B} (o : reading A) (k : A -> bytes -> reading B) d : shrinks o d -> (forall a, local (k a)) ->
  shrinks (let* (a, d) := o in k a d) d.
Proof.
  intros S L v d' E. apply bind_Ok in E as [[a d1] [E1 E2]]. apply S in E1. apply (local_le _ _ _ _ (L a)) in E2. lia.
Qed.
Lemma shrinks_prim p d : p <> P_UNIT -> shrinks (read_prim p d) d.
Proof.
  intros N v d'. unfold read_prim. cbv zeta. destruct (N.eqb_spec p P_UNIT) as [X|_]; [now destruct N|].
  assert (U : forall k, (0 < k)%nat -> (let* (n, d0) := read_uint k d in Ok (VNum (Uint n), d0)) = Ok (v, d') -> (List.length d' < List.length d)%nat).
  { intros k K E. apply bind_Ok in E as [[n d1] [E1 [= _ <-]]]. now apply uint_lt in E1. }
  assert (I : forall k, (0 < k)%nat -> (let* (n, d0) := read_int k d in Ok (VNum (Int n), d0)) = Ok (v, d') -> (List.length d' < List.length d)%nat).
  { intros k K E. apply bind_Ok in E as [[n d1] [E1 [= _ <-]]]. unfold read_int in E1. apply bind_Ok in E1 as [[m d2] [E1 [= _ <-]]]. now apply uint_lt in E1. }
  repeat match goal with |- (if ?b then _ else _) = _ -> _ => destruct b end; intros E; try discriminate E;
    first [apply U in E; [exact E|lia]|apply I in E; [exact E|lia]].
Qed.
Lemma shrinks_len {B} sz (k : N -> bytes -> reading B) d : (forall a, local (k a)) -> shrinks (let* (a, d) := read_len sz d in k a d) d.
Proof. intros L. apply shrinks_bind; [|exact L]. intros v d'. apply len_lt. Qed.
Lemma shrinks_text {A} sz c (f : bytes -> bytes -> reading A) d : (forall b, local (f b)) ->
  shrinks (let* (len, d) := read_len sz d in let* (b, d) := read_raw c len d in f b d) d.
Proof. intros L. apply (shrinks_len sz (fun len d => let* (b, d) := read_raw c len d in f b d)). intros len. apply (local_bind (read_raw c len) f); [apply local_raw|exact L]. Qed.

Lemma local_list rec c len r : (forall id, local (rec id)) -> local (read_list rec c len r).
Proof.
  intros L. unfold read_list. apply (local_const (alloc c len) (fun _ d => read_n (rec r) (N.to_nat len) d)). intros. now apply local_n.
Qed.
Lemma local_pairs rec c len k r : (forall id, local (rec id)) -> local (read_map rec c len k r).
Proof.
  intros L. unfold read_map.
  apply (local_const (alloc c len) (fun _ d => read_n (fun d => let* (k, d) := rec k d in let* (v, d) := rec r d in Ok ((k, v), d)) (N.to_nat len) d)).
  intros. apply local_n. apply (local_bind (rec k) (fun kv d => let* (v, d) := rec r d in Ok ((kv, v), d))); [apply L|].
  intros kv. apply (local_map (fun v => (kv, v))). apply L.
Qed.

Lemma takes_shrinks fuel c sys id d : takes_data sys id -> shrinks (read_type fuel c sys id d) d.
Proof.
  unfold takes_data. intros T v d'. destruct fuel as [|fuel]; [discriminate|]. cbn [read_type].
  destruct (sys_find sys id) as [t|]; [|destruct T]. cbn [ok_or bind]. rewrite short_read.
  pose proof (local_read_type fuel c sys) as L.
  destruct t; cbn [short_ty]; try (match type of T with False => destruct T end).
  - exact (shrinks_prim _ _ T v d').
  - apply (shrinks_bind (read_uint 1 d) (fun tag d => let* name := ok_or (ev_name_by_tag vs tag) (DTagNotKnown id tag) in Ok (VEnum (Name name), d)) d).
    + intros ? ?. apply uint_lt. lia.
    + intros tag. apply (local_const (ok_or (ev_name_by_tag vs tag) (DTagNotKnown id tag)) (fun name d => Ok (VEnum (Name name), d))). intros. apply local_ret.
  - apply (shrinks_bind (read_uint 1 d) (fun tag d => let* e := ok_or (uv_by_tag vs tag) (DTagNotKnown id tag) in
      let* (v, d) := read_type fuel c sys (snd e) d in Ok (VUnion (Name (v_name (fst e))) v, d)) d).
    + intros ? ?. apply uint_lt. lia.
    + intros tag. apply (local_const (ok_or (uv_by_tag vs tag) (DTagNotKnown id tag)) (fun e d =>
        let* (v, d) := read_type fuel c sys (snd e) d in Ok (VUnion (Name (v_name (fst e))) v, d))).
      intros e _. apply (local_map (fun v => VUnion (Name (v_name (fst e))) v)). apply L.
  - destruct (ok_or (sys_find sys r) (DTypeAbsent id)) as [rt|e| |]; cbn [bind]; try discriminate.
    destruct (char_enum rt); [apply (shrinks_text s c (fun b d => if ascii_bytes b then Ok (VStr (bstring b), d) else Err DInvalidString)); intros; apply local_guard|].
    destruct (_ && _); [apply (shrinks_text s c (fun b d => Ok (VBytes b, d))); intros; apply local_ret|].
    destruct (_ && _); [apply (shrinks_text s c (fun b d => if utf8_valid b then Ok (VStr (bstring b), d) else Err DInvalidString)); intros; apply local_guard|].
    apply (shrinks_len s (fun len d => let* (l, d) := read_list (read_type fuel c sys) c len r d in Ok (VList l, d))).
    intros len. apply (local_map VList). now apply local_list.
  - apply (shrinks_len s (fun len d => let* (l, d) := read_list (read_type fuel c sys) c len r d in Ok (VSet l, d))).
    intros len. apply (local_map VSet). now apply local_list.
  - apply (shrinks_len s (fun len d => let* (l, d) := read_map (read_type fuel c sys) c len k r d in Ok (VMap l, d))).
    intros len. apply (local_map VMap). now apply local_pairs.
Qed.

(** The calls which are made for a type and data return. *)
Section Returns.
Variables (rec : semid -> bytes -> reading sval) (c : config) (sys : type_system).
Hypothesis L : forall id, local (rec id).
Hypothesis T : forall id d, takes_data sys id -> shrinks (rec id d) d.

Lemma ndiv_n_le {A} (rd : bytes -> reading A) n d : local rd ->
  (forall d', (List.length d' <= List.length d)%nat -> ndiv (rd d')) -> ndiv (read_n rd n d).
Proof.
  intros LR. revert d; induction n; intros d H; [discriminate|]. cbn [read_n].
  apply ndiv_bind; [now apply H|]. intros [x d'] E. apply (local_le _ _ _ _ LR) in E.
  apply ndiv_bind; [apply IHn; intros; apply H; lia|]. intros [y d''] _. discriminate.
Qed.
Lemma ndiv_fields {A B} (f : A -> semid) (g : A -> bytes -> reading B) l :
  (forall a d x d', g a d = Ok (x, d') -> exists v, rec (f a) d = Ok (v, d')) -> (forall a d, ndiv (rec (f a) d) -> ndiv (g a d)) ->
  forall d, (forall before a after d', l = before ++ a :: after -> (List.length d' <= List.length d)%nat ->
    (Exists (takes_data sys) (map f before) -> (List.length d' < List.length d)%nat) -> ndiv (rec (f a) d')) ->
  ndiv (read_seq g l d).
Proof.
  intros G GN. induction l as [|a l IH]; intros d H; [discriminate|]. cbn [read_seq].
  apply ndiv_bind; [apply GN; apply (H [] a l); [reflexivity|lia|intros X; inversion X]|]. intros [x d'] E. apply G in E as [v E].
  pose proof (local_le _ _ _ _ (L (f a)) E) as LE.
  apply ndiv_bind; [|intros [y d''] _; discriminate]. apply IH. intros before b after d2 Q L1 L2.
  apply (H (a :: before) b after); [cbn; now rewrite Q|lia|].
  cbn [map]. intros X. inversion X as [? ? Y|? ? Y]; subst.
  - apply (T _ _ Y) in E. lia.
  - specialize (L2 Y). lia.
Qed.
Lemma ndiv_guarded id t d :
  (forall r d', In r (refs t) -> (List.length d' < List.length d)%nat -> ndiv (rec r d')) ->
  (forall before r after d', fields_of t = before ++ r :: after -> (List.length d' <= List.length d)%nat ->
    (Exists (takes_data sys) before -> (List.length d' < List.length d)%nat) -> ndiv (rec r d')) ->
  ndiv (read_ty rec c sys id t d).
Proof.
  intros H F. rewrite short_read. destruct t; cbn [short_ty refs fields_of] in *.
  - apply ndiv_prim.
  - discriminate.
  - apply ndiv_bind; [apply ndiv_uint|]. intros [tag d'] _. apply ndiv_bind; [apply ndiv_ok_or|]. discriminate.
  - apply ndiv_bind; [apply ndiv_uint|]. intros [tag d'] E. apply uint_lt in E; [|lia].
    destruct (uv_by_tag vs tag) as [e|] eqn:Q; [|discriminate]. cbn [ok_or bind]. apply find_some in Q as [Q _].
    apply ndiv_bind; [apply H; [now apply in_map|exact E]|]. intros [v d''] _. discriminate.
  - apply ndiv_bind; [apply ndiv_lift, ndiv_rstring|]. intros [] _.
    + apply ndiv_bind; [apply ndiv_lift, ndiv_rsizing|]. intros o _. apply ndiv_bind; [apply ndiv_expect|].
      intros p _. apply ndiv_ascii.
    + apply ndiv_bind; [|intros [] _; discriminate]. apply (ndiv_fields (fun r => r) rec); [eauto|auto|].
      intros before a after d' Q L1 L2. apply (F before a after); auto. now rewrite map_id in L2.
  - apply ndiv_bind; [|intros [] _; discriminate].
    apply (ndiv_fields snd).
    { intros a d2 x d' E. apply bind_Ok in E as [[v d3] [E [= _ <-]]]. eauto. }
    { intros a d2 N. apply ndiv_bind; [exact N|]. intros [v d3] _. discriminate. }
    intros before a after d' Q L1 L2. apply (F (map snd before) (snd a) (map snd after)); auto. rewrite Q, map_app. reflexivity.
  - destruct (is_byte_id r).
    + apply ndiv_bind; [apply ndiv_raw|intros [] _; discriminate].
    + apply ndiv_bind; [apply ndiv_alloc|intros _ _].
      apply ndiv_bind; [apply ndiv_n_le; [apply L|]|intros [] _; discriminate].
      intros d' L1. apply (F [] r []); [reflexivity|exact L1|]. intros X; inversion X.
  - apply ndiv_bind; [apply ndiv_ok_or|]. intros rt _. destruct (char_enum rt); [apply ndiv_ascii|].
    destruct (is_byte_id r && _); [apply ndiv_blob|]. destruct (is_unicode_id r && _); [apply ndiv_string|].
    apply ndiv_bind; [apply ndiv_uint|]. intros [n d'] E. apply len_lt in E. unfold read_list.
    apply ndiv_bind; [|intros [] _; discriminate]. apply ndiv_bind; [apply ndiv_alloc|intros _ _].
    apply ndiv_n_le; [apply L|]. intros d2 L2. apply H; [now left|lia].
  - apply ndiv_bind; [apply ndiv_uint|]. intros [n d'] E. apply len_lt in E. unfold read_list.
    apply ndiv_bind; [|intros [] _; discriminate]. apply ndiv_bind; [apply ndiv_alloc|intros _ _].
    apply ndiv_n_le; [apply L|]. intros d2 L2. apply H; [now left|lia].
  - apply ndiv_bind; [apply ndiv_uint|]. intros [n d'] E. apply len_lt in E. unfold read_map.
    apply ndiv_bind; [|intros [] _; discriminate]. apply ndiv_bind; [apply ndiv_alloc|intros _ _].
    apply ndiv_n_le.
    { apply (local_bind (rec k) (fun kv d => let* (v, d) := rec r d in Ok ((kv, v), d))); [apply L|].
      intros kv. apply (local_map (fun v => (kv, v))). apply L. }
    intros d2 L2. apply ndiv_bind; [apply H; [now left|lia]|]. intros [kv d3] E3. apply (local_le _ _ _ _ (L k)) in E3.
    apply ndiv_bind; [apply H; [right; now left|lia]|]. intros [] _; discriminate.
Qed.
End Returns.

(** Ranks within a bound: unknown types have the least one. *)
Lemma bounded_rank (sys : type_system) (rank : semid -> nat) : exists (rank' : semid -> nat) B, (forall id, (rank' id < B)%nat) /\
  forall id t r, sys_find sys id = Some t -> (rank r < rank id)%nat -> (rank' r < rank' id)%nat.
Proof.
  exists (fun id => match sys_find sys id with Some _ => S (rank id) | None => O end).
  exists (S (S (list_max (map (fun e => rank (fst e)) sys)))). split.
  - intros id. destruct (sys_find sys id) as [t|] eqn:F; [|lia].
    assert (I : In (rank id) (map (fun e => rank (fst e)) sys)).
    { unfold sys_find in F. induction sys as [|[k u] sys IH]; [discriminate F|]. cbn in F. cbn [map fst].
      destruct (N.eqb_spec k id) as [->|X]; [now left|]. right. apply IH. exact F. }
    assert (M : forall l n, In n l -> (n <= list_max l)%nat).
    { induction l as [|x l IH]; intros n J; [destruct J|]. change (list_max (x :: l)) with (Nat.max x (list_max l)). destruct J as [->|J]; [lia|]. apply IH in J. lia. }
    apply M in I. lia.
  - intros id t r F L. rewrite F. destruct (sys_find sys r); lia.
Qed.

Lemma guarded_reads c sys (rank : semid -> nat) (B : nat) : (forall id, (rank id < B)%nat) ->
  (forall id t before r after, sys_find sys id = Some t -> fields_of t = before ++ r :: after ->
    (rank r < rank id)%nat \/ Exists (takes_data sys) before) ->
  forall fuel id d, (List.length d * B + rank id < fuel)%nat -> ndiv (read_type fuel c sys id d).
Proof.
  intros RB G. induction fuel as [|fuel IH]; intros id d LF; [lia|]. cbn [read_type].
  destruct (sys_find sys id) as [t|] eqn:F; [|discriminate]. cbn [ok_or bind]. apply ndiv_guarded.
  - apply local_read_type.
  - intros r d'. apply takes_shrinks.
  - intros r d' _ LD. apply IH. pose proof (RB r). nia.
  - intros before r after d' Q L1 L2. apply IH. pose proof (RB r). destruct (G _ _ _ _ _ F Q) as [X|X].
    + nia.
    + specialize (L2 X). nia.
Qed.

Lemma guarded_deserialize c sys id data : data_guarded sys ->
  exists r, r <> Diverge /\ returns (fun fuel => strict_deserialize_type fuel c sys id data) r.
Proof.
  intros [rank R]. destruct (bounded_rank sys rank) as (rank' & B & RB & RR).
  assert (G : forall id t before r after, sys_find sys id = Some t -> fields_of t = before ++ r :: after ->
    (rank' r < rank' id)%nat \/ Exists (takes_data sys) before).
  { intros i t before r after F Q. destruct (R _ _ _ _ _ F Q) as [X|X]; [left; now apply (RR _ _ _ F)|now right]. }
  set (n := S (List.length (limit32 data) * B + rank' id)).
  assert (N : ndiv (read_type n c sys id (limit32 data))) by (apply (guarded_reads c sys rank' B RB G); unfold n; lia).
  exists (strict_deserialize_type n c sys id data). split.
  - unfold strict_deserialize_type, strict_read_type.
    apply ndiv_bind; [|intros [tv rest] _; destruct (_ =? _); discriminate].
    apply ndiv_bind; [exact N|intros [] _; discriminate].
  - exists n. intros fuel LF. unfold strict_deserialize_type, strict_read_type.
    now rewrite (read_type_mono n fuel) by assumption.
Qed.

(** ** Typing *)

Fixpoint height (v : sval) : nat :=
  match v with
  | VStruct l => S (list_max (map (fun e => height (snd e)) l))
  | VUnion _ w => S (height w)
  | VList l | VSet l | VTuple l => S (list_max (map height l))
  | VMap l => S (list_max (map (fun e => Nat.max (height (fst e)) (height (snd e))) l))
  | _ => O
  end.
Lemma max_In {A} (f : A -> nat) l x : In x l -> (f x <= list_max (map f l))%nat.
Proof.
  induction l as [|y l IH]; intros I; [destruct I|]. cbn [map]. change (list_max (f y :: map f l)) with (Nat.max (f y) (list_max (map f l))).
  destruct I as [->|I]; [lia|]. apply IH in I. lia.
Qed.

Section Agree.
Variables (rec1 rec2 : sval -> semid -> outcome typ_error sval).

Lemma agree_zip l : forall ids, (forall v r, In v l -> In r ids -> same (rec1 v r) (rec2 v r)) ->
  same (typify_zip rec1 l ids) (typify_zip rec2 l ids).
Proof.
  induction l as [|x l IH]; intros [|id ids] H; cbn; try (apply same_refl; discriminate).
  apply same_bind; [apply H; now left|]. intros y _. apply same_bind; [apply IH; intros; apply H; now right|].
  intros ys _. apply same_refl; discriminate.
Qed.
Lemma agree_list l r : (forall v, In v l -> same (rec1 v r) (rec2 v r)) ->
  same (map_outcome (fun x => rec1 x r) l) (map_outcome (fun x => rec2 x r) l).
Proof.
  intros H. induction l as [|x l IH]; cbn; [apply same_refl; discriminate|].
  apply same_bind; [apply H; now left|]. intros y _. apply same_bind; [apply IH; intros; apply H; now right|]. intros ys _. apply same_refl; discriminate.
Qed.
Lemma agree_set id r l : (forall v, In v l -> same (rec1 v r) (rec2 v r)) ->
  forall new, same (typify_set rec1 id r l new) (typify_set rec2 id r l new).
Proof.
  intros H. induction l as [|x l IH]; intros new; cbn; [apply same_refl; discriminate|].
  apply same_bind; [apply H; now left|]. intros y _. destruct existsb; [apply same_refl; discriminate|apply IH; intros; apply H; now right].
Qed.
Lemma agree_map id k r l : (forall e, In e l -> same (rec1 (fst e) k) (rec2 (fst e) k) /\ same (rec1 (snd e) r) (rec2 (snd e) r)) ->
  forall new, same (typify_map rec1 id k r l new) (typify_map rec2 id k r l new).
Proof.
  intros H. induction l as [|[xk x] l IH]; intros new; cbn; [apply same_refl; discriminate|].
  destruct (H (xk, x)) as [H1 H2]; [now left|]. apply same_bind; [exact H1|]. intros yk _. apply same_bind; [exact H2|]. intros y _.
  destruct existsb; [apply same_refl; discriminate|apply IH; intros; apply H; now right].
Qed.
Lemma agree_struct req l : (forall e r, In e l -> In r (map snd req) -> same (rec1 (snd e) r) (rec2 (snd e) r)) ->
  forall new, same (typify_struct rec1 req l new) (typify_struct rec2 req l new).
Proof.
  intros H. induction l as [|[n x] l IH]; intros new; cbn; [apply same_refl; discriminate|].
  destruct (nf_ty_by_name req n) as [r|] eqn:F; cbn; [|apply same_refl; discriminate].
  apply same_bind; [apply (H (n, x)); [now left|eapply nf_ty_In; eauto]|]. intros y _. apply IH. intros; apply H; [now right|assumption].
Qed.
Lemma agree_mstruct req l : (forall e r, In e l -> In r (map snd req) -> same (rec1 (snd e) r) (rec2 (snd e) r)) ->
  forall new, same (typify_mstruct rec1 req l new) (typify_mstruct rec2 req l new).
Proof.
  intros H. induction l as [|[k x] l IH]; intros new; cbn; [apply same_refl; discriminate|].
  destruct k; try (apply same_refl; discriminate).
  destruct (Typify.name_ok s) eqn:NO; [|apply same_refl; discriminate].
  destruct (nf_ty_by_name req s) as [r|] eqn:F; cbn; [|apply same_refl; discriminate].
  apply same_bind; [apply (H (VStr s, x)); [now left|eapply nf_ty_In; eauto]|]. intros y _. apply IH. intros; apply H; [now right|assumption].
Qed.

Lemma option_content (vs : list (variant * semid)) r : is_option (TUnion vs) = true -> uv_ty_by_tag vs 1 = Some r -> In r (contents_of (TUnion vs)).
Proof.
  unfold is_option, as_some. destruct vs as [|[v0 r0] [|[v1 r1] [|? ?]]]; try discriminate.
  destruct (_ && _) eqn:E; [|discriminate]. intros _. rewrite !andb_true_iff in E. destruct E as [[[E1 E2] E3] E4].
  apply String.eqb_eq in E1, E3. apply N.eqb_eq in E2, E4. destruct v0 as [n0 t0], v1 as [n1 t1]. cbn in E1, E2, E3, E4. subst.
  unfold uv_ty_by_tag, uv_by_tag. cbn. intros [= <-]. now left.
Qed.

Ltac fin := match goal with |- Ok _ <> _ => discriminate | |- Err _ <> _ => discriminate | |- Panic <> _ => discriminate end.
Ltac ret := apply same_refl; unfold ndiv; fin.

Lemma agree_ty id t v :
  (forall w r, In r (refs t) -> (height w < height v)%nat -> same (rec1 w r) (rec2 w r)) ->
  (forall r, In r (contents_of t) -> same (rec1 v r) (rec2 v r)) ->
  same (typify_ty rec1 id t v) (typify_ty rec2 id t v).
Proof.
  intros H C. destruct t as [p| |vs|vs|fs|fs|r len|r sz|r sz|k r sz]; cbn [refs] in H.
  - assert (E : typify_ty rec1 id (TPrim p) v = typify_ty rec2 id (TPrim p) v) by reflexivity.
    rewrite E. apply same_refl. unfold typify_ty, ndiv.
    destruct v as [|n| | |l| | |l| |l|l]; try fin; try (destruct l); try (destruct n); try fin;
      repeat match goal with |- (if ?b then _ else _) <> _ => destruct b; try fin end.
  - apply same_refl. unfold typify_ty, ndiv. destruct v; try fin. destruct (slen s =? 1); fin.
  - apply same_refl. unfold typify_ty, ndiv. destruct v as [|n|s| | |t| | | | |]; try fin.
    + destruct n; try fin. destruct (n <? 256); [|fin]. destruct ev_name_by_tag; fin.
    + destruct (_ && _); [fin|]. destruct Typify.name_ok; [|fin]. destruct ev_has_name; fin.
    + destruct t; [destruct ev_tag_by_name; fin|destruct ev_name_by_tag; fin].
  - assert (S : is_option (TUnion vs) = true -> same (typify_some rec1 vs v) (typify_some rec2 vs v)).
    { intros O. unfold typify_some. destruct (uv_ty_by_tag vs 1) as [r|] eqn:F; cbn [expect bind]; [|ret].
      apply same_bind; [apply C; now apply option_content|]. intros; ret. }
    unfold typify_ty. destruct v as [| | | | | |t w| | |l|]; try (destruct (is_option (TUnion vs)) eqn:O; [now apply S|ret]).
    + destruct (is_option (TUnion vs)); ret.
    + destruct t as [n|n].
      * destruct (uv_ty_by_name vs n) eqn:F; [|ret].
        apply same_bind; [apply H; [eapply uv_name_In; eauto|cbn; lia]|]. intros; ret.
      * destruct (uv_ty_by_tag vs n) eqn:F; [|ret].
        apply same_bind; [apply H; [eapply uv_tag_In; eauto|cbn; lia]|]. intros; ret.
    + destruct l as [|a [|b [|? ?]]]; try (destruct (is_option (TUnion vs)) eqn:O; [now apply S|ret]).
      destruct (is_option (TUnion vs)); [|ret].
      destruct (uv_ty_by_tag vs 1) as [r|] eqn:F; cbn [expect bind]; [|ret].
      destruct (_ && _); [ret|]. destruct sval_eqb; [|ret].
      apply same_bind; [apply H; [eapply uv_tag_In; eauto|cbn [height]]|intros; ret].
      pose proof (max_In height [a; b] b (or_intror (or_introl eq_refl))). lia.
  - unfold typify_ty.
    assert (NT : same match fs with [f] => let* w := rec1 v f in Ok (VTuple [w]) | _ => Err (TypeMismatch v (TTuple fs)) end
                      match fs with [f] => let* w := rec2 v f in Ok (VTuple [w]) | _ => Err (TypeMismatch v (TTuple fs)) end).
    { destruct fs as [|f [|? ?]]; try ret. apply same_bind; [apply C; now left|]. intros; ret. }
    destruct v as [| |s| | | | |l| |l|]; try exact NT.
    + destruct (_ && _); [ret|exact NT].
    + apply same_bind; [apply agree_zip|intros; ret]. intros w r I J. apply H; [exact J|]. cbn [height]. apply (max_In height) in I. lia.
    + destruct (negb _); [ret|]. apply same_bind; [apply agree_zip|intros; ret]. intros w r I J. apply H; [exact J|]. cbn [height]. apply (max_In height) in I. lia.
  - unfold typify_ty. destruct v; try ret.
    + destruct (negb _); [ret|]. apply same_bind; [apply agree_struct|intros; ret]. intros e r I J. apply H; [exact J|]. cbn [height].
      apply (max_In (fun e => height (snd e))) in I. lia.
    + apply same_bind; [apply agree_mstruct|intros; ret]. intros e r I J. apply H; [exact J|]. cbn [height].
      apply (max_In (fun e => Nat.max (height (fst e)) (height (snd e)))) in I. lia.
  - unfold typify_ty. apply same_refl. unfold ndiv. destruct v; try fin.
    + destruct (len <? slen s); [fin|]. destruct (_ || _); fin.
    + destruct (is_byte_id r); [|fin]. destruct (len <? lenN b); fin.
    + destruct (len <? lenN l); fin.
  - unfold typify_ty. destruct v; try ret.
    + destruct (negb _); [ret|]. destruct (is_unicode_id r); [ret|]. destruct (is_byte_id r); [ret|].
      destruct (is_ascii s); ret.
    + destruct (negb _); [ret|]. destruct (is_byte_id r); ret.
    + destruct (negb _); [ret|]. apply same_bind; [|intros; ret]. apply agree_list. intros w I. apply H; [now left|]. cbn [height]. apply (max_In height) in I. lia.
  - unfold typify_ty. destruct v; try ret.
    destruct (negb _); [ret|]. apply same_bind; [|intros; ret]. apply agree_set. intros w I. apply H; [now left|]. cbn [height]. apply (max_In height) in I. lia.
  - unfold typify_ty. destruct v; try ret.
    destruct (negb _); [ret|]. apply same_bind; [|intros; ret]. apply agree_map. intros e I.
    apply (max_In (fun e => Nat.max (height (fst e)) (height (snd e)))) in I.
    split; apply H; [now left|cbn [height]; lia|right; now left|cbn [height]; lia].
Qed.
End Agree.

Lemma guarded_stable sys (rank : semid -> nat) (B : nat) : (forall id, (rank id < B)%nat) ->
  (forall id t r, sys_find sys id = Some t -> In r (contents_of t) -> (rank r < rank id)%nat) ->
  forall n id v f1 f2, (height v * B + rank id < n)%nat -> (n <= f1)%nat -> (n <= f2)%nat ->
  same (typify_val f1 sys v id) (typify_val f2 sys v id).
Proof.
  intros RB R. induction n as [|n IH]; intros id v f1 f2 L L1 L2; [lia|].
  destruct f1 as [|f1]; [lia|]. destruct f2 as [|f2]; [lia|]. cbn [typify_val].
  unfold type_of. destruct (N.eqb_spec id unit_id).
  - cbn [ok_or bind]. apply agree_ty; [intros w r []|intros r []].
  - destruct (sys_find sys id) as [t|] eqn:F; cbn [ok_or bind]; [|apply same_refl; discriminate].
    apply agree_ty.
    + intros w r _ HW. pose proof (RB r). apply IH; [nia|lia|lia].
    + intros r I. pose proof (R _ _ _ F I). apply IH; lia.
Qed.

Lemma guarded_typify sys v id : value_guarded sys ->
  exists r, r <> Diverge /\ returns (fun fuel => typify fuel sys v id) r.
Proof.
  intros [rank R]. destruct (bounded_rank sys rank) as (rank' & B & RB & RR).
  assert (G : forall id t r, sys_find sys id = Some t -> In r (contents_of t) -> (rank' r < rank' id)%nat).
  { intros i t r F I. apply (RR _ _ _ F). exact (R _ _ _ F I). }
  set (n := S (height v * B + rank' id)).
  destruct (guarded_stable sys rank' B RB G n id v n n) as [_ N]; try (unfold n; lia).
  exists (typify n sys v id). split.
  - unfold typify. apply ndiv_bind; [exact N|]. discriminate.
  - exists n. intros fuel L. destruct (guarded_stable sys rank' B RB G n id v fuel n) as [E _]; try (unfold n in *; lia).
    unfold typify. now rewrite E.
Qed.
