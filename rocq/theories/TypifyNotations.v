(** Proofs about notations of values. *)
From Coq Require Import NArith ZArith List Bool String Ascii Strings.Byte Lia Permutation.
From Verif Require Import Base Ty Ids Val TypeSys Encode Decode DecodeShort Typify Spec SpecTypify.
From Verif Require Import CodecLemmas ValLemmas RoundTrip ReadLemmas Sound CodecProofs TypifyProofs TypifyProofs2.
Import ListNotations.
Local Open Scope N_scope.

Lemma identifier_ok s : identifier s -> name_ok s = true.
Proof.
  intros (x & r & E & F & R & L). unfold name_ok, rstring_ok.
  destruct (sbytes s) as [|b bs] eqn:S; [discriminate E|]. cbn in E. injection E as <- <-.
  rewrite !andb_true_iff. repeat split.
  - unfold alpha_small_lodash, chr_between. rewrite orb_true_iff, andb_true_iff, !N.leb_le, N.eqb_eq. exact F.
  - apply forallb_forall. intros y I. rewrite Forall_map in R. rewrite Forall_forall in R. specialize (R y I).
    unfold alpha_num_lodash, chr_between. rewrite !orb_true_iff, !andb_true_iff, !N.leb_le, N.eqb_eq.
    destruct R as [R|[R|[R|R]]]; auto.
  - apply N.leb_le. rewrite slen_bytes, S. unfold lenN in *. cbn [List.length] in *. rewrite map_length in L. exact L.
Qed.

(** ** Values which are equal for the code are written in the same way *)

Lemma imap_get_names {V} (m : list (string * V)) k : imap_get m k = None <-> ~ In k (map fst m).
Proof.
  unfold imap_get. destruct (find (fun e => (fst e =? k)%string) m) as [e|] eqn:F; cbn.
  - split; [discriminate|]. intros N. exfalso. apply N. apply find_some in F as [F E].
    apply String.eqb_eq in E. subst. now apply in_map.
  - split; [|reflexivity]. intros _ I. apply in_map_iff in I as (e & <- & I).
    pose proof (find_none _ _ F e I) as X. cbn in X. now rewrite String.eqb_refl in X.
Qed.

Lemma imap_get_some {V} (m : list (string * V)) k v : imap_get m k = Some v -> In (k, v) m.
Proof.
  unfold imap_get. destruct (find (fun e => (fst e =? k)%string) m) as [e|] eqn:F; cbn; [|discriminate].
  intros H. injection H as <-. apply find_some in F as [F E]. apply String.eqb_eq in E. subst. now destruct e.
Qed.

Lemma enc_all_cons {E A} (f : A -> outcome E bytes) x l :
  enc_all f (x :: l) = let* b := f x in let* bs := enc_all f l in Ok (b ++ bs).
Proof. reflexivity. Qed.
Lemma enc_zip_cons {E A B} (f : A -> B -> outcome E bytes) x l y m :
  enc_zip f (x :: l) (y :: m) = let* b := f x y in let* bs := enc_zip f l m in Ok (b ++ bs).
Proof. reflexivity. Qed.

Lemma enc_all_ext {E A} (f g : A -> outcome E bytes) l : (forall x, In x l -> f x = g x) -> enc_all f l = enc_all g l.
Proof.
  induction l as [|x l IH]; intros H; [reflexivity|]. rewrite !enc_all_cons.
  rewrite (H x) by now left. rewrite IH by (intros; apply H; now right). reflexivity.
Qed.

Lemma Forall2_impl {A B} (P Q : A -> B -> Prop) l m : (forall a b, P a b -> Q a b) -> Forall2 P l m -> Forall2 Q l m.
Proof. intros H. induction 1; constructor; auto. Qed.

Section EqbWrite.
Variables (ce : config) (sys : type_system).

Definition writes_alike (x y : sval) := forall id, write_val ce sys x id = write_val ce sys y id.

Lemma struct_get_alike (x y : list (string * sval)) :
  NoDup (map fst x) -> lenN x = lenN y ->
  (forall k a, In (k, a) x -> exists b, imap_get y k = Some b /\ writes_alike a b) ->
  forall k, match imap_get x k, imap_get y k with
            | Some a, Some b => writes_alike a b
            | None, None => True
            | _, _ => False
            end.
Proof.
  intros ND L H k.
  assert (N : forall n, In n (map fst x) <-> In n (map fst y)).
  { apply complete_names; [exact ND|rewrite !map_length; unfold lenN in L; lia|].
    intros n I. apply in_map_iff in I as ([n' a] & <- & I). destruct (H _ _ I) as (b & G & _).
    apply imap_get_some in G. now apply (in_map fst) in G. }
  destruct (imap_get x k) as [a|] eqn:X.
  - apply imap_get_some in X. destruct (H _ _ X) as (b & -> & A). exact A.
  - apply imap_get_names in X. rewrite N in X. apply imap_get_names in X. now rewrite X.
Qed.

Lemma alike_struct (x y : list (string * sval)) : lenN x = lenN y ->
  (forall k, match imap_get x k, imap_get y k with
            | Some a, Some b => writes_alike a b
            | None, None => True
            | _, _ => False
            end) -> writes_alike (VStruct x) (VStruct y).
Proof.
  intros L H id. cbn [write_val]. destruct (type_of sys id) as [t|]; [|reflexivity]. cbn [expect bind].
  destruct t; try reflexivity. rewrite L. destruct (debug_assert ce (lenN y =? lenN fs)); try reflexivity.
  cbn [bind]. cbv zeta. apply enc_all_ext. intros [n r] _. cbn [fst snd].
  rewrite (imap_get_map (fun e id => write_val ce sys e id) x), (imap_get_map (fun e id => write_val ce sys e id) y).
  specialize (H n). destruct (imap_get x n), (imap_get y n); cbn; try contradiction; [apply H|reflexivity].
Qed.

Lemma alike_items (x y : list sval) :
  Forall2 writes_alike x y ->
  (forall r, enc_all (fun v => write_val ce sys v r) x = enc_all (fun v => write_val ce sys v r) y)
  /\ (forall fs, enc_zip (fun v id => write_val ce sys v id) x fs = enc_zip (fun v id => write_val ce sys v id) y fs)
  /\ lenN x = lenN y.
Proof.
  induction 1 as [|a b x y A F (I1 & I2 & I3)]; [repeat split; reflexivity|]. repeat split.
  - intros r. rewrite !enc_all_cons, (A r), I1. reflexivity.
  - intros [|f fs]; [reflexivity|]. rewrite !enc_zip_cons, (A f), I2. reflexivity.
  - unfold lenN in *. cbn [List.length]. lia.
Qed.

Lemma alike_list x y : Forall2 writes_alike x y -> writes_alike (VList x) (VList y).
Proof.
  intros F id. destruct (alike_items x y F) as (I1 & I2 & I3). cbn [write_val]. destruct (type_of sys id) as [t|]; [|reflexivity].
  cbn [expect bind]. destruct t; try reflexivity. now rewrite I1, I3.
Qed.
Lemma alike_set x y : Forall2 writes_alike x y -> writes_alike (VSet x) (VSet y).
Proof.
  intros F id. destruct (alike_items x y F) as (I1 & I2 & I3). cbn [write_val]. destruct (type_of sys id) as [t|]; [|reflexivity].
  cbn [expect bind]. destruct t; try reflexivity. now rewrite I1, I3.
Qed.
Lemma alike_tuple x y : Forall2 writes_alike x y -> writes_alike (VTuple x) (VTuple y).
Proof.
  intros F id. destruct (alike_items x y F) as (I1 & I2 & I3). cbn [write_val]. destruct (type_of sys id) as [t|]; [|reflexivity].
  cbn [expect bind]. destruct t; try reflexivity. now rewrite I2, I3.
Qed.
Lemma alike_map (x y : list (sval * sval)) :
  Forall2 (fun a b => writes_alike (fst a) (fst b) /\ writes_alike (snd a) (snd b)) x y -> writes_alike (VMap x) (VMap y).
Proof.
  intros F id. cbn [write_val]. destruct (type_of sys id) as [t|]; [|reflexivity].
  cbn [expect bind]. destruct t; try reflexivity.
  assert (E : lenN x = lenN y) by (unfold lenN; now rewrite (Forall2_len _ _ _ F)). rewrite E. clear E.
  match goal with |- bind ?a _ = bind ?b _ => assert (E : a = b); [|now rewrite E] end.
  induction F as [|a b x y [A1 A2] F IH]; [reflexivity|]. rewrite !enc_all_cons.
  rewrite A1, A2, IH. reflexivity.
Qed.
Lemma alike_union t x y : writes_alike x y -> writes_alike (VUnion t x) (VUnion t y).
Proof.
  intros A id. cbn [write_val]. destruct (type_of sys id) as [ty|]; [|reflexivity]. cbn [expect bind].
  destruct t, ty; try reflexivity.
  - destruct (uv_by_name vs s) as [e|]; [|reflexivity]. cbn [expect bind]. now rewrite A.
  - destruct (uv_ty_by_tag vs n) as [e|]; [|reflexivity]. cbn [expect bind]. now rewrite A.
Qed.

Lemma eqb_alike x : forall y, fields_ok x -> fields_ok y -> sval_eqb x y = true -> writes_alike x y.
Proof.
  induction x as [|n|s|b|fs IH|t|t v IH|l IH|l IH|l IH|l IH] using sval_ind'; intros y Fx Fy E;
    destruct y as [|n'|s'|b'|fs'|t'|t' v'|l'|l'|l'|l']; try discriminate E; cbn [sval_eqb] in E.
  - intros id; reflexivity.
  - apply snum_eqb_eq in E as ->. intros id; reflexivity.
  - apply String.eqb_eq in E as ->. intros id; reflexivity.
  - apply bytes_eqb_eq in E as ->. intros id; reflexivity.
  - apply andb_true_iff in E as [E1 E2]. apply N.eqb_eq in E1. cbn in Fx, Fy. destruct Fx as [ND Fx], Fy as [ND' Fy].
    apply alike_struct; [exact E1|]. apply struct_get_alike; [exact ND|exact E1|]. intros k a I.
    rewrite forallb_forall in E2. pose proof (E2 _ I) as X. cbn in X.
    destruct (imap_get fs' k) as [b|] eqn:G; [|discriminate X]. exists b. split; [reflexivity|].
    rewrite Forall_forall in IH. apply (IH _ I); [| |exact X].
    + clear -I Fx. induction fs as [|e fs IH]; [easy|]. destruct Fx as [F1 F2]. destruct I as [->|I]; auto.
    + apply imap_get_some in G. clear -G Fy. induction fs' as [|e fs IH]; [easy|]. destruct Fy as [F1 F2].
      destruct G as [->|G]; auto.
  - apply etag_eqb_eq in E as ->. intros id; reflexivity.
  - apply andb_true_iff in E as [E1 E2]. apply etag_eqb_eq in E1 as ->. apply alike_union. now apply IH.
  - apply alike_list. clear -IH Fx Fy E. cbn in Fx, Fy. revert l' Fy E. induction IH as [|x l H IH IHl]; intros [|y l'] Fy E; try discriminate E; constructor.
    + apply andb_true_iff in E as [E1 E2]. apply H; [apply Fx|apply Fy|exact E1].
    + apply andb_true_iff in E as [E1 E2]. apply IHl; [apply Fx|apply Fy|exact E2].
  - apply alike_set. clear -IH Fx Fy E. cbn in Fx, Fy. revert l' Fy E. induction IH as [|x l H IH IHl]; intros [|y l'] Fy E; try discriminate E; constructor.
    + apply andb_true_iff in E as [E1 E2]. apply H; [apply Fx|apply Fy|exact E1].
    + apply andb_true_iff in E as [E1 E2]. apply IHl; [apply Fx|apply Fy|exact E2].
  - apply alike_tuple. clear -IH Fx Fy E. cbn in Fx, Fy. revert l' Fy E. induction IH as [|x l H IH IHl]; intros [|y l'] Fy E; try discriminate E; constructor.
    + apply andb_true_iff in E as [E1 E2]. apply H; [apply Fx|apply Fy|exact E1].
    + apply andb_true_iff in E as [E1 E2]. apply IHl; [apply Fx|apply Fy|exact E2].
  - apply alike_map. clear -IH Fx Fy E. cbn in Fx, Fy. revert l' Fy E.
    induction IH as [|[xk x] l [H1 H2] IH IHl]; intros [|[yk y] l'] Fy E; try discriminate E; constructor.
    + apply andb_true_iff in E as [E1 E2]. apply andb_true_iff in E1 as [E0 E1]. cbn in *. destruct Fx as (?&?&?), Fy as (?&?&?).
      split; [apply H1|apply H2]; assumption.
    + apply andb_true_iff in E as [E1 E2]. cbn in Fx, Fy. apply IHl; [apply Fx|apply Fy|exact E2].
Qed.
End EqbWrite.

(** ** Induction over notations *)
Section NotInd.
Variables (c : config) (sys : type_system).
Local Notation DN := (denotes c sys).
Variable P : semid -> sval -> sval -> Prop.
Hypothesis H_unit : forall id v,
  sys_find sys id = Some (TPrim P_UNIT) -> In v [VUnit; VTuple []; VStruct []; VList []; VMap []] -> P id v VUnit.
Hypothesis H_uint : forall id p w n,
  sys_find sys id = Some (TPrim p) -> uint_width p = Some w -> n < 2 ^ (8 * w) -> P id (VNum (Uint n)) (VNum (Uint n)).
Hypothesis H_int : forall id p w z,
  sys_find sys id = Some (TPrim p) -> int_width p = Some w ->
  (- 2 ^ (8 * Z.of_N w - 1) <= z < 2 ^ (8 * Z.of_N w - 1))%Z -> P id (VNum (Int z)) (VNum (Int z)).
Hypothesis H_natural : forall id p w n,
  sys_find sys id = Some (TPrim p) -> int_width p = Some w -> n < 2 ^ (8 * w - 1) ->
  P id (VNum (Uint n)) (VNum (Int (Z.of_N n))).
Hypothesis H_enum : forall id vs x t,
  sys_find sys id = Some (TEnum vs) -> In x vs ->
  In t [VEnum (Name (v_name x)); VEnum (Ord (v_tag x)); VNum (Uint (v_tag x))] ->
  P id t (VEnum (Name (v_name x))).
Hypothesis H_enum_text : forall id vs x,
  sys_find sys id = Some (TEnum vs) -> In x vs ->
  (forall b, sbytes (v_name x) = [b] -> ~ In (Byte.to_N b) (map v_tag vs)) ->
  identifier (v_name x) -> P id (VStr (v_name x)) (VEnum (Name (v_name x))).
Hypothesis H_union : forall id vs x r t v w,
  sys_find sys id = Some (TUnion vs) -> In (x, r) vs -> t = Name (v_name x) \/ t = Ord (v_tag x) ->
  DN r v w -> P r v w -> P id (VUnion t v) (VUnion (Name (v_name x)) w).
Hypothesis H_none : forall id r u v,
  sys_find sys id = Some (TUnion [(mkVariant "none" 0, u); (mkVariant "some" 1, r)]) ->
  sys_find sys u = Some (TPrim P_UNIT) ->
  In v [VUnit; VTuple [VStr "none"; VUnit]] -> P id v (VUnion (Name "none") VUnit).
Hypothesis H_some : forall id r u v w,
  sys_find sys id = Some (TUnion [(mkVariant "none" 0, u); (mkVariant "some" 1, r)]) ->
  DN r v w -> P r v w -> P id (VTuple [VStr "some"; v]) (VUnion (Name "some") w).
Hypothesis H_content : forall id r u v w,
  sys_find sys id = Some (TUnion [(mkVariant "none" 0, u); (mkVariant "some" 1, r)]) ->
  (v <> VUnit /\ (forall t x, v <> VUnion t x) /\ (forall x y, v <> VTuple [x; y])) ->
  DN r v w -> P r v w -> P id v (VUnion (Name "some") w).
Hypothesis H_tuple : forall id fs ps v,
  sys_find sys id = Some (TTuple fs) ->
  (forall a1 a2 min max, ~ restricted_string sys fs a1 a2 min max) ->
  Forall2 (fun r p => P r (fst p) (snd p)) fs ps ->
  v = VTuple (map fst ps) \/ v = VList (map fst ps) -> P id v (VTuple (map snd ps)).
Hypothesis H_newtype : forall id r v w,
  sys_find sys id = Some (TTuple [r]) -> (forall l, v <> VTuple l) -> (forall l, v <> VList l) ->
  DN r v w -> P r v w -> P id v (VTuple [w]).
Hypothesis H_text : forall id s, has_type (mkMode true false) c sys id (VStr s) -> P id (VStr s) (VStr s).
Hypothesis H_struct : forall id fs l qs,
  sys_find sys id = Some (TStruct fs) -> map fst qs = map fst fs ->
  Forall2 (fun r p => P r (fst p) (snd p)) (map snd fs) (map snd qs) ->
  Permutation l (map (fun q => (fst q, fst (snd q))) qs) ->
  P id (VStruct l) (VStruct (map (fun q => (fst q, snd (snd q))) qs)).
Hypothesis H_struct_map : forall id fs l qs,
  sys_find sys id = Some (TStruct fs) -> map fst qs = map fst fs ->
  Forall2 (fun r p => P r (fst p) (snd p)) (map snd fs) (map snd qs) ->
  Permutation l (map (fun q => (VStr (fst q), fst (snd q))) qs) ->
  Forall (fun f => identifier (fst f)) fs ->
  P id (VMap l) (VStruct (map (fun q => (fst q, snd (snd q))) qs)).
Hypothesis H_byte_array : forall id r len b v,
  sys_find sys id = Some (TArray r len) -> r = byte_id \/ r = u8_id -> lenN b = len -> len <= cap c ->
  v = VBytes b \/ (exists s, v = VStr s /\ sbytes s = b /\ ascii_text s) -> P id v (VBytes b).
Hypothesis H_bytes : forall id r rt min max b v,
  sys_find sys id = Some (TList r (mkSizing min max)) -> sys_find sys r = Some rt ->
  chars_type rt = None -> byte_item r -> max < 2 ^ 32 -> len_ok (mkMode true false) c min max (lenN b) ->
  v = VBytes b \/ (exists s, v = VStr s /\ sbytes s = b) -> P id v (VBytes b).
Hypothesis H_list : forall id r rt min max ps,
  sys_find sys id = Some (TList r (mkSizing min max)) -> sys_find sys r = Some rt ->
  chars_type rt = None -> (max < 2 ^ 32 -> ~ byte_item r /\ ~ unicode_item r) ->
  len_ok (mkMode true false) c min max (lenN ps) -> Forall (fun p => P r (fst p) (snd p)) ps ->
  P id (VList (map fst ps)) (VList (map snd ps)).
Hypothesis H_set : forall id r min max ps,
  sys_find sys id = Some (TSet r (mkSizing min max)) ->
  len_ok (mkMode true false) c min max (lenN ps) -> Forall (fun p => P r (fst p) (snd p)) ps ->
  NoDup (map snd ps) -> P id (VSet (map fst ps)) (VSet (map snd ps)).
Hypothesis H_map : forall id k r min max ks ps,
  sys_find sys id = Some (TMap k r (mkSizing min max)) ->
  len_ok (mkMode true false) c min max (lenN ps) -> List.length ks = List.length ps ->
  Forall (fun p => P k (fst p) (snd p)) ks -> Forall (fun p => P r (fst p) (snd p)) ps ->
  NoDup (map snd ks) ->
  P id (VMap (combine (map fst ks) (map fst ps))) (VMap (combine (map snd ks) (map snd ps))).

Fixpoint denotes_ind' id v w (h : DN id v w) {struct h} : P id v w.
Proof.
  assert (F2 : forall fs (ps : list (sval * sval)), Forall2 (fun r p => DN r (fst p) (snd p)) fs ps ->
                 Forall2 (fun r p => P r (fst p) (snd p)) fs ps).
  { fix go 3. intros fs ps h2. destruct h2; constructor; [apply denotes_ind'; assumption|apply go; assumption]. }
  assert (F1 : forall r (ps : list (sval * sval)), Forall (fun p => DN r (fst p) (snd p)) ps -> Forall (fun p => P r (fst p) (snd p)) ps).
  { intros r. fix go 2. intros l h1. destruct h1; constructor; [apply denotes_ind'; assumption|apply go; assumption]. }
  destruct h.
  - now apply H_unit.
  - eapply H_uint; eauto.
  - eapply H_int; eauto.
  - eapply H_natural; eauto.
  - eapply H_enum; eauto.
  - eapply H_enum_text; eauto.
  - eapply H_union; eauto.
  - eapply H_none; eauto.
  - eapply H_some; eauto.
  - eapply H_content; eauto.
  - eapply H_tuple; eauto.
  - eapply H_newtype; eauto.
  - eapply H_text; eauto.
  - eapply H_struct; eauto.
  - eapply H_struct_map; eauto.
  - eapply H_byte_array; eauto.
  - eapply H_bytes; eauto.
  - eapply H_list; eauto.
  - eapply H_set; eauto.
  - eapply H_map; eauto.
Qed.
End NotInd.

(** ** The main lemma *)
Section Notation_.
Variables (c : config) (sys : type_system).
Local Notation M := (mkMode true false).
Hypothesis W : wf_sys sys.
Hypothesis K : known_ids sys.

(** What typification gives with the bound [n] on the depth. *)
Definition typed_as (n : nat) (id : semid) (v w w' : sval) : Prop :=
  fields_ok w' /\ (forall ce, write_val ce sys w' id = write_val ce sys w id)
  /\ forall fuel, (n <= fuel)%nat -> typify_val fuel sys v id = Ok w'.

Definition good (id : semid) (v w : sval) : Prop :=
  has_type M c sys id w /\ exists n w', typed_as n id v w w'.

Lemma typed_as_le n n' id v w w' : (n <= n')%nat -> typed_as n id v w w' -> typed_as n' id v w w'.
Proof. intros L (A & B & C). repeat split; auto. intros; apply C; lia. Qed.

Lemma good_collect2 fs ps : Forall2 (fun r p => good r (fst p) (snd p)) fs ps ->
  exists n ws, List.length ws = List.length ps
    /\ Forall2 (fun r q => typed_as n r (fst (fst q)) (snd (fst q)) (snd q)) fs (combine ps ws).
Proof.
  induction 1 as [|r p fs ps (T & n & w' & G) F (m & ws & L & IH)].
  - exists 0%nat, []. split; [reflexivity|constructor].
  - exists (Nat.max n m), (w' :: ws). split; [cbn; lia|]. cbn. constructor.
    + cbn. eapply typed_as_le; [|exact G]. lia.
    + eapply Forall2_impl; [|exact IH]. cbn. intros. eapply typed_as_le; [|eassumption]. lia.
Qed.

Lemma good_collect r ps : Forall (fun p => good r (fst p) (snd p)) ps ->
  exists n ws, List.length ws = List.length ps
    /\ Forall (fun q => typed_as n r (fst (fst q)) (snd (fst q)) (snd q)) (combine ps ws).
Proof.
  induction 1 as [|p ps (T & n & w' & G) F (m & ws & L & IH)].
  - exists 0%nat, []. split; [reflexivity|constructor].
  - exists (Nat.max n m), (w' :: ws). split; [cbn; lia|]. cbn. constructor.
    + cbn. eapply typed_as_le; [|exact G]. lia.
    + eapply Forall_impl; [|exact IH]. cbn. intros. eapply typed_as_le; [|eassumption]. lia.
Qed.

Lemma good_types fs (ps : list (sval * sval)) : Forall2 (fun r p => good r (fst p) (snd p)) fs ps ->
  Forall2 (has_type M c sys) fs (map snd ps).
Proof. induction 1 as [|r p fs ps [T _] F IH]; cbn; constructor; auto. Qed.

Lemma good_types1 r (ps : list (sval * sval)) : Forall (fun p => good r (fst p) (snd p)) ps ->
  Forall (has_type M c sys r) (map snd ps).
Proof. induction 1 as [|p ps [T _] F IH]; cbn; constructor; auto. Qed.

Lemma fields_ok_list l : (fix go l := match l with [] => True | x :: l => fields_ok x /\ go l end) l <-> Forall fields_ok l.
Proof.
  induction l as [|x l IH]; [split; constructor|]. split.
  - intros [A B]. constructor; [exact A|]. now apply IH.
  - intros H. inversion H; subst. split; [assumption|]. now apply IH.
Qed.

(** Reading back what is written determines the value. *)
Lemma same_bytes id a b : has_type M c sys id a -> has_type M c sys id b ->
  (forall ce, write_val ce sys a id = write_val ce sys b id) -> a = b.
Proof.
  intros Ta Tb E. set (ce := mkConfig false 0).
  destruct (round_trip M c ce sys W ltac:(discriminate) eq_refl id a Ta) as [ba [Ea _]].
  pose proof (E ce) as E'. rewrite Ea in E'. symmetry in E'.
  destruct (rt_prefix_free M c ce sys W ltac:(discriminate) eq_refl id a b ba ba [] Ta Tb Ea E') as [X _]; [|exact X].
  now rewrite app_nil_r.
Qed.

Lemma zip_typed fuel n fs ps ws : (n <= fuel)%nat -> List.length ws = List.length ps ->
  Forall2 (fun r q => typed_as n r (fst (fst q)) (snd (fst q)) (snd q)) fs (combine ps ws) ->
  typify_zip (typify_val fuel sys) (map fst ps) fs = Ok ws.
Proof.
  intros L. revert ps ws. induction fs as [|r fs IH]; intros ps ws LL F.
  - inversion F as [E|]. destruct ps, ws; try discriminate. reflexivity.
  - destruct ps as [|p ps], ws as [|w ws]; cbn in F; inversion F; subst.
    cbn [map typify_zip]. destruct H2 as (_ & _ & T). cbn in T. rewrite T by exact L. cbn [bind].
    rewrite (IH ps ws); [reflexivity|cbn in LL; lia|assumption].
Qed.

Lemma zip_fields_ok n fs ps ws : List.length ws = List.length ps ->
  Forall2 (fun r q => typed_as n r (fst (fst q)) (snd (fst q)) (snd q)) fs (combine ps ws) -> Forall fields_ok ws.
Proof.
  revert ps ws. induction fs as [|r fs IH]; intros ps ws LL F.
  - inversion F as [E|]. destruct ps, ws; try discriminate. constructor.
  - destruct ps as [|p ps], ws as [|w ws]; cbn in F; inversion F; subst. constructor.
    + apply H2.
    + eapply IH; [|eassumption]. cbn in LL. lia.
Qed.

Lemma zip_written ce n fs ps ws : List.length ws = List.length ps ->
  Forall2 (fun r q => typed_as n r (fst (fst q)) (snd (fst q)) (snd q)) fs (combine ps ws) ->
  enc_zip (fun v id => write_val ce sys v id) ws fs = enc_zip (fun v id => write_val ce sys v id) (map snd ps) fs.
Proof.
  revert ps ws. induction fs as [|r fs IH]; intros ps ws LL F.
  - inversion F as [E|]. destruct ps, ws; try discriminate. reflexivity.
  - destruct ps as [|p ps], ws as [|w ws]; cbn in F; inversion F; subst. cbn [map]. rewrite !enc_zip_cons.
    destruct H2 as (_ & E & _). cbn in E. rewrite E. rewrite (IH ps ws); [reflexivity|cbn in LL; lia|assumption].
Qed.

Section Items.
Variables (r : semid) (n fuel : nat).
Hypothesis L : (n <= fuel)%nat.

Lemma items_typed ps ws : List.length ws = List.length ps ->
  Forall (fun q => typed_as n r (fst (fst q)) (snd (fst q)) (snd q)) (combine ps ws) ->
  Forall2 (fun v w => typify_val fuel sys v r = Ok w) (map fst ps) ws /\ Forall fields_ok ws
  /\ (forall ce, Forall2 (fun w w' => write_val ce sys w' r = write_val ce sys w r) (map snd ps) ws).
Proof.
  revert ws. induction ps as [|p ps IH]; intros [|w ws] LL F; try discriminate.
  - repeat split; constructor.
  - cbn in F. inversion F as [|? ? (A & B & C) F']; subst. cbn in *. destruct (IH ws) as (I1 & I2 & I3); [lia|exact F'|].
    repeat split; constructor; auto.
Qed.

Lemma items_map_outcome vs ws : Forall2 (fun v w => typify_val fuel sys v r = Ok w) vs ws ->
  map_outcome (fun x => typify_val fuel sys x r) vs = Ok ws.
Proof. induction 1 as [|v w vs ws H F IH]; [reflexivity|]. cbn. rewrite H. cbn. rewrite IH. reflexivity. Qed.

Lemma items_written ce (ps ws : list sval) : Forall2 (fun w w' => write_val ce sys w' r = write_val ce sys w r) ps ws ->
  enc_all (fun v => write_val ce sys v r) ws = enc_all (fun v => write_val ce sys v r) ps.
Proof. induction 1 as [|v w vs ws H F IH]; [reflexivity|]. rewrite !enc_all_cons, H, IH. reflexivity. Qed.

(** Typified items of different values differ. *)
Definition origin (ps ws : list sval) : Prop :=
  (forall ce, Forall2 (fun w w' => write_val ce sys w' r = write_val ce sys w r) ps ws)
  /\ Forall (has_type M c sys r) ps /\ Forall fields_ok ws /\ NoDup ps.

Lemma origin_cons p ps w ws : origin (p :: ps) (w :: ws) -> origin ps ws.
Proof.
  intros (A & B & C & D). inversion B; inversion C; inversion D; subst. repeat split; auto.
  intros ce. specialize (A ce). inversion A; subst. assumption.
Qed.

Lemma origin_head p ps w ws : origin (p :: ps) (w :: ws) -> Forall (fun w' => sval_eqb w w' = false) ws.
Proof.
  intros (A & B & C & D). apply Forall_forall. intros w' I. destruct (sval_eqb w w') eqn:E; [|reflexivity].
  exfalso. inversion B as [|? ? Tp Tps]; inversion C as [|? ? Fw Fws]; inversion D as [|? ? NI ND]; subst.
  apply In_nth_error in I as [i I].
  assert (EX : exists p', nth_error ps i = Some p').
  { specialize (A (mkConfig false 0)). inversion A; subst. apply Forall2_len in H4.
    destruct (nth_error ps i) eqn:N; [eauto|]. apply nth_error_None in N. rewrite H4 in N. apply nth_error_None in N. congruence. }
  destruct EX as [p' I'].
  assert (X : p = p').
  { apply (same_bytes r); [exact Tp|rewrite Forall_forall in Tps; apply Tps; eapply nth_error_In; eauto|].
    intros ce. specialize (A ce). inversion A as [|? ? ? ? A1 A2]; subst. rewrite <- A1.
    rewrite Forall_forall in Fws. rewrite (eqb_alike ce sys w w' Fw (Fws _ (nth_error_In _ _ I)) E r).
    clear -A2 I I'. revert i I I'. induction A2 as [|a b la lb H F IH]; intros [|i] I I'; cbn in *; try discriminate.
    - congruence.
    - eauto. }
  subst p'. apply NI. eapply nth_error_In; eauto.
Qed.

Lemma items_set id vs ws ps : Forall2 (fun v w => typify_val fuel sys v r = Ok w) vs ws -> forall new,
  origin ps ws -> (forall x, In x new -> Forall (fun w => sval_eqb x w = false) ws) ->
  typify_set (typify_val fuel sys) id r vs new = Ok (new ++ ws).
Proof.
  intros F. revert ps. induction F as [|v w vs ws H F IH]; intros ps new O N; cbn [typify_set].
  - now rewrite app_nil_r.
  - rewrite H. cbn [bind].
    replace (existsb (fun z => sval_eqb z w) new) with false.
    2: { symmetry. apply not_true_is_false. intros X. apply existsb_exists in X as (x & I & E).
         specialize (N x I). inversion N; subst. congruence. }
    assert (exists p ps', ps = p :: ps') as (p & ps' & ->).
    { destruct O as (A & _). specialize (A (mkConfig false 0)). inversion A; subst. eauto. }
    rewrite (IH ps'); [now rewrite <- app_assoc|eapply origin_cons; eauto|].
    intros x I. apply in_app_or in I as [I|[->|[]]].
    + specialize (N x I). now inversion N.
    + eapply origin_head; eauto.
Qed.
End Items.

Lemma items_map id k r fuel kvs kws vs ws ps :
  Forall2 (fun v w => typify_val fuel sys v k = Ok w) kvs kws ->
  Forall2 (fun v w => typify_val fuel sys v r = Ok w) vs ws -> List.length kvs = List.length vs -> forall new,
  origin k ps kws -> (forall x, In x (map fst new) -> Forall (fun w => sval_eqb x w = false) kws) ->
  typify_map (typify_val fuel sys) id k r (combine kvs vs) new = Ok (new ++ combine kws ws).
Proof.
  intros F. revert ps vs ws. induction F as [|v w kvs kws H F IH]; intros ps vs ws G L new O N.
  - destruct vs; [|discriminate]. inversion G; subst. cbn. now rewrite app_nil_r.
  - destruct vs as [|u vs]; [discriminate|]. inversion G as [|? u' ? ws' G1 G2]; subst. cbn [combine typify_map].
    rewrite H. cbn [bind]. rewrite G1. cbn [bind].
    replace (existsb (fun z => sval_eqb (fst z) w) new) with false.
    2: { symmetry. apply not_true_is_false. intros X. apply existsb_exists in X as (x & I & E).
         specialize (N (fst x) (in_map fst _ _ I)). inversion N; subst. congruence. }
    assert (exists p ps', ps = p :: ps') as (p & ps' & ->).
    { destruct O as (A & _). specialize (A (mkConfig false 0)). inversion A; subst. eauto. }
    rewrite (IH ps' vs ws'); [now rewrite <- app_assoc|assumption|cbn in L; lia|eapply origin_cons; eauto|].
    intros x I. rewrite map_app in I. apply in_app_or in I as [I|[E|[]]]; [|cbn in E; subst x].
    + specialize (N x I). now inversion N.
    + eapply origin_head; eauto.
Qed.

(** Structures with fields in any order. *)
Lemma struct_typed fuel req (res l : list (string * sval)) : forall new,
  NoDup (map fst new ++ map fst l) ->
  Forall (fun e => exists r y, nf_ty_by_name req (fst e) = Some r /\ typify_val fuel sys (snd e) r = Ok y
                     /\ imap_get res (fst e) = Some y) l ->
  exists l', typify_struct (typify_val fuel sys) req l new = Ok (new ++ l') /\ map fst l' = map fst l
    /\ Forall (fun e => imap_get res (fst e) = Some (snd e)) l'.
Proof.
  induction l as [|[k v] l IH]; intros new ND F; cbn [typify_struct].
  - exists []. rewrite app_nil_r. repeat split. constructor.
  - inversion F as [|? ? (r & y & F1 & F2 & F3) F']; subst. cbn in F1, F2, F3. rewrite F1. cbn [ok_or bind].
    rewrite F2. cbn [bind]. rewrite imap_insert_new.
    2: { intros I. apply NoDup_remove_2 in ND. apply ND, in_or_app. now left. }
    destruct (IH (new ++ [(k, y)])) as (l' & E & N & G); [|exact F'|].
    { rewrite map_app, <- app_assoc. exact ND. }
    exists ((k, y) :: l'). rewrite E, <- app_assoc. repeat split; [cbn; now rewrite N|constructor; auto].
Qed.

Lemma mstruct_typed fuel req (res l : list (string * sval)) : forall new,
  NoDup (map fst new ++ map fst l) ->
  Forall (fun e => name_ok (fst e) = true /\ exists r y, nf_ty_by_name req (fst e) = Some r
                     /\ typify_val fuel sys (snd e) r = Ok y /\ imap_get res (fst e) = Some y) l ->
  exists l', typify_mstruct (typify_val fuel sys) req (map (fun e => (VStr (fst e), snd e)) l) new = Ok (new ++ l')
    /\ map fst l' = map fst l /\ Forall (fun e => imap_get res (fst e) = Some (snd e)) l'.
Proof.
  induction l as [|[k v] l IH]; intros new ND F; cbn [typify_mstruct map fst snd].
  - exists []. rewrite app_nil_r. repeat split. constructor.
  - inversion F as [|? ? (NO & r & y & F1 & F2 & F3) F']; subst. cbn in F1, F2, F3, NO. rewrite NO, F1. cbn [ok_or bind].
    rewrite F2. cbn [bind]. rewrite imap_insert_new.
    2: { intros I. apply NoDup_remove_2 in ND. apply ND, in_or_app. now left. }
    destruct (IH (new ++ [(k, y)])) as (l' & E & N & G); [|exact F'|].
    { rewrite map_app, <- app_assoc. exact ND. }
    exists ((k, y) :: l'). rewrite E, <- app_assoc. repeat split; [cbn; now rewrite N|constructor; auto].
Qed.

(** Everything about the fields, in the order of the type. *)
Lemma struct_aux n fs : forall (qs : list (string * (sval * sval))) ws, map fst qs = map fst fs -> List.length ws = List.length qs ->
  Forall2 (fun r q => typed_as n r (fst (fst q)) (snd (fst q)) (snd q)) (map snd fs) (combine (map snd qs) ws) ->
  exists res, map fst res = map fst fs /\ map snd res = ws
    /\ (forall k r, In (k, r) fs -> exists v w w', In (k, (v, w)) qs /\ In (k, w') res /\ typed_as n r v w w')
    /\ (forall k p, In (k, p) qs -> exists r w', In (k, r) fs /\ In (k, w') res /\ typed_as n r (fst p) (snd p) w').
Proof.
  induction fs as [|[k r] fs IH]; intros [|[k' [v w]] qs] [|w' ws] N L F; try discriminate.
  - exists []. repeat split; cbn; tauto.
  - cbn in N, L, F. injection N as -> N. injection L as L. inversion F as [|? ? ? ? F1 F2]; subst. cbn in F1.
    destruct (IH qs ws N L F2) as (res & R1 & R2 & R3 & R4).
    exists ((k, w') :: res). cbn. repeat split; [congruence|congruence| |].
    + intros k0 r0 [E|I].
      * injection E as <- <-. exists v, w, w'. auto.
      * destruct (R3 _ _ I) as (v0 & w0 & w1 & A & B & C). exists v0, w0, w1. auto.
    + intros k0 p0 [E|I].
      * injection E as <- <-. exists r, w'. auto.
      * destruct (R4 _ _ I) as (v0 & w0 & A & B & C). exists v0, w0. auto.
Qed.

Lemma struct_facts fs (qs : list (string * (sval * sval))) : NoDup (map fst fs) -> map fst qs = map fst fs ->
  Forall2 (fun r p => good r (fst p) (snd p)) (map snd fs) (map snd qs) ->
  exists n res, map fst res = map fst fs /\ Forall fields_ok (map snd res)
    /\ (forall k r, In (k, r) fs -> exists v w w', In (k, (v, w)) qs /\ imap_get res k = Some w' /\ typed_as n r v w w')
    /\ (forall k p, In (k, p) qs -> exists r w', nf_ty_by_name fs k = Some r /\ imap_get res k = Some w'
          /\ typed_as n r (fst p) (snd p) w').
Proof.
  intros ND N F. destruct (good_collect2 _ _ F) as (n & ws & L & G). rewrite map_length in L.
  destruct (struct_aux n fs qs ws N L G) as (res & R1 & R2 & R3 & R4). exists n, res.
  assert (ND' : NoDup (map fst res)) by now rewrite R1.
  repeat split; [exact R1|rewrite R2; eapply zip_fields_ok; [|exact G]; now rewrite map_length| |].
  - intros k r I. destruct (R3 _ _ I) as (v & w & w' & A & B & C). exists v, w, w'. repeat split; try apply C; auto.
    now apply imap_get_In.
  - intros k p I. destruct (R4 _ _ I) as (r & w' & A & B & C). exists r, w'. repeat split; try apply C; auto.
    + now apply nf_ty_by_name_In.
    + now apply imap_get_In.
Qed.

Lemma fields_ok_struct l : fields_ok (VStruct l) <-> NoDup (map fst l) /\ Forall fields_ok (map snd l).
Proof.
  cbn. split; intros [A B]; (split; [exact A|]); clear A.
  - induction l as [|[k v] l IH]; [constructor|]. destruct B. cbn. constructor; auto.
  - induction l as [|[k v] l IH]; [constructor|]. cbn in B. inversion B; subst. split; [assumption|]. apply IH. assumption.
Qed.

(** Two structures which are written alike at one type. *)
Lemma struct_written ce id fs (a b : list (string * sval)) : sys_find sys id = Some (TStruct fs) -> lenN a = lenN b ->
  (forall k r, In (k, r) fs -> exists x y, imap_get a k = Some x /\ imap_get b k = Some y
      /\ write_val ce sys x r = write_val ce sys y r) ->
  write_val ce sys (VStruct a) id = write_val ce sys (VStruct b) id.
Proof.
  intros F L H. cbn [write_val]. rewrite (type_of_find _ _ _ W F). cbn [expect bind]. rewrite L.
  destruct (debug_assert ce (lenN b =? lenN fs)); try reflexivity.
  cbn [bind]. cbv zeta. apply enc_all_ext. intros [n r] I. cbn [fst snd].
  rewrite (imap_get_map (fun e id => write_val ce sys e id) a), (imap_get_map (fun e id => write_val ce sys e id) b).
  destruct (H _ _ I) as (x & y & -> & -> & E). exact E.
Qed.

Lemma struct_result ce id fs (qs : list (string * (sval * sval))) n res l' :
  sys_find sys id = Some (TStruct fs) -> map fst qs = map fst fs ->
  (forall k r, In (k, r) fs -> exists v w w', In (k, (v, w)) qs /\ imap_get res k = Some w' /\ typed_as n r v w w') ->
  NoDup (map fst l') -> Permutation (map fst l') (map fst fs) ->
  Forall (fun e => imap_get res (fst e) = Some (snd e)) l' ->
  write_val ce sys (VStruct l') id = write_val ce sys (VStruct (map (fun q => (fst q, snd (snd q))) qs)) id.
Proof.
  intros F N R ND P G. pose proof (wf_types _ W _ _ F) as NDF. cbn in NDF.
  apply (struct_written ce id fs); [exact F| |].
  - unfold lenN. rewrite map_length. f_equal. rewrite <- (map_length fst l'), (Permutation_length P), <- N. apply map_length.
  - intros k r I. destruct (R _ _ I) as (v & w & w' & A & B & (_ & E & _)). exists w', w. repeat split.
    + assert (K' : In k (map fst l')).
      { eapply Permutation_in; [symmetry; exact P|]. now apply (in_map fst) in I. }
      apply in_map_iff in K' as ([k' x] & EQ & I'). cbn in EQ. subst k'.
      rewrite Forall_forall in G. pose proof (G _ I') as X. cbn in X. rewrite B in X. injection X as <-.
      now apply imap_get_In.
    + apply imap_get_In.
      * rewrite map_map. cbn. change (fun x : string * (sval * sval) => fst x) with (@fst string (sval * sval)).
        rewrite N. exact NDF.
      * apply in_map_iff. exists (k, (v, w)). auto.
    + apply E.
Qed.


Lemma good_intro id v w w' n : has_type M c sys id w -> fields_ok w' ->
  (forall ce, write_val ce sys w' id = write_val ce sys w id) ->
  (forall fuel, (n <= fuel)%nat -> typify_val fuel sys v id = Ok w') -> good id v w.
Proof. intros. split; [assumption|]. exists n, w'. repeat split; assumption. Qed.

Lemma len_ok_check mn mx n : len_ok M c mn mx n -> sizing_check (mkSizing mn mx) n = true.
Proof. intros (_ & _ & L). apply sizing_check_ok. now apply L. Qed.

Ltac step F := intros fuel Lf; destruct fuel as [|fuel]; [exfalso; lia|];
  rewrite (typify_unfold sys fuel _ _ _ (type_of_find sys _ _ W F)).

Lemma denotes_good id v w : denotes c sys id v w -> good id v w.
Proof.
  revert id v w. apply (denotes_ind' c sys good).
  - (* unit *)
    intros id v F I. apply (good_intro _ _ _ VUnit 1); [now apply HT_unit|exact Logic.I|reflexivity|].
    step F. cbn in I. repeat (destruct I as [<-|I]; [reflexivity|]). destruct I.
  - (* natural numbers *)
    intros id p w n F U L. destruct (TypifyProofs.uint_width_cases p w U) as [S| ->].
    + apply (good_intro _ _ _ (VNum (Uint n)) 1); [eapply HT_uint; eauto|exact Logic.I|reflexivity|].
      step F. cbn [typify_ty]. rewrite S. reflexivity.
    + apply (good_intro _ _ _ (VNum (Int (Z.of_N n))) 1); [eapply HT_uint; eauto|exact Logic.I| |].
      * intros ce. cbn [write_val]. rewrite (type_of_find _ _ _ W F). cbn [expect bind].
        injection U as <-. change (N.to_nat (prim_size P_BYTE)) with 1%nat. rewrite !slice_le by lia.
        rewrite twos_narrow by lia. f_equal. f_equal. unfold twos. change (2 ^ (8 * 1)) with 256 in L.
        change (8 * Z.of_nat 1)%Z with 8%Z. rewrite Z.mod_small by lia. now rewrite N2Z.id.
      * step F. injection U as <-. change (2 ^ (8 * 1)) with 256 in L.
        assert (E : N.land n 0x8000000000000000 = 0).
        { change 0x8000000000000000 with (2 ^ 63). apply N.bits_inj. intros i. rewrite N.land_spec, N.pow2_bits_eqb, N.bits_0.
          destruct (N.eqb_spec 63 i) as [<-|]; [|apply andb_false_r]. rewrite andb_true_r.
          destruct (N.eq_dec n 0) as [->|NZ]; [reflexivity|]. apply N.bits_above_log2.
          apply N.lt_le_trans with 8; [|lia]. apply N.log2_lt_pow2; [lia|]. exact L. }
        cbn [typify_ty]. rewrite E. reflexivity.
  - intros id p w z F U L.
    apply (good_intro _ _ _ (VNum (Int z)) 1); [eapply HT_int; eauto|exact Logic.I|reflexivity|].
    step F. cbn [typify_ty]. rewrite (int_width_small p w U). reflexivity.
  - intros id p w n F U L. destruct (RoundTrip.int_width_cases p w U) as (_ & Bw & _).
    assert (LZ : (Z.of_N n < 2 ^ (8 * Z.of_N w - 1))%Z).
    { apply N2Z.inj_lt in L. rewrite N2Z.inj_pow, N2Z.inj_sub, N2Z.inj_mul in L by lia. exact L. }
    apply (good_intro _ _ _ (VNum (Int (Z.of_N n))) 1); [|exact Logic.I|reflexivity|].
    { eapply HT_int; eauto. split; [|exact LZ]. pose proof (Z.pow_nonneg 2 (8 * Z.of_N w - 1) ltac:(lia)). lia. }
    step F.
    assert (E : N.land n 0x8000000000000000 = 0).
    { change 0x8000000000000000 with (2 ^ 63). apply N.bits_inj. intros i. rewrite N.land_spec, N.pow2_bits_eqb, N.bits_0.
      destruct (N.eqb_spec 63 i) as [<-|]; [|apply andb_false_r]. rewrite andb_true_r.
      destruct (N.eq_dec n 0) as [->|NZ]; [reflexivity|]. apply N.bits_above_log2.
      apply N.lt_le_trans with (8 * w - 1); [|lia]. apply N.log2_lt_pow2; [lia|]. exact L. }
    cbn [typify_ty]. rewrite (int_width_small p w U), E.
    replace (is_small_unsigned p) with false; [reflexivity|].
    pose proof (int_width_small p w U) as S. unfold is_small_signed in S. apply andb_true_iff in S as [S _].
    apply N.leb_le in S. symmetry. unfold is_small_unsigned. apply N.leb_gt. lia.
  - (* enums *)
    intros id vs x t F I T. destruct (wf_types _ W _ _ F) as (N1 & N2 & N3).
    apply (good_intro _ _ _ (VEnum (Name (v_name x))) 1); [eapply HT_enum; eauto|exact Logic.I|reflexivity|].
    step F. pose proof (ev_by_name_In vs x N1 I) as E1. pose proof (ev_by_tag_In vs x N2 I) as E2.
    cbn in T. destruct T as [<-|[<-|[<-|[]]]]; cbn [typify_ty].
    + unfold ev_tag_by_name. rewrite E1. reflexivity.
    + unfold ev_name_by_tag. rewrite E2. reflexivity.
    + rewrite Forall_forall in N3. specialize (N3 _ I). destruct (N.ltb_spec (v_tag x) 256); [|lia].
      unfold ev_name_by_tag. rewrite E2. reflexivity.
  - intros id vs x F I NT ID. destruct (wf_types _ W _ _ F) as (N1 & N2 & N3).
    apply (good_intro _ _ _ (VEnum (Name (v_name x))) 1); [eapply HT_enum; eauto|exact Logic.I|reflexivity|].
    step F. pose proof (ev_by_name_In vs x N1 I) as E1. cbn [typify_ty].
    replace ((slen (v_name x) =? 1) && match sbytes (v_name x) with b :: _ => ev_has_tag vs (Byte.to_N b) | [] => false end)
      with false.
    + rewrite (identifier_ok _ ID). replace (ev_has_name vs (v_name x)) with true; [reflexivity|].
      symmetry. apply existsb_exists. exists x. split; [exact I|]. apply String.eqb_refl.
    + symmetry. apply not_true_is_false. intros X. apply andb_true_iff in X as [X1 X2]. apply N.eqb_eq in X1.
      rewrite slen_bytes in X1. destruct (sbytes (v_name x)) as [|b [|? ?]]; unfold lenN in X1; cbn in X1; try lia; try discriminate.
      apply existsb_exists in X2 as (y & Y1 & Y2). apply N.eqb_eq in Y2. apply (NT b eq_refl). rewrite <- Y2. now apply in_map.
  - (* unions *)
    intros id vs x r t v w F I T _ (HT & n & w' & (FO & WR & TY)). destruct (wf_types _ W _ _ F) as (N1 & N2 & N3).
    pose proof (uv_by_name_In vs (x, r) N1 I) as E1. pose proof (uv_by_tag_In vs (x, r) N2 I) as E2. cbn [fst] in E1, E2.
    apply (good_intro _ _ _ (VUnion t w') (S n)); [eapply HT_union; eauto|exact FO| |].
    + intros ce. cbn [write_val]. rewrite (type_of_find _ _ _ W F). cbn [expect bind].
      destruct T as [-> | ->].
      * rewrite E1. cbn [expect bind snd fst]. now rewrite WR.
      * unfold uv_ty_by_tag. rewrite E1, E2. cbn [option_map expect bind snd fst]. now rewrite WR.
    + step F. cbn [typify_ty]. destruct T as [-> | ->].
      * unfold uv_ty_by_name. rewrite E1. cbn [option_map snd]. rewrite TY by lia. reflexivity.
      * unfold uv_ty_by_tag. rewrite E2. cbn [option_map snd]. rewrite TY by lia. reflexivity.
  - intros id r u v F FU I. apply (good_intro _ _ _ (VUnion (Name "none") VUnit) 1); [|exact Logic.I|reflexivity|].
    + eapply (HT_union _ _ _ _ _ (mkVariant "none" 0)); [exact F|now left|now apply HT_unit].
    + step F. cbn in I. destruct I as [<-|[<-|[]]]; reflexivity.
  - intros id r u v w F _ (HT & n & w' & (FO & WR & TY)).
    apply (good_intro _ _ _ (VUnion (Name "some") w') (S n)); [|exact FO| |].
    + eapply (HT_union _ _ _ _ _ (mkVariant "some" 1)); [exact F|right; now left|exact HT].
    + intros ce. cbn [write_val]. rewrite (type_of_find _ _ _ W F). cbn [expect bind].
      change (uv_by_name [(mkVariant "none" 0, u); (mkVariant "some" 1, r)] "some") with (Some (mkVariant "some" 1, r)).
      cbn [expect bind snd fst]. now rewrite WR.
    + step F. cbn. rewrite TY by lia. reflexivity.
  - intros id r u v w F (NV1 & NV2 & NV3) _ (HT & n & w' & (FO & WR & TY)).
    apply (good_intro _ _ _ (VUnion (Name "some") w') (S n)); [|exact FO| |].
    + eapply (HT_union _ _ _ _ _ (mkVariant "some" 1)); [exact F|right; now left|exact HT].
    + intros ce. cbn [write_val]. rewrite (type_of_find _ _ _ W F). cbn [expect bind].
      change (uv_by_name [(mkVariant "none" 0, u); (mkVariant "some" 1, r)] "some") with (Some (mkVariant "some" 1, r)).
      cbn [expect bind snd fst]. now rewrite WR.
    + step F. 
      assert (E : typify_ty (typify_val fuel sys) id (TUnion [(mkVariant "none" 0, u); (mkVariant "some" 1, r)]) v
                  = typify_some (typify_val fuel sys) [(mkVariant "none" 0, u); (mkVariant "some" 1, r)] v).
      { destruct v as [| | | | | | | | |[|a [|b [|? ?]]]|]; try reflexivity; [now destruct NV1|now destruct (NV2 t v)|now destruct (NV3 a b)]. }
      rewrite E. cbn. rewrite TY by lia. reflexivity.
  - (* tuples *)
    intros id fs ps v F NR G V. destruct (good_collect2 _ _ G) as (n & ws & L & Q).
    pose proof (Forall2_len _ _ _ G) as LF.
    apply (good_intro _ _ _ (VTuple ws) (S n)).
    + eapply HT_tuple; [exact F|exact NR|now apply good_types].
    + cbn. apply fields_ok_list. eapply zip_fields_ok; eauto.
    + intros ce. cbn [write_val]. rewrite (type_of_find _ _ _ W F). cbn [expect bind].
      rewrite (zip_written ce n fs ps ws L Q). unfold lenN. now rewrite map_length, L.
    + step F. assert (Z : typify_zip (typify_val fuel sys) (map fst ps) fs = Ok ws).
      { apply (zip_typed fuel n); [lia|exact L|exact Q]. }
      destruct V as [-> | ->]; cbn [typify_ty]; rewrite Z; [|reflexivity].
      replace (lenN (map fst ps) =? lenN fs) with true; [reflexivity|].
      symmetry. apply N.eqb_eq. unfold lenN. now rewrite map_length, LF.
  - intros id r v w F NT NL _ (HT & n & w' & (FO & WR & TY)).
    apply (good_intro _ _ _ (VTuple [w']) (S n)).
    + eapply HT_tuple; [exact F| |repeat constructor; exact HT]. intros a1 a2 mn mx [f1 f2 ? ? ? E _ _ _ _ _]. discriminate E.
    + cbn. auto.
    + intros ce. cbn [write_val]. rewrite (type_of_find _ _ _ W F). cbn [expect bind].
      rewrite !enc_zip_cons. now rewrite WR.
    + step F. 
      assert (E : typify_ty (typify_val fuel sys) id (TTuple [r]) v = let* w := typify_val fuel sys v r in Ok (VTuple [w])).
      { destruct v; try reflexivity.
        - unfold typify_ty. change (lenN [r] =? 2) with false. rewrite andb_false_r. reflexivity.
        - now destruct (NL l).
        - now destruct (NT l). }
      rewrite E, TY by lia. reflexivity.
  - (* text *)
    intros id s T. apply (good_intro _ _ _ (VStr s) 1); [exact T|exact Logic.I|reflexivity|].
    inversion T as [| | | | | |? fs a1 a2 mn mx ? F RS AT L _| | | |? r rt a mn mx ? F FR CT AT L _| |? r rt mn mx ? F FR CT NB UI ML UV L| | |]; subst.
    + step F. assert (lenN fs = 2) as L2 by (destruct RS; subst; reflexivity).
      unfold typify_ty. rewrite (proj1 (ascii_text_iff s)) by assumption. rewrite L2. reflexivity.
    + step F. cbn [typify_ty]. rewrite (len_ok_check mn mx _ L). cbn [negb].
      destruct (is_unicode_id r); [reflexivity|].
      destruct (is_byte_id r) eqn:IB.
      * exfalso. apply byte_item_iff in IB. destruct K as (K1 & K2 & _).
        destruct IB as [-> | ->]; [rewrite (K1 _ FR) in CT|rewrite (K2 _ FR) in CT]; discriminate CT.
      * rewrite (proj1 (ascii_text_iff s)) by assumption. reflexivity.
    + step F. cbn [typify_ty]. rewrite (len_ok_check mn mx _ L). cbn [negb].
      rewrite (proj1 (unicode_item_iff r)) by assumption. reflexivity.
  - (* structures *)
    intros id fs l qs F N G P. pose proof (wf_types _ W _ _ F) as NDF. cbn in NDF.
    destruct (struct_facts fs qs NDF N G) as (n & res & R1 & R2 & R3 & R4).
    assert (PN : Permutation (map fst l) (map fst fs)).
    { apply (Permutation_map fst) in P. rewrite map_map in P. cbn in P. rewrite <- N. exact P. }
    assert (ND : NoDup (map fst l)) by (eapply Permutation_NoDup; [symmetry; exact PN|exact NDF]).
    assert (FA : forall fuel, (n <= fuel)%nat -> exists l', typify_struct (typify_val fuel sys) fs l [] = Ok l'
        /\ map fst l' = map fst l /\ Forall (fun e => imap_get res (fst e) = Some (snd e)) l').
    { intros fuel Lf. apply (struct_typed fuel fs res l []); [exact ND|].
      apply Forall_forall. intros [k v] I. cbn. eapply Permutation_in in I; [|exact P].
      apply in_map_iff in I as ([k' [v' w']] & E & I). cbn in E. injection E as -> ->.
      destruct (R4 _ _ I) as (r & y & A & B & (_ & _ & C)). exists r, y. repeat split; auto. }
    destruct (FA n (le_n n)) as (l' & T & N' & RG).
    assert (RL : forall fuel, (n <= fuel)%nat -> typify_struct (typify_val fuel sys) fs l [] = Ok l').
    { intros fuel Lf. destruct (FA fuel Lf) as (l2 & T2 & N2 & RG2). rewrite T2. f_equal.
      rewrite <- N' in N2. clear -N2 RG RG2. revert l' N2 RG. induction l2 as [|[k v] l2 IH]; intros [|[k' v'] l'] N2 RG; try discriminate; [reflexivity|].
      cbn in N2. injection N2 as -> N2. inversion RG; inversion RG2; subst. cbn in *. f_equal; [congruence|auto]. }
    apply (good_intro _ _ _ (VStruct l') (S n)).
    + eapply HT_struct; [exact F| |].
      * rewrite map_map. cbn. exact N.
      * rewrite map_map. cbn. apply good_types in G. rewrite map_map in G. exact G.
    + apply fields_ok_struct. rewrite N'. split; [exact ND|]. rewrite Forall_map. eapply Forall_impl; [|exact RG].
      intros [k v] E. cbn in *. apply imap_get_some in E. rewrite Forall_map in R2. rewrite Forall_forall in R2.
      apply (R2 _ E).
    + intros ce. eapply struct_result; eauto; rewrite N'; assumption.
    + step F. cbn [typify_ty]. rewrite RL by lia.
      replace (lenN l =? lenN fs) with true; [reflexivity|].
      symmetry. apply N.eqb_eq. unfold lenN. rewrite <- (map_length fst l), (Permutation_length PN), map_length. reflexivity.
  - intros id fs lm qs F N G P ID. pose proof (wf_types _ W _ _ F) as NDF. cbn in NDF.
    destruct (struct_facts fs qs NDF N G) as (n & res & R1 & R2 & R3 & R4).
    assert (EL : exists l, lm = map (fun e => (VStr (fst e), snd e)) l /\ Permutation l (map (fun q => (fst q, fst (snd q))) qs)).
    {
      replace (map (fun q => (VStr (fst q), fst (snd q))) qs)
        with (map (fun e : string * sval => (VStr (fst e), snd e)) (map (fun q => (fst q, fst (snd q))) qs)) in P
        by (rewrite map_map; reflexivity).
      apply Permutation_map_inv in P as (l & -> & P). exists l. split; [reflexivity|]. now symmetry. }
    destruct EL as (l & -> & P'). clear P. rename P' into P.
    assert (PN : Permutation (map fst l) (map fst fs)).
    { apply (Permutation_map fst) in P. rewrite map_map in P. cbn in P. rewrite <- N. exact P. }
    assert (ND : NoDup (map fst l)) by (eapply Permutation_NoDup; [symmetry; exact PN|exact NDF]).
    assert (FA : forall fuel, (n <= fuel)%nat -> exists l',
        typify_mstruct (typify_val fuel sys) fs (map (fun e => (VStr (fst e), snd e)) l) [] = Ok l'
        /\ map fst l' = map fst l /\ Forall (fun e => imap_get res (fst e) = Some (snd e)) l').
    { intros fuel Lf. apply (mstruct_typed fuel fs res l []); [exact ND|].
      apply Forall_forall. intros [k v] I. cbn. split.
      { apply identifier_ok. apply (in_map fst) in I. cbn in I. eapply Permutation_in in I; [|exact PN].
        apply in_map_iff in I as (f & <- & I). rewrite Forall_forall in ID. now apply ID. }
      eapply Permutation_in in I; [|exact P].
      apply in_map_iff in I as ([k' [v' w']] & E & I). cbn in E. injection E as -> ->.
      destruct (R4 _ _ I) as (r & y & A & B & (_ & _ & C)). exists r, y. repeat split; auto. }
    destruct (FA n (le_n n)) as (l' & T & N' & RG).
    assert (RL : forall fuel, (n <= fuel)%nat ->
        typify_mstruct (typify_val fuel sys) fs (map (fun e => (VStr (fst e), snd e)) l) [] = Ok l').
    { intros fuel Lf. destruct (FA fuel Lf) as (l2 & T2 & N2 & RG2). rewrite T2. f_equal.
      rewrite <- N' in N2. clear -N2 RG RG2. revert l' N2 RG. induction l2 as [|[k v] l2 IH]; intros [|[k' v'] l'] N2 RG; try discriminate; [reflexivity|].
      cbn in N2. injection N2 as -> N2. inversion RG; inversion RG2; subst. cbn in *. f_equal; [congruence|auto]. }
    apply (good_intro _ _ _ (VStruct l') (S n)).
    + eapply HT_struct; [exact F| |].
      * rewrite map_map. cbn. exact N.
      * rewrite map_map. cbn. apply good_types in G. rewrite map_map in G. exact G.
    + apply fields_ok_struct. rewrite N'. split; [exact ND|]. rewrite Forall_map. eapply Forall_impl; [|exact RG].
      intros [k v] E. cbn in *. apply imap_get_some in E. rewrite Forall_map in R2. rewrite Forall_forall in R2.
      apply (R2 _ E).
    + intros ce. eapply struct_result; eauto; rewrite N'; assumption.
    + step F. cbn [typify_ty]. rewrite RL by lia. reflexivity.
  - (* byte arrays *)
    intros id r len b v F BI L C V.
    assert (BI' : is_byte_id r = true) by (apply byte_item_iff; exact BI).
    destruct V as [-> | (s & -> & SB & AT)].
    + apply (good_intro _ _ _ (VBytes b) 1); [eapply HT_byte_array; eauto|exact Logic.I|reflexivity|].
      step F. cbn [typify_ty]. rewrite BI'. destruct (N.ltb_spec len (lenN b)); [lia|reflexivity].
    + apply (good_intro _ _ _ (VStr s) 1); [eapply HT_byte_array; eauto|exact Logic.I| |].
      * intros ce. cbn [write_val]. rewrite (type_of_find _ _ _ W F). cbn [expect bind]. rewrite slen_bytes, SB. reflexivity.
      * step F. cbn [typify_ty]. rewrite slen_bytes, SB. destruct (N.ltb_spec len (lenN b)); [lia|].
        rewrite (proj1 (ascii_text_iff s) AT). reflexivity.
  - (* byte strings *)
    intros id r rt mn mx b v F FR CT BI ML L V.
    assert (BI' : is_byte_id r = true) by (apply byte_item_iff; exact BI).
    destruct V as [-> | (s & -> & SB)].
    + apply (good_intro _ _ _ (VBytes b) 1); [eapply HT_bytes; eauto|exact Logic.I|reflexivity|].
      step F. cbn [typify_ty]. rewrite (len_ok_check mn mx _ L), BI'. reflexivity.
    + destruct (is_unicode_id r) eqn:U.
      * apply (good_intro _ _ _ (VStr s) 1); [eapply HT_bytes; eauto|exact Logic.I| |].
        -- intros ce. cbn [write_val]. rewrite (type_of_find _ _ _ W F). cbn [expect bind]. rewrite slen_bytes, SB. reflexivity.
        -- step F. cbn [typify_ty]. rewrite slen_bytes, SB, (len_ok_check mn mx _ L), U. reflexivity.
      * apply (good_intro _ _ _ (VBytes b) 1); [eapply HT_bytes; eauto|exact Logic.I|reflexivity|].
        step F. cbn [typify_ty]. rewrite slen_bytes, SB, (len_ok_check mn mx _ L), U, BI'. reflexivity.
  - (* lists *)
    intros id r rt mn mx ps F FR CT NBU L G. destruct (good_collect _ _ G) as (n & ws & LW & Q).
    destruct (items_typed r n n (le_n n) ps ws LW Q) as (_ & FO & WR).
    apply (good_intro _ _ _ (VList ws) (S n)).
    + eapply HT_list; eauto; [unfold lenN in *; now rewrite map_length|now apply good_types1].
    + cbn. now apply fields_ok_list.
    + intros ce. cbn [write_val]. rewrite (type_of_find _ _ _ W F). cbn [expect bind].
      rewrite (items_written r ce _ _ (WR ce)). unfold lenN. now rewrite map_length, LW.
    + step F. destruct (items_typed r n fuel ltac:(lia) ps ws LW Q) as (T & _ & _).
      cbn [typify_ty]. replace (lenN (map fst ps)) with (lenN ps) by (unfold lenN; now rewrite map_length).
      rewrite (len_ok_check mn mx _ L). cbn [negb]. rewrite (items_map_outcome r fuel _ _ T). reflexivity.
  - (* sets *)
    intros id r mn mx ps F L G ND. destruct (good_collect _ _ G) as (n & ws & LW & Q).
    destruct (items_typed r n n (le_n n) ps ws LW Q) as (_ & FO & WR).
    apply (good_intro _ _ _ (VSet ws) (S n)).
    + eapply HT_set; eauto; [unfold lenN in *; now rewrite map_length|now apply good_types1].
    + cbn. now apply fields_ok_list.
    + intros ce. cbn [write_val]. rewrite (type_of_find _ _ _ W F). cbn [expect bind].
      rewrite (items_written r ce _ _ (WR ce)). unfold lenN. now rewrite map_length, LW.
    + step F. destruct (items_typed r n fuel ltac:(lia) ps ws LW Q) as (T & _ & _).
      cbn [typify_ty]. replace (lenN (map fst ps)) with (lenN ps) by (unfold lenN; now rewrite map_length).
      rewrite (len_ok_check mn mx _ L). cbn [negb].
      rewrite (items_set r fuel id _ _ (map snd ps) T []); [reflexivity| |intros x []].
      repeat split; auto. now apply good_types1.
  - (* maps *)
    intros id k r mn mx ks ps F L LK GK G ND. destruct (good_collect _ _ G) as (n1 & ws & LW & Q).
    destruct (good_collect _ _ GK) as (n2 & kws & LKW & QK). set (n := Nat.max n1 n2).
    destruct (items_typed r n1 n1 (le_n n1) ps ws LW Q) as (_ & FO & WR).
    destruct (items_typed k n2 n2 (le_n n2) ks kws LKW QK) as (_ & FOK & WRK).
    apply (good_intro _ _ _ (VMap (combine kws ws)) (S n)).
    + assert (C1 : map fst (combine (map snd ks) (map snd ps)) = map snd ks /\ map snd (combine (map snd ks) (map snd ps)) = map snd ps).
      { clear -LK. revert ps LK. induction ks as [|a ks IH]; intros [|b ps] LK; try discriminate; [split; reflexivity|].
        cbn in *. destruct (IH ps ltac:(lia)) as [-> ->]. split; reflexivity. }
      destruct C1 as [C1 C2]. eapply HT_map; eauto.
      * unfold lenN in *. rewrite combine_length, !map_length, LK, Nat.min_id. exact L.
      * rewrite C1. now apply good_types1.
      * rewrite C2. now apply good_types1.
      * intros _. now rewrite C1.
    + cbn. clear -FO FOK. revert ws FO. induction FOK as [|a kws Ha Hk IH]; intros ws FO; [exact Logic.I|].
      destruct FO as [|b ws Hb Hw]; [exact Logic.I|]. cbn. split; [exact Ha|]. split; [exact Hb|]. apply IH. exact Hw.
    + intros ce. cbn [write_val]. rewrite (type_of_find _ _ _ W F). cbn [expect bind].
      unfold lenN. rewrite !combine_length, !map_length, LW, LKW.
      match goal with |- bind ?a _ = bind ?b _ => assert (E : a = b); [|now rewrite E] end.
      specialize (WR ce). specialize (WRK ce). clear -WR WRK.
      revert ws WR. generalize (map snd ps). induction WRK as [|a a' la la' Ha Hla IH]; intros lb lb' WR; [reflexivity|].
      destruct WR as [|b b' lb lb' Hb Hlb]; [reflexivity|]. cbn [combine]. rewrite !enc_all_cons. cbn [fst snd].
      rewrite Ha, Hb, (IH lb lb' Hlb). reflexivity.
    + step F. destruct (items_typed r n1 fuel ltac:(lia) ps ws LW Q) as (T & _ & _).
      destruct (items_typed k n2 fuel ltac:(lia) ks kws LKW QK) as (TK & _ & _).
      cbn [typify_ty].
      replace (lenN (combine (map fst ks) (map fst ps))) with (lenN ps)
        by (unfold lenN; rewrite combine_length, !map_length, LK, Nat.min_id; reflexivity).
      rewrite (len_ok_check mn mx _ L). cbn [negb].
      rewrite (items_map id k r fuel _ _ _ _ (map snd ks) TK T); [reflexivity|now rewrite !map_length| |intros x []].
      repeat split; auto. now apply good_types1.
Qed.

End Notation_.
