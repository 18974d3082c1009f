(** Injectivity of the commitments. *)
From Coq Require Import NArith List Bool String Strings.Byte Lia.
From Verif Require Import Base Sha256 Ty Ids Spec SpecIds.
Import ListNotations.
Local Open Scope N_scope.

Lemma app_split {A} (a b r r' : list A) : List.length a = List.length b -> a ++ r = b ++ r' -> a = b /\ r = r'.
Proof.
  revert b; induction a as [|x a IH]; intros [|y b] L E; try discriminate L; [auto|].
  injection E as -> E. injection L as L. destruct (IH b L E) as [-> ->]. auto.
Qed.

(** Encodings which tell where they end. *)
Definition prefix_inj {A} (P : A -> Prop) (f : A -> bytes) : Prop :=
  forall a b r r', P a -> P b -> f a ++ r = f b ++ r' -> a = b /\ r = r'.

Lemma prefix_flat_map {A} (P : A -> Prop) f : prefix_inj P f -> (forall a, f a <> []) ->
  forall l l', Forall P l -> Forall P l' -> flat_map f l = flat_map f l' -> l = l'.
Proof.
  intros PI NE. induction l as [|a l IH]; intros [|b l'] F F' E; auto; cbn in E.
  - symmetry in E. apply app_eq_nil in E as [E _]. now apply NE in E.
  - apply app_eq_nil in E as [E _]. now apply NE in E.
  - inversion F; inversion F'; subst. apply PI in E as [-> E]; auto. f_equal. now apply IH.
Qed.

Lemma b8_inj a b : a < 256 -> b < 256 -> b8 a = b8 b -> a = b.
Proof. intros A B E. rewrite <- (b8_to_N a), <- (b8_to_N b), E; auto. Qed.

Lemma slen_sbytes s : slen s = lenN (sbytes s).
Proof. unfold slen, lenN. now rewrite sbytes_length. Qed.

Lemma name_ok_len s : name_ok s -> 1 <= slen s <= 100.
Proof. intros (x & r & E & _ & _ & _ & L). rewrite slen_sbytes, E. unfold lenN in *. cbn [List.length] in *. lia. Qed.

Lemma prefix_name : prefix_inj name_ok commit_name.
Proof.
  intros a b r r' A B E. unfold commit_name in E. pose proof (name_ok_len a A). pose proof (name_ok_len b B).
  cbn [app] in E. injection E as E1 E2. rewrite !N.mod_small in E1 by lia. apply b8_inj in E1; [|lia|lia].
  apply app_split in E2 as [E2 ->]; [split; [now apply sbytes_inj|reflexivity]|].
  rewrite !slen_sbytes in E1. unfold lenN in E1. lia.
Qed.

Lemma prefix_id : prefix_inj id_ok commit_id.
Proof.
  intros a b r r' A B E. unfold commit_id, id_bytes in E. apply app_split in E as [E ->]; [|now rewrite !be_length].
  split; [|reflexivity]. apply (be_inj 32); auto.
Qed.

Lemma prefix_variant : prefix_inj variant_ok commit_variant.
Proof.
  intros [n t] [n' t'] r r' [A1 A2] [B1 B2] E. cbn in *. unfold commit_variant in E. cbn in E. rewrite <- !app_assoc in E.
  apply prefix_name in E as [-> E]; auto. cbn in E. injection E as E ->. apply b8_inj in E; auto. now subst.
Qed.

Lemma sizing_inj s s' : sizing_ok s -> sizing_ok s' -> commit_sizing s = commit_sizing s' -> s = s'.
Proof.
  destruct s as [a b], s' as [a' b']. intros [A B] [A' B'] E. unfold commit_sizing in E. cbn [s_min s_max] in *.
  apply app_split in E as [E1 E2]; [|now rewrite !le_length].
  apply (le_inj 8) in E1; auto. apply (le_inj 8) in E2; auto. now subst.
Qed.

Lemma cls_lt {R} (t : ty R) : cls t < 256.
Proof. destruct t; cbn; lia. Qed.

(** References with a self-delimiting commitment. *)
Lemma commit_ty_inj {R} (ok : R -> Prop) cr : prefix_inj ok cr -> (forall r, cr r <> []) ->
  forall t t', ty_ok ok t -> ty_ok ok t' -> commit_ty cr t = commit_ty cr t' -> t = t'.
Proof.
  intros PI NE t t' W W' E. unfold commit_ty in E. injection E as E1 E2. apply b8_inj in E1; [|apply cls_lt|apply cls_lt].
  destruct t, t'; try discriminate E1; cbn in W, W'; clear E1.
  - injection E2 as E2. apply b8_inj in E2; auto. now subst.
  - reflexivity.
  - f_equal. eapply prefix_flat_map; try eassumption; [apply prefix_variant|]. intros [n k]. discriminate.
  - f_equal. revert W W' E2. apply (prefix_flat_map (fun e => variant_ok (fst e) /\ ok (snd e))).
    + intros [v r] [v' r'] k k' [A1 A2] [B1 B2] E. cbn [fst snd] in *. change ((commit_variant v ++ cr r) ++ k = (commit_variant v' ++ cr r') ++ k') in E. rewrite <- (app_assoc (commit_variant v)), <- (app_assoc (commit_variant v')) in E.
      apply prefix_variant in E as [-> E]; auto. apply PI in E as [-> ->]; auto.
    + intros [[n k] r]. discriminate.
  - f_equal. eapply prefix_flat_map; eassumption.
  - f_equal. revert W W' E2. apply (prefix_flat_map (fun f => name_ok (fst f) /\ ok (snd f))).
    + intros [v r] [v' r'] k k' [A1 A2] [B1 B2] E. cbn [fst snd] in *. change ((commit_name v ++ cr r) ++ k = (commit_name v' ++ cr r') ++ k') in E. rewrite <- (app_assoc (commit_name v)), <- (app_assoc (commit_name v')) in E.
      apply prefix_name in E as [-> E]; auto. apply PI in E as [-> ->]; auto.
    + intros [n r]. discriminate.
  - destruct W, W'. apply PI in E2 as [-> E2]; auto. apply (le_inj 2) in E2; auto. now subst.
  - destruct W, W'. apply PI in E2 as [-> E2]; auto. apply sizing_inj in E2; auto. now subst.
  - destruct W, W'. apply PI in E2 as [-> E2]; auto. apply sizing_inj in E2; auto. now subst.
  - destruct W as (? & ? & ?), W' as (? & ? & ?). apply PI in E2 as [-> E2]; auto. apply PI in E2 as [-> E2]; auto.
    apply sizing_inj in E2; auto. now subst.
Qed.

Lemma commit_id_nonempty id : commit_id id <> [].
Proof. intros E. apply (f_equal (@List.length _)) in E. unfold commit_id, id_bytes in E. rewrite be_length in E. discriminate. Qed.

Lemma commit_flat t t' : ty_ok id_ok t -> ty_ok id_ok t' -> commit_ty commit_id t = commit_ty commit_id t' -> t = t'.
Proof. apply commit_ty_inj; [apply prefix_id|apply commit_id_nonempty]. Qed.

(** ** Hashes *)

Lemma tagged_hash_inj tag m m' : tagged_hash tag m = tagged_hash tag m' ->
  m = m' \/ collision (tagged_message tag m) (tagged_message tag m').
Proof.
  unfold tagged_hash, id_of_bytes. intros E.
  assert (S : sha256 (tagged_message tag m) = sha256 (tagged_message tag m')).
  { rewrite <- (be_unbe (sha256 (tagged_message tag m))), <- (be_unbe (sha256 (tagged_message tag m'))), E, !sha256_length. reflexivity. }
  destruct (list_eq_dec Byte.byte_eq_dec m m') as [->|N]; [now left|]. right. split; [|exact S].
  unfold tagged_message. intros Q. apply N. apply app_inv_head in Q. now apply app_inv_head in Q.
Qed.

Lemma tagged_hash_ok tag m : id_ok (tagged_hash tag m).
Proof.
  unfold id_ok, tagged_hash, id_of_bytes. pose proof (unbe_bound (sha256 (tagged_message tag m))) as B.
  unfold lenN in B. rewrite sha256_length in B. exact B.
Qed.

(** ** References by id *)

Lemma map_flat_map {A B C} (f : A -> B) (g : B -> list C) l : flat_map g (map f l) = flat_map (fun x => g (f x)) l.
Proof. induction l as [|x l IH]; cbn; [reflexivity|]. now rewrite IH. Qed.

Lemma commit_map_ty {R S} (f : R -> S) cr cs t : Forall (fun r => cr r = cs (f r)) (refs t) ->
  commit_ty cr t = commit_ty cs (map_ty f t).
Proof.
  intros F. unfold commit_ty. destruct t; cbn [map_ty cls refs] in *; auto; f_equal.
  - rewrite map_flat_map. cbn [fst snd]. induction vs as [|e vs IH]; [reflexivity|]. cbn in *. inversion F as [|? ? F1 F2]; subst.
    now rewrite F1, IH.
  - rewrite map_flat_map. induction fs as [|e vs IH]; [reflexivity|]. cbn in *. inversion F as [|? ? F1 F2]; subst.
    now rewrite F1, IH.
  - rewrite map_flat_map. cbn [fst snd]. induction fs as [|e vs IH]; [reflexivity|]. cbn in *. inversion F as [|? ? F1 F2]; subst.
    now rewrite F1, IH.
  - inversion F as [|? ? F1 F2]; subst. now rewrite F1.
  - inversion F as [|? ? F1 F2]; subst. now rewrite F1.
  - inversion F as [|? ? F1 F2]; subst. now rewrite F1.
  - inversion F as [|? ? F1 F2]; subst. inversion F2 as [|? ? F3 F4]; subst. now rewrite F1, F3.
Qed.

Lemma map_ty_ok {R S} (f : R -> S) (ok : R -> Prop) (ok' : S -> Prop) (t : ty R) : Forall (fun r => ok r -> ok' (f r)) (refs t) -> ty_ok ok t -> ty_ok ok' (map_ty f t).
Proof.
  intros F W. destruct t; cbn [map_ty ty_ok refs] in *; auto.
  - induction vs as [|e vs IH]; cbn in *; [constructor|]. inversion F; inversion W; subst. constructor; [cbn; intuition|auto].
  - induction fs as [|e vs IH]; cbn in *; [constructor|]. inversion F; inversion W; subst. constructor; auto.
  - induction fs as [|e vs IH]; cbn in *; [constructor|]. inversion F; inversion W; subst. constructor; [cbn; intuition|auto].
  - inversion F; intuition.
  - inversion F; intuition.
  - inversion F; intuition.
  - inversion F as [|? ? ? F2]; inversion F2; intuition.
Qed.

Lemma commit_by_id t t' : ty_ok libref_ok t -> ty_ok libref_ok t' -> by_id t -> by_id t' ->
  commit_ty commit_libref t = commit_ty commit_libref t' -> map_ty target t = map_ty target t'.
Proof.
  intros W W' B B' E. rewrite (@commit_map_ty lib_ref semid target commit_libref commit_id t) in E.
  - rewrite (@commit_map_ty lib_ref semid target commit_libref commit_id t') in E.
    + apply commit_flat in E; [exact E| |]; eapply map_ty_ok; try eassumption;
        (eapply Forall_impl; [|eassumption]); intros [i|id|e] N; cbn; tauto.
    + eapply Forall_impl; [|exact B']. intros [i|id|e] N; [destruct N|reflexivity|reflexivity].
  - eapply Forall_impl; [|exact B]. intros [i|id|e] N; [destruct N|reflexivity|reflexivity].
Qed.

(** ** Named and unnamed types *)

Lemma in_app_nth (a r pre post : bytes) x : a ++ r = pre ++ x :: post -> (List.length pre < List.length a)%nat -> In x a.
Proof.
  revert pre; induction a as [|y a IH]; intros [|z pre] E L; cbn in *; try lia.
  - injection E as <- _. now left.
  - injection E as <- E. right. eapply IH; [exact E|]. lia.
Qed.

Lemma name_chars s : name_ok s -> Forall name_char (sbytes s).
Proof. intros (x & r & -> & C & _ & F & _). now constructor. Qed.

(** The name, its first character taken for a length, covers the byte of the class. *)
Lemma name_no_name s (c : N) rest n rest' : name_ok s -> name_ok n -> slen s <= 10 -> c <= 10 ->
  sbytes s ++ b8 c :: rest = commit_name n ++ rest' -> False.
Proof.
  intros S N L C E. destruct S as (x & r & Es & _ & X & _ & _). rewrite slen_sbytes, Es in L. rewrite Es in E.
  unfold commit_name in E. cbn [app] in E. injection E as E1 E2.
  pose proof (name_ok_len n N) as LN. rewrite N.mod_small in E1 by lia.
  assert (X' : 65 <= slen n) by (rewrite E1 in X; rewrite b8_to_N in X; lia).
  assert (I : In (b8 c) (sbytes n)).
  { symmetry in E2. eapply in_app_nth; [exact E2|]. rewrite slen_sbytes in X'. unfold lenN in *. cbn [List.length] in L. lia. }
  pose proof (name_chars n N) as F. rewrite Forall_forall in F. specialize (F _ I). unfold name_char in F.
  rewrite b8_to_N in F by lia. lia.
Qed.

Lemma named_unnamed {R S} (cr : R -> bytes) (cs : S -> bytes) name (t : ty R) (u : ty S) oku :
  name_ok name -> ty_ok oku u ->
  match u with TPrim _ | TUnicode | TEnum _ | TUnion _ | TStruct _ => True | _ => False end ->
  sem_message cr (Some name) t <> sem_message cs None u.
Proof.
  intros N U K E. unfold sem_message in E. pose proof (name_ok_len name N) as L.
  unfold commit_name in E. cbn [app] in E. unfold commit_ty in E at 2. injection E as E1 E2.
  rewrite N.mod_small in E1 by lia. apply b8_inj in E1; [|lia|apply cls_lt].
  assert (T : cls t <= 10) by (destruct t; cbn; lia).
  unfold commit_ty in E2. 
  destruct u; try destruct K; cbn [cls] in E1; try lia; cbn in U.
  - apply (f_equal (@List.length _)) in E2. rewrite app_length in E2. cbn in E2. lia.
  - destruct vs as [|v vs]; cbn in E2.
    + apply (f_equal (@List.length _)) in E2. rewrite app_length in E2. cbn in E2. lia.
    + unfold commit_variant in E2. rewrite <- !app_assoc in E2. inversion U as [|? ? [V _] _]; subst.
      eapply name_no_name in E2; eauto. lia.
  - destruct vs as [|v vs]; cbn in E2.
    + apply (f_equal (@List.length _)) in E2. rewrite app_length in E2. cbn in E2. lia.
    + unfold commit_variant in E2. rewrite <- !app_assoc in E2. inversion U as [|? ? [[V _] _] _]; subst.
      eapply name_no_name in E2; eauto. lia.
  - destruct fs as [|v vs]; cbn [flat_map] in E2.
    + apply (f_equal (@List.length _)) in E2. rewrite app_length in E2. cbn in E2. lia.
    + inversion U as [|? ? [V _] _]; subst.
      rewrite <- app_comm_cons, <- app_assoc in E2.
      change (b8 (slen (fst v) mod 256) :: sbytes (fst v) ++ cs (snd v) ++ flat_map (fun f => commit_name (fst f) ++ cs (snd f)) vs)
        with (commit_name (fst v) ++ (cs (snd v) ++ flat_map (fun f => commit_name (fst f) ++ cs (snd f)) vs)) in E2.
      eapply name_no_name in E2; eauto. lia.
Qed.

(** ** Libraries and type systems *)

Lemma ids_inj {A} (f : A -> N) l : forall l', Forall (fun x => id_ok (f x)) l -> Forall (fun x => id_ok (f x)) l' ->
  List.length l = List.length l' -> forall r r', flat_map (fun x => id_bytes (f x)) l ++ r = flat_map (fun x => id_bytes (f x)) l' ++ r' ->
  map f l = map f l' /\ r = r'.
Proof.
  induction l as [|x l IH]; intros [|y l'] F F' L r r' E; try discriminate L; [auto|].
  inversion F; inversion F'; subst. cbn [flat_map] in E. rewrite <- !app_assoc in E.
  apply prefix_id in E as [E1 E2]; auto. destruct (IH l' ltac:(assumption) ltac:(assumption) ltac:(now injection L) _ _ E2) as [E3 ->].
  cbn. rewrite E1, E3. auto.
Qed.

Lemma lib_message_inj l l' : lib_ok l -> lib_ok l' -> lib_message l = lib_message l' ->
  l_name l = l_name l' /\ map d_id (l_deps l) = map d_id (l_deps l') /\ map lib_type_id (l_types l) = map lib_type_id (l_types l').
Proof.
  intros (N & D & T & I) (N' & D' & T' & I') E. unfold lib_message in E.
  apply prefix_name in E as [E1 E]; auto. apply app_split in E as [E2 E]; [|reflexivity]. injection E2 as E2.
  rewrite !N.mod_small in E2 by assumption. apply b8_inj in E2; auto.
  apply (ids_inj d_id) in E as [E3 E]; auto; [|unfold lenN in E2; lia].
  apply app_split in E as [E4 E]; [|now rewrite !le_length]. apply (le_inj 2) in E4; auto.
  rewrite <- (app_nil_r (flat_map _ (l_types l))), <- (app_nil_r (flat_map _ (l_types l'))) in E.
  apply (ids_inj lib_type_id) in E as [E5 _]; auto.
  - apply Forall_forall. intros x _. exact (tagged_hash_ok SEM_ID_TAG (sem_message commit_libref (Some (fst x)) (snd x))).
  - apply Forall_forall. intros x _. exact (tagged_hash_ok SEM_ID_TAG (sem_message commit_libref (Some (fst x)) (snd x))).
  - unfold lenN in E4. lia.
Qed.

Lemma sys_message_inj s s' : sys_ok s -> sys_ok s' -> sys_message s = sys_message s' -> map fst s = map fst s'.
Proof.
  intros [L I] [L' I'] E. unfold sys_message in E.
  apply app_split in E as [E4 E]; [|now rewrite !le_length]. apply (le_inj 3) in E4; auto.
  rewrite <- (app_nil_r (flat_map _ s)), <- (app_nil_r (flat_map _ s')) in E.
  apply (ids_inj fst) in E as [E5 _]; auto. unfold lenN, type_system, semid in *. lia.
Qed.

(** Checking names. *)
Definition name_charb (b : byte) : bool :=
  let y := Byte.to_N b in ((48 <=? y) && (y <=? 57)) || ((65 <=? y) && (y <=? 90)) || ((97 <=? y) && (y <=? 122)) || (y =? 95).
Definition name_okb (s : string) : bool :=
  match sbytes s with
  | [] => false
  | x :: r => name_charb x && (65 <=? Byte.to_N x) && forallb name_charb r && (lenN (x :: r) <=? 100)
  end.
Lemma name_charb_ok b : name_charb b = true -> name_char b.
Proof.
  unfold name_charb, name_char. rewrite !orb_true_iff, !andb_true_iff, !N.leb_le, N.eqb_eq. lia.
Qed.
Lemma name_okb_ok s : name_okb s = true -> name_ok s.
Proof.
  unfold name_okb, name_ok. destruct (sbytes s) as [|x r]; [discriminate|]. intros H. rewrite !andb_true_iff, !N.leb_le in H.
  destruct H as [[[A B] C] D]. exists x, r. split; [reflexivity|]. split; [now apply name_charb_ok|]. split; [exact B|].
  split; [|exact D]. rewrite forallb_forall in C. apply Forall_forall. intros y I. apply name_charb_ok. auto.
Qed.
Ltac name_tac := match goal with |- name_ok _ => apply name_okb_ok; vm_compute; reflexivity end.
