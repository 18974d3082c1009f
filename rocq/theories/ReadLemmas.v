(** Lemmas on deserialization: locality, fuel, soundness. *)
From Coq Require Import NArith ZArith List Bool String Ascii Strings.Byte Lia.
From Verif Require Import Base Ty Ids Val TypeSys Encode Decode DecodeShort Spec CodecLemmas RoundTrip.
Import ListNotations.
Local Open Scope N_scope.

(** ** Locality: the result depends only on the consumed bytes, all of which are needed *)

Definition local {A} (rd : bytes -> reading A) : Prop :=
  forall d v rest, rd d = Ok (v, rest) ->
    exists bs, d = bs ++ rest /\ (forall x, rd (bs ++ x) = Ok (v, x))
      /\ forall p q, bs = p ++ q -> q <> [] -> rd p = Err DEof.

Lemma bind_Ok {E A B} (o : outcome E A) (f : A -> outcome E B) b :
  bind o f = Ok b -> exists a, o = Ok a /\ f a = Ok b.
Proof. destruct o; cbn; try discriminate. eauto. Qed.

Lemma local_ret {A} (v : A) : local (fun d => Ok (v, d)).
Proof.
  intros d v' rest H. injection H as <- <-. exists []. split; [reflexivity|]. split; [reflexivity|].
  intros p q E N. symmetry in E. apply app_eq_nil in E as [_ ->]. now destruct N.
Qed.

Lemma app_split {A} (b1 b2 p q : list A) : b1 ++ b2 = p ++ q ->
  (exists q', q' <> [] /\ b1 = p ++ q') \/ (exists p', p = b1 ++ p' /\ b2 = p' ++ q).
Proof.
  revert p; induction b1 as [|x b1 IH]; intros p E; cbn in E.
  - right. exists p. auto.
  - destruct p as [|y p]; cbn in E.
    + left. exists (x :: b1). split; [discriminate|reflexivity].
    + injection E as <- E. destruct (IH _ E) as [[q' [N ->]]|[p' [-> ->]]]; [left; now exists q'|right; now exists p'].
Qed.

Lemma local_bind {A B} (rd : bytes -> reading A) (k : A -> bytes -> reading B) :
  local rd -> (forall a, local (k a)) -> local (fun d => let* (a, d) := rd d in k a d).
Proof.
  intros L1 L2 d v rest H. apply bind_Ok in H as [[a d'] [H1 H2]].
  apply L1 in H1 as [b1 [-> [R1 T1]]]. apply L2 in H2 as [b2 [-> [R2 T2]]].
  exists (b1 ++ b2). split; [now rewrite app_assoc|]. split.
  - intros x. rewrite <- app_assoc, R1. cbn. apply R2.
  - intros p q E N. apply app_split in E as [[q' [N' ->]]|[p' [-> ->]]].
    + now rewrite (T1 p q').
    + rewrite R1. cbn. now apply (T2 p' q).
Qed.

Lemma local_const {A B} (o : outcome dec_error A) (k : A -> bytes -> reading B) :
  (forall a, o = Ok a -> local (k a)) -> local (fun d => let* a := o in k a d).
Proof.
  intros L d v rest H. destruct o; cbn in *; try discriminate. eapply L; eauto.
Qed.

Lemma local_fail {A} (o : reading A) : (forall x, o <> Ok x) -> local (fun _ => o).
Proof. intros H d v rest E. exfalso. eapply H; eauto. Qed.

Lemma local_take k : local (fun d => ok_or (take k d) DEof).
Proof.
  intros d v rest H. destruct (take k d) as [[a b]|] eqn:E; [|discriminate].
  injection H as <- <-. apply take_Some in E as [-> <-].
  exists a. split; [reflexivity|]. split; [intros x; now rewrite take_app|].
  intros p q -> N. destruct (take _ p) as [[p1 p2]|] eqn:E; [|reflexivity].
  apply take_Some in E as [-> L]. rewrite !app_length in L. destruct q; [now destruct N|cbn in L; lia].
Qed.

Lemma local_ext {A} (f g : bytes -> reading A) : (forall d, f d = g d) -> local f -> local g.
Proof.
  intros E L d v rest H. rewrite <- E in H. apply L in H as [bs [-> [R T]]].
  exists bs. split; [reflexivity|]. split; [intros x; now rewrite <- E|].
  intros p q H N. rewrite <- E. eauto.
Qed.

Lemma local_uint k : local (read_uint k).
Proof.
  unfold read_uint. apply (local_bind (fun d => ok_or (take k d) DEof) (fun b d => Ok (unle b, d))).
  - apply local_take.
  - intros. apply local_ret.
Qed.

Lemma local_raw c len : local (read_raw c len).
Proof.
  unfold read_raw. apply (local_const (alloc c len) (fun _ d => ok_or (take (N.to_nat len) d) DEof)).
  intros. apply local_take.
Qed.

Lemma local_guard {A} (b : bool) (v : A) e : local (fun d => if b then Ok (v, d) else Err e).
Proof. destruct b; [apply local_ret|apply local_fail; discriminate]. Qed.

Lemma local_ascii c sz : local (read_ascii c sz).
Proof.
  unfold read_ascii. apply (local_bind (read_len sz) (fun len d => let* (b, d) := read_raw c len d in
    if ascii_bytes b then Ok (VStr (bstring b), d) else Err DInvalidString)).
  - apply local_uint.
  - intros len. apply (local_bind (read_raw c len) (fun b d =>
      if ascii_bytes b then Ok (VStr (bstring b), d) else Err DInvalidString)).
    + apply local_raw.
    + intros. apply local_guard.
Qed.

Lemma local_string c sz : local (read_string c sz).
Proof.
  unfold read_string. apply (local_bind (read_len sz) (fun len d => let* (b, d) := read_raw c len d in
    if utf8_valid b then Ok (VStr (bstring b), d) else Err DInvalidString)).
  - apply local_uint.
  - intros len. apply (local_bind (read_raw c len) (fun b d =>
      if utf8_valid b then Ok (VStr (bstring b), d) else Err DInvalidString)).
    + apply local_raw.
    + intros. apply local_guard.
Qed.

Lemma local_blob c sz : local (read_blob c sz).
Proof.
  unfold read_blob. apply (local_bind (read_len sz) (fun len d => let* (b, d) := read_raw c len d in
    Ok (VBytes b, d))).
  - apply local_uint.
  - intros len. apply (local_bind (read_raw c len) (fun b d => Ok (VBytes b, d))).
    + apply local_raw.
    + intros. apply local_ret.
Qed.

Lemma local_map {A B} (f : A -> B) rd : local rd -> local (fun d => let* (n, d) := rd d in Ok (f n, d)).
Proof. intros L. apply (local_bind rd (fun n d => Ok (f n, d))); [assumption|]. intros. apply local_ret. Qed.

Lemma local_prim p : local (read_prim p).
Proof.
  unfold read_prim. cbv zeta.
  repeat match goal with
  | |- local (fun d => if ?b then _ else _) => destruct b
  end; try apply local_ret; try (apply local_fail; discriminate);
  try (apply (local_map (fun n => VNum (Uint n))), local_uint).
  all: apply (local_map (fun z => VNum (Int z))); unfold read_int; apply (local_map (untwos _)), local_uint.
Qed.

Lemma local_n {A} (rd : bytes -> reading A) n : local rd -> local (read_n rd n).
Proof.
  intros L. induction n; [apply local_ret|]. cbn [read_n].
  apply (local_bind rd (fun x d => let* (xs, d) := read_n rd n d in Ok (x :: xs, d))); [assumption|].
  intros x. apply (local_map (cons x)). assumption.
Qed.

Lemma local_seq {A B} (rd : A -> bytes -> reading B) l : (forall a, local (rd a)) -> local (read_seq rd l).
Proof.
  intros L. induction l as [|a l IH]; [apply local_ret|]. cbn [read_seq].
  apply (local_bind (rd a) (fun x d => let* (xs, d) := read_seq rd l d in Ok (x :: xs, d))); [apply L|].
  intros x. apply (local_map (cons x)). assumption.
Qed.

Lemma local_ty rec c sys id t : (forall id, local (rec id)) -> local (read_ty rec c sys id t).
Proof.
  intros L. apply (local_ext (short_ty rec c sys id t)); [intros d; symmetry; apply short_read|].
  destruct t; cbv beta iota delta [short_ty].
  - apply local_prim.
  - apply local_fail. discriminate.
  - apply (local_bind (read_uint 1) (fun tag d => let* name := ok_or (ev_name_by_tag vs tag) (DTagNotKnown id tag) in
      Ok (VEnum (Name name), d))); [apply local_uint|].
    intros tag. apply (local_const (ok_or (ev_name_by_tag vs tag) (DTagNotKnown id tag)) (fun name d => Ok (VEnum (Name name), d))).
    intros. apply local_ret.
  - apply (local_bind (read_uint 1) (fun tag d => let* e := ok_or (uv_by_tag vs tag) (DTagNotKnown id tag) in
      let* (v, d) := rec (snd e) d in Ok (VUnion (Name (v_name (fst e))) v, d))); [apply local_uint|].
    intros tag. apply (local_const (ok_or (uv_by_tag vs tag) (DTagNotKnown id tag)) (fun e d =>
      let* (v, d) := rec (snd e) d in Ok (VUnion (Name (v_name (fst e))) v, d))).
    intros e _. apply (local_map (fun v => VUnion (Name (v_name (fst e))) v)). apply L.
  - apply (local_const (lift_unknown (is_rstring c sys fs)) (fun (rs : bool) d => if rs then
        let* o := lift_unknown (rstring_sizing c sys fs) in
        let* p := expect o in
        read_ascii c (snd p) d
      else
        let* (l, d) := read_seq rec fs d in
        Ok (VTuple l, d))).
    intros [] _.
    + apply (local_const (lift_unknown (rstring_sizing c sys fs)) (fun o d =>
        let* p := expect o in read_ascii c (snd p) d)).
      intros o _. apply (local_const (expect o) (fun p d => read_ascii c (snd p) d)).
      intros. apply local_ascii.
    + apply (local_map VTuple). now apply local_seq.
  - apply (local_map (fun l => VStruct (fold_left (fun m e => imap_insert (fst e) (snd e) m) l []))).
    apply local_seq. intros f. apply (local_map (fun v => (fst f, v))). apply L.
  - destruct (is_byte_id r).
    + apply (local_map VBytes (read_raw c len)). apply local_raw.
    + apply (local_const (alloc c len) (fun _ d => let* (l, d) := read_n (rec r) (N.to_nat len) d in Ok (VList l, d))).
      intros. apply (local_map VList). now apply local_n.
  - apply (local_const (ok_or (sys_find sys r) (DTypeAbsent id)) (fun rt d =>
      if char_enum rt then read_ascii c s d
      else if is_byte_id r && (s_max s <=? u32_max) then read_blob c s d
      else if is_unicode_id r && (s_max s <=? u32_max) then read_string c s d
      else
        let* (len, d) := read_len s d in
        let* (l, d) := read_list rec c len r d in
        Ok (VList l, d))).
    intros rt _. destruct (char_enum rt); [apply local_ascii|].
    destruct (_ && _); [apply local_blob|]. destruct (_ && _); [apply local_string|].
    apply (local_bind (read_len s) (fun len d => let* (l, d) := read_list rec c len r d in Ok (VList l, d))); [apply local_uint|].
    intros len. apply (local_map VList). unfold read_list.
    apply (local_const (alloc c len) (fun _ d => read_n (rec r) (N.to_nat len) d)). intros. now apply local_n.
  - apply (local_bind (read_len s) (fun len d => let* (l, d) := read_list rec c len r d in Ok (VSet l, d))); [apply local_uint|].
    intros len. apply (local_map VSet). unfold read_list.
    apply (local_const (alloc c len) (fun _ d => read_n (rec r) (N.to_nat len) d)). intros. now apply local_n.
  - apply (local_bind (read_len s) (fun len d => let* (l, d) := read_map rec c len k r d in Ok (VMap l, d))); [apply local_uint|].
    intros len. apply (local_map VMap). unfold read_map.
    apply (local_const (alloc c len) (fun _ d => read_n (fun d => let* (k, d) := rec k d in let* (v, d) := rec r d in Ok ((k, v), d)) (N.to_nat len) d)).
    intros. apply local_n. apply (local_bind (rec k) (fun kv d => let* (v, d) := rec r d in Ok ((kv, v), d))); [apply L|].
    intros kv. apply (local_map (fun v => (kv, v))). apply L.
Qed.

Lemma local_read_type fuel c sys id : local (read_type fuel c sys id).
Proof.
  revert id; induction fuel; intros id; cbn [read_type].
  - apply local_fail. discriminate.
  - apply (local_const (ok_or (sys_find sys id) (DTypeAbsent id)) (fun t d => read_ty (read_type fuel c sys) c sys id t d)).
    intros. now apply local_ty.
Qed.

(** ** More fuel does not change a result *)

Definition le_out {E A} (a b : outcome E A) : Prop := a <> Diverge -> b = a.

Lemma le_out_refl {E A} (a : outcome E A) : le_out a a.
Proof. now intros _. Qed.

Lemma le_out_bind {E A B} (a b : outcome E A) (f g : A -> outcome E B) :
  le_out a b -> (forall x, le_out (f x) (g x)) -> le_out (bind a f) (bind b g).
Proof.
  intros H1 H2 N. destruct a; cbn in *; try (rewrite H1 by discriminate; reflexivity); [|easy].
  rewrite H1 by discriminate. cbn. now apply H2.
Qed.

Lemma le_out_n {A} (r s : bytes -> reading A) n d :
  (forall d, le_out (r d) (s d)) -> le_out (read_n r n d) (read_n s n d).
Proof.
  intros H. revert d; induction n; intros d; [apply le_out_refl|]. cbn [read_n].
  apply le_out_bind; [apply H|]. intros [x d']. apply le_out_bind; [apply IHn|].
  intros []. apply le_out_refl.
Qed.

Lemma le_out_seq {A B} (r s : A -> bytes -> reading B) l d :
  (forall a d, le_out (r a d) (s a d)) -> le_out (read_seq r l d) (read_seq s l d).
Proof.
  intros H. revert d; induction l; intros d; [apply le_out_refl|]. cbn [read_seq].
  apply le_out_bind; [apply H|]. intros [x d']. apply le_out_bind; [apply IHl|].
  intros []. apply le_out_refl.
Qed.

Ltac le_out_tac :=
  repeat first
    [ apply le_out_refl
    | match goal with
      | H : forall id d, le_out (?r id d) (?s id d) |- le_out (?r _ _) (?s _ _) => apply H
      | |- le_out (bind _ _) (bind _ _) => apply le_out_bind; [|intros]
      | |- le_out (if ?b then _ else _) _ => destruct b
      | |- le_out (let (_, _) := ?p in _) _ => destruct p
      | |- le_out (read_n _ _ _) _ => apply le_out_n; intros
      | |- le_out (read_seq _ _ _) _ => apply le_out_seq; intros
      end ].

Lemma le_out_ty rec rec' c sys id t d :
  (forall id d, le_out (rec id d) (rec' id d)) -> le_out (read_ty rec c sys id t d) (read_ty rec' c sys id t d).
Proof.
  intros H. rewrite !short_read. destruct t; cbn [short_ty]; unfold read_list, read_map; le_out_tac.
Qed.

Lemma read_type_mono f1 f2 c sys id d : (f1 <= f2)%nat ->
  le_out (read_type f1 c sys id d) (read_type f2 c sys id d).
Proof.
  revert f2 id d; induction f1; intros f2 id d L; [now intros H; cbn in H|].
  destruct f2; [lia|]. cbn [read_type]. apply le_out_bind; [apply le_out_refl|].
  intros t. apply le_out_ty. intros. apply IHf1. lia.
Qed.

Lemma read_type_agree f1 f2 c sys id d r1 r2 :
  read_type f1 c sys id d = r1 -> read_type f2 c sys id d = r2 -> r1 <> Diverge -> r2 <> Diverge -> r1 = r2.
Proof.
  intros <- <- N1 N2. destruct (Nat.le_ge_cases f1 f2) as [L|L].
  - symmetry. now apply read_type_mono.
  - now apply read_type_mono.
Qed.
