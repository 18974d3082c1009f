(** Decoding of types, libraries and type systems looks only at the data it consumes. *)
From Coq Require Import NArith List Bool String Strings.Byte Lia.
From Verif Require Import Base Sha256 Ty Ids TypeSys Typify LibCodec.
Import ListNotations.
Local Open Scope N_scope.

Definition local {A} (dec : bytes -> option (A * bytes)) : Prop :=
  forall b a r x, dec b = Some (a, r) -> dec (b ++ x)%list = Some (a, r ++ x)%list.

Lemma local_bind {A B} (d : bytes -> option (A * bytes)) (f : A -> bytes -> option (B * bytes)) :
  local d -> (forall a, local (f a)) -> local (fun b => obind (d b) (fun '(a, b) => f a b)).
Proof.
  intros D F b a r x H. destruct (d b) as [[a' b']|] eqn:E; cbn [obind] in H; [|discriminate H].
  rewrite (D _ _ _ x E). cbn [obind]. now apply F.
Qed.
Lemma local_ret {A} (a : A) : local (fun b => Some (a, b)).
Proof. intros b a' r x H. now injection H as <- <-. Qed.
Lemma local_none {A} : local (fun _ => @None (A * bytes)).
Proof. intros b a r x H. discriminate H. Qed.
Lemma local_if {A} (c : bool) (d e : bytes -> option (A * bytes)) : local d -> local e -> local (fun b => if c then d b else e b).
Proof. destruct c; auto. Qed.
Lemma local_take n : local (take n).
Proof.
  induction n as [|n IH]; intros b a r x H; cbn in *; [now injection H as <- <-|].
  destruct b as [|c b]; [discriminate H|]. cbn. destruct (take n b) as [[y z]|] eqn:T; [|discriminate H].
  injection H as <- <-. now rewrite (IH _ _ _ x T).
Qed.

Ltac local_auto :=
  repeat first
    [ assumption
    | eassumption
    | lazymatch goal with
      | |- local (fun b => obind (?d b) _) => apply (local_bind d)
      | |- local (fun b => Some (?a, b)) => apply local_ret
      | |- local (fun b => None) => apply local_none
      | |- local (fun b => if ?c then _ else _) => apply local_if
      | |- local (fun b => ?d b) => change (local d)
      | |- forall _, _ => intro
      | |- local (match ?p with _ => _ end) => destruct p
      | |- local (fun b => match ?p with _ => _ end) => destruct p
      end
    | progress cbn beta iota ].

Lemma local_uint k : local (dec_uint k).
Proof. unfold dec_uint. pose proof (local_take k). local_auto. Qed.
Lemma local_id : local dec_id.
Proof. unfold dec_id. pose proof (local_take 32). local_auto. Qed.
Lemma local_name v : local (dec_name v).
Proof.
  unfold dec_name. apply (local_bind (dec_uint 1)); [apply local_uint|]. intros n.
  apply (local_bind (take (N.to_nat n))); [apply local_take|]. local_auto.
Qed.
Lemma local_option {A} (d : bytes -> option (A * bytes)) : local d -> local (dec_option d).
Proof. intros D. unfold dec_option. apply (local_bind (dec_uint 1)); [apply local_uint|]. local_auto. Qed.
Lemma local_items {A} (d : bytes -> option (A * bytes)) n : local d -> local (dec_items d n).
Proof. intros D. induction n as [|n IH]; cbn [dec_items]; local_auto. Qed.
Lemma local_list {A} k lo hi (d : bytes -> option (A * bytes)) : local d -> local (dec_list k lo hi d).
Proof.
  intros D. unfold dec_list. apply (local_bind (dec_uint k)); [apply local_uint|]. intros n.
  apply (local_bind (dec_items d (N.to_nat n))); [now apply local_items|]. local_auto.
Qed.
Lemma local_entry {K V} (dk : bytes -> option (K * bytes)) (dv : bytes -> option (V * bytes)) : local dk -> local dv -> local (dec_entry dk dv).
Proof. intros D E. unfold dec_entry. local_auto. Qed.
Lemma local_sorted {K V} cmp (d : bytes -> option (K * V * bytes)) n : local d -> forall m, local (dec_sorted cmp d n m).
Proof.
  intros D. induction n as [|n IH]; intros m; cbn [dec_sorted]; [local_auto|].
  apply (local_bind d); [exact D|]. intros e. destruct (last_key m) as [k|]; [destruct (cmp (fst e) k)|]; try apply local_none; apply IH.
Qed.
Lemma local_tree {K V} cmp (d : bytes -> option (K * V * bytes)) n : local d -> forall m, local (dec_tree cmp d n m).
Proof.
  intros D. induction n as [|n IH]; intros m; cbn [dec_tree]; [local_auto|].
  apply (local_bind d); [exact D|]. intros e. destruct (last_key (bt_items m)) as [k|]; [destruct (cmp (fst e) k)|]; try apply local_none; apply IH.
Qed.
Lemma local_map {K V} k lo hi cmp (dk : bytes -> option (K * bytes)) (dv : bytes -> option (V * bytes)) :
  local dk -> local dv -> local (dec_map k lo hi cmp dk dv).
Proof.
  intros D E. unfold dec_map. apply (local_bind (dec_uint k)); [apply local_uint|]. intros n.
  apply (local_bind (dec_sorted cmp (dec_entry dk dv) (N.to_nat n) [])); [apply local_sorted; now apply local_entry|]. local_auto.
Qed.
Lemma local_unit : local dec_unit.
Proof. apply local_ret. Qed.
Lemma local_set {K} k lo hi cmp (dk : bytes -> option (K * bytes)) : local dk -> local (dec_set k lo hi cmp dk).
Proof.
  intros D. unfold dec_set. apply (local_bind (dec_map k lo hi cmp dk dec_unit)); [apply local_map; [exact D|apply local_unit]|]. local_auto.
Qed.
Lemma local_variant : local dec_variant.
Proof. unfold dec_variant. pose proof (local_name name_ok). pose proof (local_uint 1). local_auto. Qed.
Lemma local_variants : local dec_variants.
Proof.
  unfold dec_variants. apply (local_bind (dec_uint 1)); [apply local_uint|]. intros n.
  apply (local_bind (dec_tree variant_cmp (dec_entry dec_variant dec_unit) (N.to_nat n) bt_empty));
    [apply local_tree, local_entry; [apply local_variant|apply local_unit]|]. cbn zeta. local_auto.
Qed.
Lemma local_sizing : local dec_sizing.
Proof. unfold dec_sizing. pose proof (local_uint 8). local_auto. Qed.
Lemma local_union {R} (d : bytes -> option (R * bytes)) : local d -> local (dec_union d).
Proof.
  intros D. unfold dec_union.
  apply (local_bind (dec_map 1 0 u8_max N.compare (dec_uint 1) (dec_entry (dec_name name_ok) d)));
    [apply local_map; [apply local_uint|apply local_entry; [apply local_name|exact D]]|]. cbn zeta. local_auto.
Qed.
Lemma local_ty {R} (d : bytes -> option (R * bytes)) : local d -> local (dec_ty d).
Proof.
  intros D. unfold dec_ty. apply (local_bind (dec_uint 1)); [apply local_uint|]. intros tag.
  pose proof (local_uint 1). pose proof (local_uint 2). pose proof local_variants. pose proof (local_union d D). pose proof local_sizing.
  pose proof (local_list 1 1 u8_max d D).
  pose proof (local_list 1 1 u8_max _ (local_entry _ _ (local_name name_ok) D)). local_auto.
Qed.
Lemma local_extern : local dec_extern.
Proof. unfold dec_extern. pose proof local_id. local_auto. Qed.
Lemma local_ref2 : local dec_ref2.
Proof. unfold dec_ref2. pose proof (local_uint 1). pose proof local_id. pose proof local_extern. local_auto. Qed.
Lemma local_gref {I} (d : bytes -> option (I * bytes)) : local d -> local (dec_gref d).
Proof. intros D. unfold dec_gref. pose proof (local_uint 1). pose proof local_id. pose proof local_extern. local_auto. Qed.
Lemma local_libref : local dec_libref.
Proof. unfold dec_libref, dec_ref0, dec_ref1. repeat apply local_gref, local_ty. apply local_ref2. Qed.
Lemma local_symref : local dec_symref.
Proof. unfold dec_symref. pose proof (local_name tname_ok). pose proof local_id. local_auto. Qed.
Lemma local_tref n : local (dec_tref n).
Proof.
  induction n as [|n IH]; cbn [dec_tref]; [apply local_none|]. pose proof (local_ty _ IH). pose proof (local_uint 1).
  pose proof (local_name tname_ok). pose proof local_symref. local_auto.
Qed.
Lemma local_dep : local dec_dep.
Proof. unfold dec_dep. pose proof (local_name tname_ok). pose proof local_id. local_auto. Qed.
Lemma local_extern_types : local dec_extern_types.
Proof. unfold dec_extern_types. repeat apply local_map; try apply local_name. apply local_id. Qed.
Lemma local_lib : local dec_lib.
Proof.
  unfold dec_lib. pose proof (local_name tname_ok). pose proof (local_set 1 0 u8_max dep_cmp dec_dep local_dep). pose proof local_extern_types.
  pose proof (local_map 2 1 u16_max String.compare _ _ (local_name tname_ok) (local_ty _ local_libref)). local_auto.
Qed.
Lemma local_symlib n : local (dec_symlib n).
Proof.
  unfold dec_symlib. pose proof (local_name tname_ok). pose proof (local_set 1 0 u8_max dep_cmp dec_dep local_dep). pose proof local_extern_types.
  pose proof (local_map 8 1 u64_max String.compare _ _ (local_name tname_ok) (local_ty _ (local_tref n))). local_auto.
Qed.
Lemma local_sys : local dec_sys.
Proof. unfold dec_sys. apply local_map; [apply local_id|apply local_ty, local_id]. Qed.
Lemma local_fqn : local dec_fqn.
Proof. unfold dec_fqn. pose proof (local_name tname_ok). local_auto. Qed.
Lemma local_symbol : local dec_symbol.
Proof. unfold dec_symbol. pose proof local_id. pose proof (local_option _ local_fqn). local_auto. Qed.
Lemma local_symbols : local dec_symbols.
Proof.
  unfold dec_symbols. pose proof (local_set 2 0 u16_max dep_cmp dec_dep local_dep).
  pose proof (local_set 3 0 u24_max symbol_cmp dec_symbol local_symbol). local_auto.
Qed.
Lemma local_symsys : local dec_symsys.
Proof. unfold dec_symsys. pose proof local_symbols. pose proof local_sys. local_auto. Qed.

Lemma deserialize_ok {A} (dec : bytes -> option (A * bytes)) b a : deserialize dec b = Some a <-> dec b = Some (a, []).
Proof.
  unfold deserialize. destruct (dec b) as [[a' [|x r]]|]; cbn [obind]; split; intros H; try discriminate H; injection H as <-; reflexivity.
Qed.
Lemma local_free {A} (dec : bytes -> option (A * bytes)) b x a a' : local dec ->
  deserialize dec b = Some a -> deserialize dec (b ++ x)%list = Some a' -> x = [].
Proof.
  intros L H H'. apply deserialize_ok in H, H'. rewrite (L _ _ _ x H) in H'. now injection H'.
Qed.
