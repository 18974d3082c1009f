(** Properties of the operations on types given by name: C73. *)
From Coq Require Import NArith ZArith List Bool String Strings.Byte Lia.
From Verif Require Import Base Ty Ids Val TypeSys Encode Decode Typify ExampleSys SpecUtf8 Spec SpecIds LibCodec SpecLib Build SpecBuild SpecWire SpecTypify
  Compile Transpile SpecTranspile SpecRust Text SpecText ByName SpecByName BuildProofs BuildProofs2 TranspileProofs TranspileProofs3 PropBuild PropTypify PropTranspile PropWire PropText PropRust.
Import ListNotations.
Local Open Scope string_scope.
Local Open Scope N_scope.
Local Opaque tagged_hash.

(** ** C73: a type given by its full name is the type of this name *)

Lemma found_deserialize fuel c s p id data : to_sem_id s p = Some id ->
  sym_deserialize fuel c s p data = by_id (strict_deserialize_type fuel c (ss_types s) id data).
Proof. unfold sym_deserialize. now intros ->. Qed.
Lemma by_id_ok {E A} (o : outcome E A) a : by_id o = Ok a <-> o = Ok a.
Proof. destruct o; cbn; split; intros H; try discriminate H; congruence. Qed.

Lemma same_by_id {E A} (o : outcome E A) : same_result o (by_id o).
Proof. destruct o; cbn; auto. Qed.
Lemma same_ok {E A} (o : outcome E A) o' a : same_result o o' -> (o' = Ok a <-> o = Ok a).
Proof. destruct o, o' as [|[]| |]; cbn; intros H; try contradiction H; split; intros X; try discriminate X; congruence. Qed.
(** A name is resolved to the id of a type with this name, and its definition is found; or else it is unknown to all
    operations. *)
Theorem C73 : forall dbg ls s q, build dbg ls = Ok s ->
  (exists l t, In l ls /\ l_name l = q_lib q /\ In (q_name q, t) (l_types l)
    /\ let id := lib_type_id (q_name q, t) in
       sym_get s (SpecName q) = Some (map_ty libref_id t) /\ sym_type_tree s (SpecName q) = Some id
       /\ (forall fuel c data, same_result (strict_deserialize_type fuel c (ss_types s) id data) (sym_deserialize fuel c s (SpecName q) data))
       /\ (forall fuel c data, same_result (strict_read_type fuel c (ss_types s) id data) (sym_read fuel c s (SpecName q) data))
       /\ (forall fuel v, same_result (typify fuel (ss_types s) v id) (sym_typify fuel s v (SpecName q)))
       /\ (type_name (q_lib q) -> type_name (q_name q) -> symbols_index (ss_symbols s) (show_fqn q) = Ok id))
  \/ (sym_get s (SpecName q) = None /\ sym_type_tree s (SpecName q) = None
      /\ (forall fuel c data, sym_deserialize fuel c s (SpecName q) data = Err (SpecAbsent (SpecName q)))
      /\ (forall fuel c data, sym_read fuel c s (SpecName q) data = Err (SpecAbsent (SpecName q)))
      /\ (forall fuel v, sym_typify fuel s v (SpecName q) = Err (SpecAbsent (SpecName q)))
      /\ (type_name (q_lib q) -> type_name (q_name q) -> symbols_index (ss_symbols s) (show_fqn q) = Panic)).
Proof.
  intros dbg ls s q B. destruct (resolve (ss_symbols s) q) as [id|] eqn:R.
  - left. destruct (C44 dbg ls s q id B R) as (_ & l & t & Il & N & It & E & G). exists l, t. split; [exact Il|]. split; [now symmetry|].
    split; [exact It|]. cbn zeta. rewrite E. unfold sym_get, sym_type_tree, sym_deserialize, sym_read, sym_typify, symbols_index, to_sem_id. rewrite R, G.
    cbn [ok_or bind]. repeat split; auto using same_by_id. intros L M. rewrite C66_read by assumption. cbn [bind]. now rewrite R.
  - right. unfold sym_get, sym_type_tree, sym_deserialize, sym_read, sym_typify, symbols_index, to_sem_id. rewrite R. repeat split; auto.
    intros L M. rewrite C66_read by assumption. cbn [bind]. now rewrite R.
Qed.
Print Assumptions C73.

(** The same for a type given by its id, whether the id is known or not. *)
Theorem C73_ids : forall s id,
  sym_get s (SpecId id) = sys_get (ss_types s) id /\ (sym_type_tree s (SpecId id) = Some id <-> sys_get (ss_types s) id <> None)
  /\ (forall fuel c data, same_result (strict_deserialize_type fuel c (ss_types s) id data) (sym_deserialize fuel c s (SpecId id) data))
  /\ (forall fuel c data, same_result (strict_read_type fuel c (ss_types s) id data) (sym_read fuel c s (SpecId id) data))
  /\ (forall fuel v, same_result (typify fuel (ss_types s) v id) (sym_typify fuel s v (SpecId id))).
Proof.
  intros s id. unfold sym_get, sym_type_tree, sym_deserialize, sym_read, sym_typify, to_sem_id. cbn [ok_or bind].
  split; [reflexivity|]. split; [|repeat split; auto using same_by_id]. destruct (sys_get (ss_types s) id); split; intros H; congruence.
Qed.
Print Assumptions C73_ids.

(** A type with its name: the name is one which a library gives to the type with this id. *)
Theorem C73_symbol : forall dbg ls s id, build dbg ls = Ok s ->
  ts_id (to_symbol s id) = id
  /\ (forall q, ts_fqn (to_symbol s id) = Some q ->
        exists l t, In l ls /\ l_name l = q_lib q /\ In (q_name q, t) (l_types l) /\ lib_type_id (q_name q, t) = id)
  /\ (forall l name t, In l ls -> In (name, t) (l_types l) -> lib_type_id (name, t) = id ->
        (forall d, In d (libs_defs ls) -> def_id d = id -> def_fqn d = Some (mkFqn (l_name l) name)) ->
        ts_fqn (to_symbol s id) = Some (mkFqn (l_name l) name)).
Proof.
  intros dbg ls s id B. split; [reflexivity|]. split.
  - intros q L. cbn [to_symbol ts_fqn] in L.
    destruct (build_eq dbg ls) as (b & BB & Eb). rewrite Eb in B. destruct (finalize_ok _ _ _ _ BB B) as (_ & _ & _ & ->). cbn [ss_types ss_symbols] in *.
    pose proof (built_sorted _ _ BB) as S. apply lookup_plain in L; [|exact S].
    unfold plain_symbols in L. apply in_map_iff in L as ([k i] & [= -> X] & I). cbn in X.
    assert (D : In (id, i) (libs_defs ls)) by (now apply (types_In _ b)).
    unfold libs_defs in D. apply in_flat_map in D as (l & Il & D). unfold lib_defs in D. apply in_flat_map in D as ([n t] & It & D).
    unfold type_defs in D. apply in_app_or in D as [D|D].
    + exfalso. apply in_flat_map in D as (r & _ & D). cbn in X. destruct r as [t0|?|?]; try destruct D.
      cbn in D. apply in_app_or in D as [D|[[= _ <-]|[]]]; [|discriminate X].
      apply in_flat_map in D as (r & _ & D). destruct r as [t1|?|?]; try destruct D.
      cbn in D. apply in_app_or in D as [D|[[= _ <-]|[]]]; [|discriminate X].
      apply in_flat_map in D as (r & _ & D). destruct r as [t2|?|?]; try destruct D.
      * injection H as _ <-. discriminate X.
      * destruct H.
    + destruct D as [D|[]]. apply pair_equal_spec in D as [<- D]. subst i. cbn [st_orig fst] in X. injection X as <-. exists l, t. cbn [q_lib q_name fst snd]. auto.
  - intros l name t Il It <- U. cbn [to_symbol ts_fqn]. destruct (C25_partial dbg ls s l name t B Il It) as (_ & _ & R). now apply R.
Qed.
Print Assumptions C73_symbol.

(** No other name is accepted ... *)
Theorem C73_absent : forall dbg ls s q, build dbg ls = Ok s -> ~ defined_name ls q ->
  (forall fuel c data, sym_deserialize fuel c s (SpecName q) data = Err (SpecAbsent (SpecName q)))
  /\ (forall fuel v, sym_typify fuel s v (SpecName q) = Err (SpecAbsent (SpecName q)))
  /\ sym_get s (SpecName q) = None /\ sym_type_tree s (SpecName q) = None.
Proof.
  intros dbg ls s q B N. destruct (C73 dbg ls s q B) as [(l & t & Il & E & It & _)|(A1 & A2 & A3 & _ & A4 & _)]; [|auto].
  destruct N. now exists l, t.
Qed.
Print Assumptions C73_absent.

(** ... and each name is found which has its definition for itself. *)
Lemma only_resolved dbg ls s l name t : build dbg ls = Ok s -> In l ls -> In (name, t) (l_types l) ->
  only_name ls (mkFqn (l_name l) name) (lib_type_id (name, t)) ->
  resolve (ss_symbols s) (mkFqn (l_name l) name) = Some (lib_type_id (name, t)).
Proof.
  intros B Il It O. destruct (C25_partial dbg ls s l name t B Il It) as (_ & _ & R). apply R; intros d I E; now apply (O d I).
Qed.
Theorem C73_found_partial : forall dbg ls s l name t, build dbg ls = Ok s -> In l ls -> In (name, t) (l_types l) ->
  let q := mkFqn (l_name l) name in
  let id := lib_type_id (name, t) in
  only_name ls q id ->
  (consistent (libs_defs ls) -> sym_get s (SpecName q) = Some (map_ty libref_id t)) /\ sym_type_tree s (SpecName q) = Some id
  /\ (forall fuel c data, same_result (strict_deserialize_type fuel c (ss_types s) id data) (sym_deserialize fuel c s (SpecName q) data))
  /\ (forall fuel c data, same_result (strict_read_type fuel c (ss_types s) id data) (sym_read fuel c s (SpecName q) data))
  /\ (forall fuel v, same_result (typify fuel (ss_types s) v id) (sym_typify fuel s v (SpecName q))).
Proof.
  intros dbg ls s l name t B Il It q id O. pose proof (only_resolved dbg ls s l name t B Il It O) as R. fold q id in R.
  destruct (C44 dbg ls s q id B R) as (_ & l' & t' & _ & _ & _ & _ & G). destruct (C25_partial dbg ls s l name t B Il It) as (_ & D & _).
  unfold sym_get, sym_type_tree, sym_deserialize, sym_read, sym_typify, to_sem_id. rewrite R. cbn [ok_or bind]. fold id in D. rewrite G in *. repeat split; auto using same_by_id.
Qed.
Print Assumptions C73_found_partial.

(** So values may be given in any notation for a type named by a text, are written, and read by the same name ... *)
Theorem C73_value_partial : forall dbg ls s l name t, build dbg ls = Ok s -> In l ls -> In (name, t) (l_types l) ->
  let q := mkFqn (l_name l) name in
  let id := lib_type_id (name, t) in
  only_name ls q id -> type_name (l_name l) -> type_name name ->
  forall c ce v w, wf_sys (ss_types s) -> known_ids (ss_types s) -> denotes c (ss_types s) id v w ->
  spec_of_text (show_fqn q) = Ok (SpecName q)
  /\ exists tv bs, returns (fun fuel => sym_typify fuel s v (SpecName q)) (Ok tv)
    /\ (forall max_len, lenN bs <= max_len -> strict_serialize_value max_len ce (ss_types s) tv = Ok bs)
    /\ (lenN bs <= u32_max -> returns (fun fuel => sym_deserialize fuel c s (SpecName q) bs) (Ok (mkTyped id w))).
Proof.
  intros dbg ls s l name t B Il It q id O L M c ce v w W K D. split; [unfold spec_of_text; now rewrite (C66_read q L M)|].
  destruct (C73_found_partial dbg ls s l name t B Il It O) as (_ & _ & FD & _ & FT). fold q id in FD, FT.
  destruct (C41_notations c ce (ss_types s) id v w W K D) as (_ & tv & bs & [n T] & S & R). exists tv, bs. split; [|split].
  - exists n. intros fuel F. apply (same_ok _ _ _ (FT fuel v)). now rewrite T.
  - intros max_len X. now apply S.
  - intros X. destruct (R X) as [m P]. exists m. intros fuel F. apply (same_ok _ _ _ (FD fuel c bs)). now rewrite P.
Qed.
Print Assumptions C73_value_partial.

(** ... and data of Rust programs are read by the name of the Rust type. *)
Theorem C73_rust_partial : forall dbg jobs ls sys, Forall2 (derived_by dbg) jobs ls -> covered jobs -> consistent (libs_defs ls) ->
  build dbg ls = Ok sys -> wf_sys (ss_types sys) -> known_ids (ss_types sys) ->
  forall j t lib n, In j jobs -> In t (j_types j) -> st_name (meaning t) = Some (lib, n) -> readable t ->
  let q := mkFqn lib n in
  only_name ls q (st_id (meaning t)) ->
  forall c v data,
  returns (fun fuel => sym_deserialize fuel c sys (SpecName q) data) (Ok (mkTyped (st_id (meaning t)) v))
  <-> written (cap c) t v data /\ lenN data <= u32_max.
Proof.
  intros dbg jobs ls sys F CV CON B W K j t lib n J I N R q O c v data.
  assert (IV : involved (j_types j) (meaning t)) by (exists t; split; [exact I|constructor]).
  destruct (CV j (meaning t) lib n J IV N) as (j' & J' & <- & IV').
  destruct (CompileProofs.Forall2_In_l _ _ _ _ F J') as (l & Il & T & D).
  destruct (C54_partial _ _ _ _ _ T D) as (LN & _ & _ & DEF & _). destruct (DEF (meaning t) n IV' N) as (d & Id & E & _).
  assert (FD : forall fuel, same_result (strict_deserialize_type fuel c (ss_types sys) (st_id (meaning t)) data) (sym_deserialize fuel c sys (SpecName q) data)).
  { intros fuel. unfold q in *. rewrite <- LN, <- E in *. now apply (C73_found_partial dbg ls sys l n d B Il Id O). }
  rewrite <- (C72_read_partial c (ss_types sys) t W K (C72_described dbg jobs ls sys F CV CON B j _ _ _ t J IV N (part_self _)) R v data).
  split; intros [m H]; exists m; intros fuel L; specialize (H fuel L); now apply (same_ok _ _ _ (FD fuel)).
Qed.
Print Assumptions C73_rust_partial.

Lemma only_by ls q id : forallb (fun d => Bool.eqb (def_id d =? id) (match def_fqn d with Some p => fqn_eqb p q | None => false end)) (libs_defs ls) = true ->
  only_name ls q id.
Proof.
  intros F d I. rewrite forallb_forall in F. apply F in I. apply eqb_prop in I. split.
  - intros E. apply N.eqb_eq in E. rewrite E in I. destruct (def_fqn d) as [p|]; [|discriminate I]. symmetry in I. apply fqn_eqb_eq in I. now subst.
  - intros E. rewrite E in I. apply N.eqb_eq. rewrite I. now apply fqn_eqb_eq.
Qed.
Definition ex_kind_def : ty lib_ref := TEnum [mkVariant "small" 1; mkVariant "big" 7].
Definition ex_all : list type_lib := [ex_own; ex_other].
Example C73_case : exists sys, build true ex_all = Ok sys /\ Forall2 (derived_by true) ex_jobs ex_all /\ covered ex_jobs /\ consistent (libs_defs ex_all)
  /\ wf_sys (ss_types sys) /\ known_ids (ss_types sys)
  /\ only_name ex_all (mkFqn "Own" "Area") (st_id (meaning ex_area)) /\ readable ex_area /\ written 1000 ex_area ex_value ex_data
  /\ In ("Kind", ex_kind_def) (l_types ex_own) /\ only_name ex_all (mkFqn "Own" "Kind") (lib_type_id ("Kind", ex_kind_def))
  /\ (forall c, denotes c (ss_types sys) (lib_type_id ("Kind", ex_kind_def)) (VNum (Uint 7)) (VEnum (Name "big")))
  /\ ~ defined_name ex_all (mkFqn "Own" "Word").
Proof.
  destruct C72_case as (sys & B & W & K & _ & R & WR). destruct C58_case as (F & CV & CON & _). exists sys.
  assert (IK : In ("Kind", ex_kind_def) (l_types ex_own)) by (right; now left).
  assert (IO : In ex_own ex_all) by now left.
  destruct (C25_partial true ex_all sys ex_own "Kind" ex_kind_def B IO IK) as (_ & G & _). specialize (G CON).
  split; [exact B|]. split; [exact F|]. split; [exact CV|]. split; [exact CON|]. split; [exact W|]. split; [exact K|].
  split; [apply only_by; vm_compute; reflexivity|]. split; [exact R|]. split; [exact WR|]. split; [exact IK|].
  split; [apply only_by; vm_compute; reflexivity|]. split.
  - intros c. apply get_found in G. apply (DN_enum c (ss_types sys) _ [mkVariant "small" 1; mkVariant "big" 7] (mkVariant "big" 7)).
    + exact G.
    + right. now left.
    + right. right. now left.
  - intros (l & t & [<-|[<-|[]]] & N & I); cbn [q_lib q_name] in *; [|discriminate N].
    cbn in I. repeat (destruct I as [I|I]; [discriminate I|]). destruct I.
Qed.

Example C73_symbol_case : exists sys, build true ex_all = Ok sys
  /\ to_symbol sys (lib_type_id ("Kind", ex_kind_def)) = mkSymbol (lib_type_id ("Kind", ex_kind_def)) (Some (mkFqn "Own" "Kind")).
Proof. eexists. split; vm_compute; reflexivity. Qed.

(** The full statement fails: the name of a type is lost when a library imported later has an identical type. Then its
    data are read by its id only. *)
Theorem C73_refuted : exists ls q s t, build true ls = Ok s /\ defined_name ls q /\ sys_get (ss_types s) (lib_type_id (q_name q, t)) = Some (map_ty libref_id t)
  /\ forall fuel c, sym_deserialize (S fuel) c s (SpecName q) [x05] = Err (SpecAbsent (SpecName q))
       /\ sym_deserialize (S fuel) c s (SpecId (lib_type_id (q_name q, t))) [x05] = Ok (mkTyped (lib_type_id (q_name q, t)) (VNum (Uint 5))).
Proof.
  exists [ex_one; ex_two], (mkFqn "One" "Byte"). eexists. exists (TPrim P_BYTE). split; [vm_compute; reflexivity|]. split; [|split; [|split]].
  - exists ex_one, (TPrim P_BYTE). split; [now left|]. split; [reflexivity|now left].
  - vm_compute. reflexivity.
  - reflexivity.
  - destruct c as [d [|n]]; vm_compute; reflexivity.
Qed.
Print Assumptions C73_refuted.
