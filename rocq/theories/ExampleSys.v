(** A concrete type system and values of it, used to show that the hypotheses of the theorems are met. *)
From Coq Require Import NArith ZArith List Bool String Ascii Strings.Byte Lia.
From Verif Require Import Base Ty Ids Val TypeSys Encode Decode DecodeShort SpecUtf8 Utf8Proofs Spec.
Import ListNotations.
Local Open Scope N_scope.

(** The id of an unnamed type. *)
Definition uid (t : ty semid) : semid := sem_id_unnamed commit_id t.

Definition t_unit : ty semid := TPrim P_UNIT.
Definition t_u8 : ty semid := TPrim P_U8.
Definition t_byte : ty semid := TPrim P_BYTE.
Definition t_u16 : ty semid := TPrim P_U16.
Definition t_i8 : ty semid := TPrim P_I8.
Definition t_unicode : ty semid := TUnicode.
Definition i_unit := Eval vm_compute in uid t_unit.
Definition i_u8 := Eval vm_compute in uid t_u8.
Definition i_byte := Eval vm_compute in uid t_byte.
Definition i_u16 := Eval vm_compute in uid t_u16.
Definition i_i8 := Eval vm_compute in uid t_i8.
Definition i_unicode := Eval vm_compute in uid t_unicode.

(** Letters a, b, c. *)
Definition t_letter : ty semid := TEnum [mkVariant "a" 97; mkVariant "b" 98; mkVariant "c" 99].
Definition i_letter := Eval vm_compute in uid t_letter.
Definition t_color : ty semid := TEnum [mkVariant "red" 0; mkVariant "green" 5].
Definition i_color := Eval vm_compute in uid t_color.
Definition t_option : ty semid := TUnion [(mkVariant "none" 0, i_unit); (mkVariant "some" 1, i_u16)].
Definition i_option := Eval vm_compute in uid t_option.
(** Two to five letters. *)
Definition t_rest : ty semid := TList i_letter (mkSizing 1 4).
Definition i_rest := Eval vm_compute in uid t_rest.
Definition t_word : ty semid := TTuple [i_letter; i_rest].
Definition i_word := Eval vm_compute in uid t_word.
Definition t_blob : ty semid := TList i_byte (mkSizing 0 255).
Definition i_blob := Eval vm_compute in uid t_blob.
Definition t_text : ty semid := TList i_unicode (mkSizing 0 65535).
Definition i_text := Eval vm_compute in uid t_text.
Definition t_bytes4 : ty semid := TArray i_byte 4.
Definition i_bytes4 := Eval vm_compute in uid t_bytes4.
Definition t_pair : ty semid := TTuple [i_u16; i_option].
Definition i_pair := Eval vm_compute in uid t_pair.
Definition t_list : ty semid := TList i_pair (mkSizing 1 300).
Definition i_list := Eval vm_compute in uid t_list.
Definition t_set : ty semid := TSet i_u16 (mkSizing 0 10).
Definition i_set := Eval vm_compute in uid t_set.
Definition t_map : ty semid := TMap i_color i_text (mkSizing 1 2).
Definition i_map := Eval vm_compute in uid t_map.
Definition t_root : ty semid := TStruct
  [("num"%string, i_i8); ("word"%string, i_word); ("letters"%string, i_rest); ("blob"%string, i_blob);
   ("text"%string, i_text); ("hash"%string, i_bytes4); ("list"%string, i_list); ("set"%string, i_set);
   ("map"%string, i_map)].
Definition i_root := Eval vm_compute in uid t_root.

(** A system of types without fixed-size arrays other than byte arrays. *)
Definition ex_types : list (ty semid) :=
  [t_unit; t_u8; t_byte; t_u16; t_i8; t_unicode; t_letter; t_color; t_option; t_rest; t_word; t_blob; t_text;
   t_bytes4; t_pair; t_list; t_set; t_map; t_root].
Definition build (ts : list (ty semid)) : type_system :=
  fold_left (fun s t => om_insert N.compare (uid t) t s) ts [].
Definition ex_sys : type_system := Eval vm_compute in build ex_types.

(** The same with an array of two numbers. *)
Definition t_array : ty semid := TArray i_u16 2.
Definition i_array := Eval vm_compute in uid t_array.
Definition ex_sys_arr : type_system := Eval vm_compute in build (t_array :: ex_types).

Definition ex_config : config := mkConfig true (2 ^ 32).
Definition ex_release : config := mkConfig false (2 ^ 32).

Definition ex_value : sval := VStruct
  [("num"%string, VNum (Int (-5))); ("word"%string, VStr "abac"); ("letters"%string, VStr "cab");
   ("blob"%string, VBytes [xff; x00]);
   ("text"%string, VStr "no: <>"); ("hash"%string, VBytes [x01; x02; x03; x04]);
   ("list"%string, VList [VTuple [VNum (Uint 1000); VUnion (Name "none") VUnit];
                          VTuple [VNum (Uint 0); VUnion (Name "some") (VNum (Uint 65535))]]);
   ("set"%string, VSet [VNum (Uint 7); VNum (Uint 3)]);
   ("map"%string, VMap [(VEnum (Name "green"), VStr "")])].

(** ** Facts *)

Lemma wf_sys_entries sys :
  Forall (fun e => wf_ty (snd e)) sys -> Forall (fun e => wf_rest sys (snd e)) sys ->
  (forall t, sys_find sys unit_id = Some t -> t = TPrim P_UNIT) -> wf_sys sys.
Proof.
  intros A B C. rewrite Forall_forall in A, B. constructor; [| |exact C].
  all: unfold sys_find; intros id t H; destruct (find (fun e => fst e =? id) sys) as [e|] eqn:F; [|discriminate];
    injection H as <-; apply find_some in F as [F _]; auto.
Qed.

Lemma unit_id_val : unit_id = i_unit. Proof. vm_compute. reflexivity. Qed.
Lemma byte_id_val : byte_id = i_byte. Proof. vm_compute. reflexivity. Qed.
Lemma u8_id_val : u8_id = i_u8. Proof. vm_compute. reflexivity. Qed.
Lemma unicode_id_val : unicode_id = i_unicode. Proof. vm_compute. reflexivity. Qed.

Ltac nodup := repeat constructor; cbn; intuition discriminate.
Ltac wf_entry :=
  cbn; try exact I; try reflexivity;
  repeat match goal with
  | |- _ /\ _ => split
  | |- NoDup _ => nodup
  | |- Forall _ _ => repeat constructor
  | |- wf_sizing _ => split; [cbn; lia|reflexivity]
  end.

Lemma ex_sys_wf : wf_sys ex_sys.
Proof.
  apply wf_sys_entries.
  - unfold ex_sys. repeat (apply Forall_cons; [wf_entry|]). constructor.
  - unfold ex_sys at 2. repeat (apply Forall_cons; [vm_compute; try exact I; reflexivity|]). constructor.
  - rewrite unit_id_val. intros t H. vm_compute in H. injection H as <-. reflexivity.
Qed.

Lemma ex_sys_arr_wf : wf_sys ex_sys_arr.
Proof.
  apply wf_sys_entries.
  - unfold ex_sys_arr. repeat (apply Forall_cons; [wf_entry|]). constructor.
  - unfold ex_sys_arr at 2. repeat (apply Forall_cons; [vm_compute; try exact I; reflexivity|]). constructor.
  - rewrite unit_id_val. intros t H. vm_compute in H. injection H as <-. reflexivity.
Qed.

Ltac len_tac := repeat split; try (vm_compute; discriminate); try reflexivity; intros; vm_compute; discriminate.
Ltac alphabet := vm_compute; repeat (apply Forall_cons; [auto 10|]); apply Forall_nil.
Ltac found := vm_compute; reflexivity.

Lemma sys_find_none_tuple2 sys fs a1 a2 mn mx first rest :
  fs = [first; rest] -> (forall r s, sys_find sys rest <> Some (TList r s)) -> ~ restricted_string sys fs a1 a2 mn mx.
Proof. intros E N [f r x t1 t2 E' _ _ F _ _]. rewrite E in E'. injection E' as -> ->. eapply N; eauto. Qed.

Lemma not_byte_item r : r <> i_byte -> r <> i_u8 -> ~ byte_item r.
Proof. unfold byte_item. rewrite byte_id_val, u8_id_val. tauto. Qed.
Lemma not_unicode_item r : r <> i_unicode -> ~ unicode_item r.
Proof. unfold unicode_item. rewrite unicode_id_val. tauto. Qed.

Lemma ex_value_typed : has_type (mkMode true false) ex_config ex_sys i_root ex_value.
Proof.
  eapply HT_struct; [found|reflexivity|]. cbn [map snd].
  repeat (apply Forall2_cons); [..|constructor].
  - eapply HT_int; [found|reflexivity|vm_compute; split; [discriminate|reflexivity]].
  - eapply (HT_rstring _ _ _ _ _ [97;98;99] [97;98;99] 1 4); [found| | |len_tac|].
    + econstructor; [reflexivity|found|reflexivity|found|found|reflexivity].
    + vm_compute. repeat constructor.
    + intros _. split; alphabet.
  - eapply HT_chars; [found|found|reflexivity| |len_tac|].
    + vm_compute. repeat constructor.
    + intros _. alphabet.
  - eapply HT_bytes; [found|found|reflexivity|left; symmetry; apply byte_id_val|reflexivity|len_tac].
  - eapply HT_text; [found|found|reflexivity| | |reflexivity|apply utf8_spec; reflexivity|len_tac].
    + apply not_byte_item; discriminate.
    + symmetry. apply unicode_id_val.
  - eapply HT_byte_array; [found|left; symmetry; apply byte_id_val|reflexivity|vm_compute; discriminate].
  - eapply HT_list; [found|found|reflexivity| |len_tac|].
    + split; [apply not_byte_item; discriminate|apply not_unicode_item; discriminate].
    + repeat (apply Forall_cons); [..|constructor]; (eapply HT_tuple; [found| |]).
      1,3: intros; eapply sys_find_none_tuple2; [reflexivity|]; intros r s H; vm_compute in H; discriminate.
      all: repeat (apply Forall2_cons); [..|constructor].
      all: try (eapply HT_uint; [found|reflexivity|reflexivity]).
      * eapply (HT_union _ _ _ _ _ (mkVariant "none" 0)); [found|left; reflexivity|]. apply HT_unit. found.
      * eapply (HT_union _ _ _ _ _ (mkVariant "some" 1)); [found|right; left; reflexivity|].
        eapply HT_uint; [found|reflexivity|reflexivity].
  - eapply HT_set; [found|len_tac| |].
    + repeat (apply Forall_cons); [..|constructor]; (eapply HT_uint; [found|reflexivity|reflexivity]).
    + intros _. repeat constructor; cbn; intuition discriminate.
  - eapply HT_map; [found|len_tac| | |].
    + apply Forall_cons; [|constructor]. eapply (HT_enum _ _ _ _ _ (mkVariant "green" 5)); [found|right; left; reflexivity].
    + apply Forall_cons; [|constructor].
      eapply HT_text; [found|found|reflexivity| | |reflexivity|apply utf8_spec; reflexivity|len_tac].
      * apply not_byte_item; discriminate.
      * symmetry. apply unicode_id_val.
    + intros _. repeat constructor; cbn; intuition discriminate.
Qed.

Definition ex_array : sval := VList [VNum (Uint 1); VNum (Uint 2)].
Lemma ex_array_typed : has_type (mkMode true true) ex_config ex_sys_arr i_array ex_array.
Proof.
  eapply HT_array; [reflexivity|found| |reflexivity|vm_compute; discriminate|].
  - apply not_byte_item; discriminate.
  - repeat (apply Forall_cons); [..|constructor]; (eapply HT_uint; [found|reflexivity|reflexivity]).
Qed.
