(** Properties of the text of references and of URNs: C81. *)
From Coq Require Import NArith List Bool String Ascii Strings.Byte Lia.
From Verif Require Import Base Ty Ids LibCodec Typify SpecIds SpecLib LibCodecProofs Text SpecText Refs PropText.
Import ListNotations.
Local Open Scope N_scope.
Local Open Scope list_scope.

(** Texts before the first separator are the same. *)
Lemma before_first (c : byte) a b x y : ~ In c a -> ~ In c b -> a ++ c :: x = b ++ c :: y -> a = b /\ x = y.
Proof.
  revert b. induction a as [|p a IH]; intros [|q b] A B E; cbn in E.
  - injection E as ->. auto.
  - injection E as <- _. destruct B. now left.
  - injection E as -> _. destruct A. now left.
  - injection E as <- E. destruct (IH b) as [-> ->]; [intros I; apply A; now right|intros I; apply B; now right|exact E|auto].
Qed.
Lemma sbytes_inj s t : sbytes s = sbytes t -> s = t.
Proof. intros E. now rewrite <- (bstring_sbytes s), <- (bstring_sbytes t), E. Qed.

Lemma type_name_hash n : type_name n -> ~ In x23 (sbytes n).
Proof.
  intros (x & r & E & U & F & _). rewrite E. intros [->|I].
  - unfold upper in U. cbn in U. lia.
  - rewrite Forall_forall in F. specialize (F _ I). unfold name_char in F. cbn in F. lia.
Qed.

(** ** C81 *)

(** The short text of a reference is the full name of the type: it is read as such. *)
Theorem C81_name : forall r, type_name (sr_lib r) -> type_name (sr_name r) ->
  fqn_of_text (show_symref r) = Ok (mkFqn (sr_lib r) (sr_name r)).
Proof. intros r L N. exact (C66_read (mkFqn (sr_lib r) (sr_name r)) L N). Qed.
Print Assumptions C81_name.

(** The alternate text tells the library, the name and the id of the type. *)
Theorem C81_alternate : forall id_text r r',
  (forall a b, id_text a = id_text b -> a = b) ->
  type_name (sr_lib r) -> type_name (sr_name r) -> type_name (sr_lib r') -> type_name (sr_name r') ->
  show_symref_alt id_text r = show_symref_alt id_text r' ->
  sr_lib r = sr_lib r' /\ sr_name r = sr_name r' /\ sr_id r = sr_id r'.
Proof.
  intros id_text r r' INJ L N L' N' E. unfold show_symref_alt in E. cbn [sbytes list_byte_of_string app] in E.
  change (sbytes ".") with [x2e] in E. change (sbytes "#") with [x23] in E. cbn [app] in E.
  apply before_first in E as [E1 E]; [|now apply type_name_dot|now apply type_name_dot].
  apply before_first in E as [E2 E]; [|now apply type_name_hash|now apply type_name_hash].
  apply sbytes_inj in E1, E2. auto.
Qed.
Print Assumptions C81_alternate.

(** The short and the alternate text of references are never the same. *)
Theorem C81_forms : forall id_text r r', type_name (sr_lib r) -> type_name (sr_name r) ->
  show_symref r <> show_symref_alt id_text r'.
Proof.
  intros id_text r r' L N E.
  assert (I : In x23 (show_symref r)).
  { rewrite E. unfold show_symref_alt. rewrite !in_app_iff. right. right. right. left. now left. }
  unfold show_symref in I. rewrite !in_app_iff in I. destruct I as [I|[[I|[]]|I]].
  - exact (type_name_hash _ L I).
  - discriminate I.
  - exact (type_name_hash _ N I).
Qed.
Print Assumptions C81_forms.

(** A URN tells whether it is one of a library or of a type, and its id. *)
Theorem C81_urn : forall lib_text id_text u u',
  (forall a b, lib_text a = lib_text b -> a = b) -> (forall a b, id_text a = id_text b -> a = b) ->
  show_urn lib_text id_text u = show_urn lib_text id_text u' -> u = u'.
Proof.
  intros lib_text id_text [a|a] [b|b] L T E; cbn [show_urn] in E.
  - apply app_inv_head in E. f_equal. now apply L.
  - discriminate E.
  - discriminate E.
  - apply app_inv_head in E. f_equal. now apply T.
Qed.
Print Assumptions C81_urn.

Example C81_case : type_name "Std" /\ type_name "AlphaNum"
  /\ show_symref (mkSymRef "Std" "AlphaNum" 7 9) = sbytes "Std.AlphaNum"
  /\ show_symref_alt id_bytes (mkSymRef "Std" "AlphaNum" 7 9) <> show_symref_alt id_bytes (mkSymRef "Std" "AlphaNum" 7 8)
  /\ show_urn (fun _ => sbytes "a") (fun _ => sbytes "a") (UrnLib 1) = sbytes "urn:sten:lib:a"
  /\ show_urn (fun _ => sbytes "a") (fun _ => sbytes "a") (UrnType 1) = sbytes "urn:sten:id:a".
Proof.
  split; [apply type_name_iff; reflexivity|]. split; [apply type_name_iff; reflexivity|]. split; [reflexivity|].
  split; [vm_compute; discriminate|]. split; reflexivity.
Qed.
