(** Specification for the source text of libraries and for versions. *)
From Coq Require Import NArith List Bool String Ascii Strings.Byte.
From Verif Require Import Base Ty Ids TypeSys LibCodec Ston Sty.
Import ListNotations.
Local Open Scope N_scope.
Local Open Scope list_scope.

(** ** What the external parts of the text have to satisfy *)

(** Letters, digits and underscores. *)
Definition word_byte (b : byte) : bool :=
  let n := Byte.to_N b in
  (48 <=? n) && (n <=? 57) || (65 <=? n) && (n <=? 90) || (97 <=? n) && (n <=? 122) || (n =? 95).
Definition word (s : bytes) : Prop := s <> [] /\ forallb word_byte s = true.
(** Ids are shown with hyphens, tildes, colons and hash signs too, but do not begin with a hyphen. *)
Definition label_byte (b : byte) : bool := word_byte b || existsb (Byte.eqb b) (sbytes "-~:#").
Definition label (s : bytes) : Prop := s <> [] /\ forallb label_byte s = true /\ hd x2d s <> x2d.

(** Primitives are shown as words, the unit as [()]; differently, and not as [Unicode]. *)
Definition prims_legible (prim_text : N -> bytes) : Prop :=
  (forall c, c < 256 -> prim_text c = sbytes "()" \/ word (prim_text c) /\ prim_text c <> sbytes "Unicode")
  /\ (forall c c', c < 256 -> c' < 256 -> prim_text c = prim_text c' -> c = c').
(** Sizes are shown, if at all, after [ ^ ] in a text without spaces, commas, line breaks and brackets;
    differently, and not as numbers. *)
Definition sizings_legible (sizing_text : sizing -> bytes) : Prop :=
  (forall s, sizing_text s = [] \/ exists w, sizing_text s = sbytes " ^ " ++ w
             /\ forall b, In b w -> ~ In b (sbytes " ,()[]{}" ++ [x0a]))
  /\ (forall s s', sizing_text s = sizing_text s' -> s = s')
  /\ (forall s n, sizing_text s <> sbytes " ^ " ++ show_N n).
(** Mnemonics have no line breaks. *)
Definition mnemonics_legible (mnemonic : N -> bytes) : Prop := forall id, ~ In x0a (mnemonic id).

(** ** Types whose text can be read *)

(** An optional value. *)
Definition optional (r : tref) : ty tref :=
  TUnion [(mkVariant "none" 0, TrEmbedded (TPrim P_UNIT)); (mkVariant "some" 1, r)].
Section Clear.
Variable prim_text : N -> bytes.

(** What can stand for a field: names which are not names of primitives, collections, optionals (not of tuples and
    structures), wrappers. *)
Inductive clear_item : tref -> Prop :=
| item_named n : label (sbytes n) -> n <> "Unicode"%string -> (forall c, c < 256 -> sbytes n <> prim_text c) ->
    clear_item (TrNamed n)
| item_extern e : label (sbytes (sr_lib e)) -> label (sbytes (sr_name e)) -> clear_item (TrExtern e)
| item_prim c : c < 256 -> clear_item (TrEmbedded (TPrim c))
| item_unicode : clear_item (TrEmbedded TUnicode)
| item_array r n : clear_content r -> clear_item (TrEmbedded (TArray r n))
| item_list r s : clear_content r -> clear_item (TrEmbedded (TList r s))
| item_set r s : clear_content r -> clear_item (TrEmbedded (TSet r s))
| item_map k r s : clear_item k -> clear_content r -> clear_item (TrEmbedded (TMap k r s))
| item_option r : clear_item r -> clear_item (TrEmbedded (optional r))
| item_wrapper r : clear_item r -> clear_item (TrEmbedded (TTuple [r]))
(** What can stand for an item of a collection: also tuples and structures. *)
with clear_content : tref -> Prop :=
| content_item r : clear_item r -> clear_content r
| content_tuple a b fs : Forall clear_item (a :: b :: fs) -> clear_content (TrEmbedded (TTuple (a :: b :: fs)))
| content_struct fs : fs <> [] -> Forall (fun f => word (sbytes (fst f)) /\ clear_item (snd f)) fs ->
    clear_content (TrEmbedded (TStruct fs)).
(** A definition of a type: also an enum, or a union of anything of these. *)
Inductive clear_type : ty tref -> Prop :=
| clear_simple t : clear_content (TrEmbedded t) -> clear_type t
| clear_enum vs : vs <> [] -> Forall (fun v => word (sbytes (v_name v))) vs -> clear_type (TEnum vs)
| clear_union vs : vs <> [] -> as_some (TUnion vs) = None ->
    Forall (fun v => word (sbytes (v_name (fst v))) /\ clear_variant (snd v)) vs -> clear_type (TUnion vs)
with clear_variant : tref -> Prop :=
| variant_item r : clear_item r -> clear_variant r
| variant_type t : clear_type t -> clear_variant (TrEmbedded t).

(** The same for a library, with all its names. *)
Definition clear_lib (s : sym_lib) : Prop :=
  word (sbytes (y_name s))
  /\ Forall (fun d => word (sbytes (d_name d))) (y_deps s)
  /\ Forall (fun m => Forall (fun e => word (sbytes (snd e))) (snd m)) (y_extern s)
  /\ Forall (fun e => word (sbytes (fst e)) /\ clear_type (snd e)) (y_types s).
End Clear.

(** What the text of a type tells: wrappers are left out, of external types only the names are given. *)
Fixpoint sketch (r : tref) : tref :=
  match r with
  | TrNamed n => TrNamed n
  | TrExtern e => TrExtern (mkSymRef (sr_lib e) (sr_name e) 0 0)
  | TrEmbedded t =>
      match t with
      | TTuple [r] => sketch r
      | TPrim c => TrEmbedded (TPrim c)
      | TUnicode => TrEmbedded TUnicode
      | TEnum vs => TrEmbedded (TEnum vs)
      | TUnion vs => TrEmbedded (TUnion (map (fun v => (fst v, sketch (snd v))) vs))
      | TTuple fs => TrEmbedded (TTuple (map sketch fs))
      | TStruct fs => TrEmbedded (TStruct (map (fun f => (fst f, sketch (snd f))) fs))
      | TArray r n => TrEmbedded (TArray (sketch r) n)
      | TList r s => TrEmbedded (TList (sketch r) s)
      | TSet r s => TrEmbedded (TSet (sketch r) s)
      | TMap k r s => TrEmbedded (TMap (sketch k) (sketch r) s)
      end
  end.

(** What the text tells of the dependencies: names, mnemonics, and those of the types in use. *)
Definition imports (mnemonic : N -> bytes) (s : sym_lib) :=
  map (fun d => (d_name d, mnemonic (d_id d),
                 option_map (map (fun e => (snd e, mnemonic (fst e)))) (om_get String.compare (d_name d) (y_extern s))))
    (y_deps s).

(** The definition of a type is annotated with a mnemonic. *)
Definition annotated (text : bytes) (name : string) (m : bytes) : Prop :=
  exists before after, text = before
    ++ sbytes "@mnemonic(" ++ m ++ sbytes ")" ++ [x0a] ++ sbytes "data " ++ sbytes name ++ sbytes " " ++ after.

(** ** Versions *)

(** The text of a version by Semantic Versioning 2.0.0: "A pre-release version MAY be denoted by appending a hyphen
    and a series of dot separated identifiers immediately following the patch version" (9), "Build metadata MAY be
    denoted by appending a plus sign and a series of dot separated identifiers immediately following the patch or
    pre-release version" (10). *)
Definition dotted (mark : string) (ids : list bytes) : bytes :=
  match ids with [] => [] | i :: ids => sbytes mark ++ i ++ flat_map (fun i => sbytes "." ++ i) ids end.
Definition semver_text (major minor patch : N) (pre build : list bytes) : bytes :=
  show_N major ++ sbytes "." ++ show_N minor ++ sbytes "." ++ show_N patch ++ dotted "-" pre ++ dotted "+" build.
