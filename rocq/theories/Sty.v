(** Model of the source text of types and libraries: the [Display] implementations of src/ast/ty.rs,
    src/typelib/symbolic.rs, src/typelib/type_lib.rs, src/typelib/serialize.rs and of versions, src/util.rs. Only
    definitions. Text is given as bytes. Simplified: only the default format, not the alternate one ([{:#}]), of the
    default width. *)
From Coq Require Import NArith List Bool String Ascii Strings.Byte.
From Coq Require HexadecimalString.
From Verif Require Import Base Ty Ids TypeSys LibCodec Ston.
Import ListNotations.
Local Open Scope N_scope.
Local Open Scope list_scope.

Local Notation txt s := (sbytes s%string) (only parsing).

(** [n] spaces. *)
Definition blanks (n : nat) : bytes := repeat x20 n.
(** The line breaks before a field (src/ast/ty.rs:430), a variant of a union (612) and of an enum (717). *)
Definition break_field : bytes := [x0a] ++ blanks 23 ++ txt ", ".
Definition break_union : bytes := [x0a] ++ blanks 23 ++ txt "| ".
Definition break_enum : bytes := [x0a] ++ blanks 22.

(** [write!(f, "{variant}")] and the tag if it is not the expected one, in src/ast/ty.rs:599-602, 616-619, 694-697,
    706-709. [Display for Variant] (external) writes the name. *)
Definition sty_variant (tag : N) (v : variant) : bytes :=
  sbytes (v_name v) ++ if v_tag v =? tag then [] else txt "#" ++ show_N (v_tag v).
(** The tag expected next: [saturating_add] of u8 in src/ast/ty.rs:605, 699, 711. *)
Definition next_tag (v : variant) : N := N.min u8_max (v_tag v + 1).

(** src/ast/ty.rs:702-720: the variants of an enum but the first one; [k] more fit in the line. *)
Fixpoint sty_enum_rest (k : nat) (tag : N) (vs : list variant) : bytes :=
  match vs with
  | [] => []
  | v :: vs =>
      match k with
      | O => break_enum ++ txt " | " ++ sty_variant tag v ++ sty_enum_rest 3 (next_tag v) vs
      | S k => txt " | " ++ sty_variant tag v ++ sty_enum_rest k (next_tag v) vs
      end
  end.
(** src/ast/ty.rs:687-722 [Display for EnumVariants]. *)
Definition sty_enum (vs : list variant) : bytes :=
  match vs with
  | [] => txt "(|)"
  | v :: vs =>
      sty_variant 0 v ++ match vs with [] => txt " | (|)" | _ => [] end ++ sty_enum_rest 3 (next_tag v) vs ++ [x0a]
  end.

(** [Display for Primitive] and [Display for Sizing] (crate strict_encoding, external) and the mnemonic form of ids
    (crate baid64, external) are parameters. *)
Section External.
Variables (prim_text : N -> bytes) (sizing_text : sizing -> bytes) (mnemonic : N -> bytes).

(** A type with references of any kind; [sr] is [Display] of a reference and [compound] its [is_compound]. *)
Section Ref.
Context {R : Type}.
Variables (sr : R -> bytes) (compound : R -> bool).

(** The content of a variant in src/ast/ty.rs:606-612, 623-629. *)
Definition sty_content (r : R) : bytes := paren (compound r) (sr r).
(** src/ast/ty.rs:597-614, 615-636: the variants of a union, with the tag expected first. *)
Definition sty_variants : N -> list (variant * R) -> bytes := fix go tag vs :=
  match vs with
  | [] => []
  | (v, r) :: vs =>
      sty_variant tag v ++ txt " " ++ sty_content r
      ++ match vs with [] => [] | _ => break_union ++ go (next_tag v) vs end
  end.
(** src/ast/ty.rs:591-639 [Display for UnionVariants]. *)
Definition sty_union (vs : list (variant * R)) : bytes :=
  match vs with
  | [] => txt "(|)"
  | [_] => sty_variants 0 vs ++ txt " | (|)"
  | _ => sty_variants 0 vs
  end.

(** src/ast/ty.rs:356-364 [Display for Field]. *)
Definition sty_field (f : string * R) : bytes := sbytes (fst f) ++ txt " " ++ sr (snd f).
(** src/ast/ty.rs:250-287 [Display for Ty]; 419-439 [Display for NamedFields], 491-506 [Display for
    UnnamedFields]. *)
Definition sty_ty (t : ty R) : bytes :=
  match t with
  | TPrim c => prim_text c
  | TUnicode => txt "Unicode"
  | TEnum vs => sty_enum vs
  | TUnion vs => match vs with
                 | [_; (_, r)] => if is_option t then sr r ++ txt "?" else sty_union vs
                 | _ => sty_union vs
                 end
  | TStruct fs => join (if 3 <=? lenN fs then break_field else txt ", ") (map sty_field fs)
  | TTuple fs => join (txt ", ") (map sr fs)
  | TArray r len => txt "[" ++ sr r ++ txt " ^ " ++ show_N len ++ txt "]"
  | TList r s => txt "[" ++ sr r ++ sizing_text s ++ txt "]"
  | TSet r s => txt "{" ++ sr r ++ sizing_text s ++ txt "}"
  | TMap k r s => txt "{" ++ sr k ++ txt " ->" ++ sizing_text s ++ txt " " ++ sr r ++ txt "}"
  end.
End Ref.

(** src/typelib/symbolic.rs:135-140 [is_compound for TranspileRef]. *)
Definition tref_compound (r : tref) : bool :=
  match r with TrEmbedded t => is_compound t | _ => false end.
(** src/typelib/symbolic.rs:160-168 [Display for TranspileRef]; 65 [Display for SymbolRef]. *)
Fixpoint sty_ref (r : tref) : bytes :=
  match r with
  | TrEmbedded t => sty_ty sty_ref tref_compound t
  | TrNamed n => sbytes n
  | TrExtern e => sbytes (sr_lib e) ++ txt "." ++ sbytes (sr_name e)
  end.

(** src/typelib/type_lib.rs:249-253 [Display for Dependency], after src/typelib/serialize.rs:122. *)
Definition sty_import (s : sym_lib) (d : dependency) : bytes :=
  txt "import " ++ sbytes (d_name d) ++ txt "#" ++ mnemonic (d_id d) ++ [x0a]
  ++ match om_get String.compare (d_name d) (y_extern s) with
     | None => []
     | Some index =>
         flat_map (fun e => txt "  use " ++ sbytes (snd e) ++ txt "#" ++ mnemonic (fst e) ++ [x0a]) index ++ [x0a]
     end.
(** [{name:0$}] with the width 17, src/typelib/serialize.rs:140. *)
Definition pad (s : string) : bytes := sbytes s ++ blanks (17 - String.length s).
(** src/typelib/serialize.rs:135-144. *)
Definition sty_entry (e : string * ty tref) : bytes :=
  txt "@mnemonic(" ++ mnemonic (sem_id_named commit_tref (fst e) (snd e)) ++ txt ")" ++ [x0a]
  ++ txt "data " ++ pad (fst e) ++ txt " : " ++ sty_ty sty_ref tref_compound (snd e) ++ [x0a; x0a].
(** src/typelib/serialize.rs:116-147 [Display for SymbolicLib]. *)
Definition sty_lib (s : sym_lib) : bytes :=
  txt "@context" ++ [x0a]
  ++ txt "typelib " ++ sbytes (y_name s) ++ [x0a]
  ++ [x0a]
  ++ flat_map (sty_import s) (y_deps s)
  ++ match y_deps s with [] => txt "-- no dependencies" ++ [x0a] | _ => [] end
  ++ [x0a]
  ++ flat_map sty_entry (y_types s).
End External.

(** ** The external parameters, as far as they are seen in the files stl/*.sty *)

(** Small hexadecimal digits, at least two, after [0x]: [{:#04x}]. *)
Definition show_hex (n : N) : bytes :=
  txt "0x" ++ (if n <? 16 then txt "0" else []) ++ sbytes (HexadecimalString.NilEmpty.string_of_uint (N.to_hex_uint n)).
(** [Display for Sizing] (external). *)
Definition sizing_sty (s : sizing) : bytes :=
  if s_max s =? u16_max then
    if s_min s =? 0 then [] else txt " ^ " ++ show_N (s_min s) ++ txt ".."
  else txt " ^ " ++ (if s_min s =? 0 then [] else show_N (s_min s)) ++ txt ".." ++ show_hex (s_max s).
(** [Display for Primitive] (external): the class and the number of bits. *)
Definition prim_sty (c : N) : bytes :=
  if c =? P_UNIT then txt "()" else if c =? P_BYTE then txt "Byte" else if c =? P_F16B then txt "F16b"
  else (if c <? 0x40 then txt "U" else if c <? 0x80 then txt "I" else if c <? 0xC0 then txt "N" else txt "F")
       ++ show_N (8 * prim_size c).

(** ** Versions *)

(** src/util.rs:133-138 [PreFragment]. *)
Inductive pre_fragment : Type := PreIdent (s : string) | PreDigits (n : N).
(** src/util.rs:144-147 [BuildFragment]. *)
Inductive build_fragment : Type := BuildIdent (s : string) | BuildDigits (s : string).
(** src/util.rs:153-159 [SemVer]. *)
Record version := mkVersion {
  ver_major : N; ver_minor : N; ver_patch : N;
  ver_pre : list pre_fragment;
  ver_build : list build_fragment
}.
(** src/util.rs:132, 143: derived [Display]. *)
Definition show_pre (f : pre_fragment) : bytes := match f with PreIdent s => sbytes s | PreDigits n => show_N n end.
Definition show_build (f : build_fragment) : bytes := match f with BuildIdent s | BuildDigits s => sbytes s end.
(** src/util.rs:173-202 [Display for SemVer]. *)
Definition show_version (v : version) : bytes :=
  show_N (ver_major v) ++ txt "." ++ show_N (ver_minor v) ++ txt "." ++ show_N (ver_patch v)
  ++ match ver_build v with [] => [] | _ => txt "-" end ++ join (txt ".") (map show_build (ver_build v))
  ++ match ver_pre v with [] => [] | _ => txt "+" end ++ join (txt ".") (map show_pre (ver_pre v)).
