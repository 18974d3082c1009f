(** Test of the model: the layout of the type of libraries, compared with stl/TypeLib.vesper, which is written
    by src/bin/strict-vesper.rs. *)
From Coq Require Import NArith List Bool String Ascii.
From Verif Require Import Base Ty Ids TypeSys LibCodec Build SpecBuild Layout Artifacts ArtifactsBuild.
Import ListNotations.
Local Open Scope string_scope.
Local Open Scope N_scope.

(** The text of an expression, as it is written by the vesper crate (external): a line for each expression. *)
Fixpoint decimal (fuel : nat) (n : N) (acc : string) : string :=
  match fuel with
  | O => acc
  | S fuel =>
      let acc := String (ascii_of_N (48 + n mod 10)) acc in
      if n / 10 =? 0 then acc else decimal fuel (n / 10) acc
  end.
Definition number_text (n : N) : string := decimal 20 n "".

(** src/layout/vesper.rs:147-158. *)
Definition range_text (min max : N) : string :=
  number_text min ++ ".." ++
  (if max =? u8_max then "MAX8" else if max =? u16_max then "MAX16" else if max =? u24_max then "MAX24"
   else if max =? u32_max then "MAX32" else if max =? u64_max then "MAX64" else number_text max).

(** src/layout/vesper.rs:36-37: lowercase names. *)
Definition pred_text (p : pred) : string :=
  match p with
  | PdIs => "is" | PdTuple => "tuple" | PdRec => "rec" | PdEnum => "enum" | PdUnion => "union" | PdChar => "char"
  | PdStr => "str" | PdAscii => "ascii" | PdBytes => "bytes" | PdArray => "array" | PdList => "list" | PdSet => "set" | PdMap => "map"
  end.

(** src/layout/vesper.rs:107-136; the codes of the unsigned numbers which occur. *)
Definition attr_text (a : attr) : string :=
  match a with
  | ATypeName n => n
  | APrimName c => "U" ++ number_text (8 * c)
  | AWrapped (Some n) => "aka " ++ n
  | AWrapped None => "wrapped"
  | AOption => "option"
  | ATag t => "tag " ++ number_text t
  | AAsciiEnum n => "charset " ++ n
  | AAsciiFirst n => "first " ++ n
  | AAsciiRest n => "rest " ++ n
  | AEnumVariant t n => n ++ " " ++ number_text t
  | ALen n => "len " ++ number_text n
  | ALenRange min max => "len " ++ range_text min max
  end.
Definition subject_text (s : subject) : string := match s with SjName n => n | SjPos n => number_text n end.

Definition line (indent : string) (e : vesper) : string :=
  indent ++ pred_text (x_pred e) ++ " " ++ subject_text (x_subject e)
  ++ fold_right (fun a s => ", " ++ attr_text a ++ s) "" (x_attrs e) ++ String (ascii_of_nat 10) "".
Fixpoint lines (indent : string) (e : vesper) : list string :=
  line indent e :: flat_map (lines (indent ++ "  ")) (x_content e).

(** A checksum: the number with the characters as its digits in base 31, modulo 2^32. *)
Fixpoint sum (acc : N) (s : string) : N :=
  match s with
  | EmptyString => acc
  | String c s => sum (N.land (acc * 31 + N_of_ascii c) 4294967295) s
  end.

(** Comparing ids of 256 bits many times takes long: the ids are replaced by small numbers, besides those of
    bytes, which are recognized by their ids. *)
Definition relabel (s : symbolic_sys) : semid -> semid :=
  let ids := map fst (ss_types s) in
  fun id =>
    if (id =? byte_id) || (id =? u8_id) then id
    else (fix find (n : N) (l : list semid) := match l with [] => 0 | x :: l => if x =? id then n else find (n + 1) l end) 1 ids.
Definition relabel_ty (f : semid -> semid) (t : ty semid) : ty semid :=
  match translate_ty (fun id (s : unit) => (@Ok Empty_set _ (f id), s)) t tt with
  | (Ok t', _) => t'
  | _ => TUnicode
  end.
Definition small (s : symbolic_sys) : symbolic_sys :=
  let f := relabel s in
  mkSymSys (mkSymbols (sy_libs (ss_symbols s)) (map (fun y => mkSymbol (f (ts_id y)) (ts_fqn y)) (sy_symbols (ss_symbols s))))
    (fold_left (fun m e => om_insert N.compare (f (fst e)) (relabel_ty f (snd e)) m) (ss_types s) []).

(** The number of lines and the checksum of the layout of a type of a system. *)
Definition layout_sum (built : outcome (list build_error) symbolic_sys) (q : type_fqn) : option (N * N) :=
  match built with
  | Ok s =>
      let s := small s in
      match resolve (ss_symbols s) q with
      | Some id =>
          match to_layout (N.to_nat 200000) true s id with
          | Ok l =>
              match to_vesper true l with
              | Ok e => let l := lines "" e in Some (lenN l, fold_left sum l 0)
              | _ => None
              end
          | _ => None
          end
      | None => None
      end
  | _ => None
  end.

(** Those of the file after its heading, computed by tools/vesper_sum.py. *)
Goal layout_sum (build true shipped) (mkFqn "StrictTypes" "TypeLib") = Some (40378, 2017497169).
Proof. vm_compute. reflexivity. Abort.
