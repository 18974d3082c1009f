(** Model of files with libraries: src/typelib/serialize.rs:34-114, src/util.rs:34-73. Only definitions. Text is given as
    bytes, a file system as the contents of files by path. *)
From Coq Require Import NArith List Bool String Strings.Byte.
From Verif Require Import Base Ty Ids LibCodec Compile Sty.
Import ListNotations.
Local Open Scope N_scope.
Local Open Scope list_scope.

Local Notation txt s := (sbytes s%string) (only parsing).

(** src/util.rs:38-47 [StlFormat] with its [Display]; with the feature [armor]. *)
Inductive stl_format : Type := Source | Binary | Armored.
Definition format_text (f : stl_format) : bytes :=
  match f with Source => txt "sty" | Binary => txt "stl" | Armored => txt "sta" end.

(** Equality of [str]. *)
Fixpoint bytes_eqb (a b : bytes) : bool :=
  match a, b with
  | [], [] => true
  | x :: a, y :: b => Byte.eqb x y && bytes_eqb a b
  | _, _ => false
  end.

(** src/util.rs:49-61 [FromStr for StlFormat]; [None] for [UnknownFormat] with the text (src/util.rs:34-36). *)
Definition format_of_text (s : bytes) : option stl_format :=
  if bytes_eqb s (txt "stl") then Some Binary
  else if bytes_eqb s (txt "sta") then Some Armored
  else if bytes_eqb s (txt "sty") then Some Source
  else None.

(** src/util.rs:65 [str::trim_start_matches("--")]: all the occurrences at the start are removed. *)
Fixpoint trim_dashes (s : bytes) : bytes :=
  match s with
  | x2d :: x2d :: r => trim_dashes r
  | _ => s
  end.

(** src/util.rs:63-73 [parse_args], as a function of the arguments with the name of the program first. *)
Definition parse_args (args : list bytes) : outcome Empty_set (stl_format * option bytes) :=
  let ext := match nth_error args 1 with Some s => trim_dashes s | None => txt "sty" end in
  match format_of_text ext with
  | None => Panic
  | Some format =>
      match args with
      | [_] => Ok (format, None)
      | [_; _] => Ok (format, Some (txt "stl"))
      | [_; _; dir] => Ok (format, Some dir)
      | _ => Panic
      end
  end.

(** Contents of the files by path, and what was printed to the standard output; src/typelib/serialize.rs:50, 54, 96, 100.
    Paths are taken to be different names of different files. *)
Record world := mkWorld { w_files : bytes -> option bytes; w_printed : bytes }.
Definition read_file (w : world) (path : bytes) : option bytes := w_files w path.

(** src/typelib/serialize.rs:54, 100: [fs::File::create] empties an existing file; what is written follows. *)
Definition save (path data : bytes) (w : world) : world :=
  mkWorld (fun p => if bytes_eqb p path then Some data else w_files w p) (w_printed w).
Definition print (data : bytes) (w : world) : world := mkWorld (w_files w) (w_printed w ++ data).

(** src/typelib/serialize.rs:52-53, 98-99: [PathBuf::push] of a relative path: after a separator, if there is none. *)
Definition in_dir (dir name : bytes) : bytes :=
  dir ++ (match rev dir with [] | x2f :: _ => [] | _ => [x2f] end) ++ name.
(** src/typelib/serialize.rs:53, 99 [{}@{ver}.{format}]. *)
Definition file_name (lib : string) (ver : bytes) (f : stl_format) : bytes :=
  sbytes lib ++ txt "@" ++ ver ++ txt "." ++ format_text f.

(** [io::Error] of src/typelib/serialize.rs:54, 60, 100; errors when writing to a file which was created, other than for the
    number of bytes, are not modelled. *)
Inductive io_error : Type := CreateFailed | TooLarge.

Section External.
(** The text of ids with flag [+], of primitives, sizes and mnemonics, the ASCII armor, and the number of bytes which are
    written when the limit on their number is reported: the writer stops before the first item which does not fit. *)
Context (id_text : N -> bytes) (prim_text : N -> bytes) (sizing_text : sizing -> bytes) (mnemonic : N -> bytes)
  (armor : type_lib -> bytes) (written : bytes -> nat).
(** Files which can be created. *)
Context (creatable : bytes -> bool).

(** src/typelib/serialize.rs:68-73, 104-109. *)
Definition comment (id : option N) (name : string) (ver header : bytes) : bytes :=
  txt "{-" ++ [x0a] ++ match id with Some id => txt "  Id: " ++ id_text id ++ [x0a] | None => [] end
  ++ txt "  Name: " ++ sbytes name ++ [x0a] ++ txt "  Version: " ++ ver ++ header ++ [x0a] ++ txt "-}" ++ [x0a; x0a].

(** src/typelib/serialize.rs:58-76: what is written, and the result. *)
Definition lib_data (f : stl_format) (ver header : bytes) (l : type_lib) : bytes * outcome io_error unit :=
  match f with
  | Binary =>
      let b := enc_lib l in
      if lenN b <=? u24_max then (b, Ok tt) else (firstn (written b) b, Err TooLarge)
  | Armored => (armor l ++ [x0a], Ok tt)
  | Source =>
      let c := comment (Some (lib_id l)) (l_name l) ver header in
      match to_symbolic l with
      | Ok s => (c ++ sty_lib prim_text sizing_text mnemonic s ++ [x0a], Ok tt)
      | Diverge => (c, Diverge)
      | _ => (c, Panic)
      end
  end.

(** src/typelib/serialize.rs:49-56, 95-102: to the standard output, or to a file of a directory. *)
Definition emit (dir : option bytes) (name : bytes) (data : bytes * outcome io_error unit) (w : world) : world * outcome io_error unit :=
  match dir with
  | None => (print (fst data) w, snd data)
  | Some dir =>
      if creatable (in_dir dir name) then (save (in_dir dir name) (fst data) w, snd data) else (w, Err CreateFailed)
  end.

(** src/typelib/serialize.rs:38-79 [TypeLib::serialize]. *)
Definition serialize_lib (f : stl_format) (dir : option bytes) (ver : bytes) (header : option bytes) (l : type_lib) (w : world)
  : world * outcome io_error unit :=
  emit dir (file_name (l_name l) ver f) (lib_data f ver (match header with Some h => h | None => [] end) l) w.

(** src/typelib/serialize.rs:86-113 [SymbolicLib::serialize]. *)
Definition serialize_sym (dir : option bytes) (ver : bytes) (header : option bytes) (s : sym_lib) (w : world)
  : world * outcome io_error unit :=
  emit dir (file_name (y_name s) ver Source)
    (comment None (y_name s) ver (match header with Some h => h | None => [] end)
       ++ sty_lib prim_text sizing_text mnemonic s ++ [x0a], Ok tt) w.
End External.

(** src/typelib/serialize.rs:35 [StrictDeserialize for TypeLib], [strict_deserialize_from_file] with the limit of
    2^24 - 1 bytes. *)
Definition load_lib (w : world) (path : bytes) : option type_lib :=
  let? b := read_file w path in if lenN b <=? u24_max then deserialize dec_lib b else None.
