(** Model of type references and of the commitments to types, libraries and type systems:
    src/ast/id.rs, src/typelib/id.rs, src/typesys/id.rs and the reference types of
    src/typelib/type_lib.rs and src/typelib/symbolic.rs. Only definitions. *)
From Coq Require Import NArith List Bool String.
From Verif Require Import Base Sha256 Ty.
Import ListNotations.
Local Open Scope N_scope.

(** src/ast/id.rs:45-49 [SemId]: 32 bytes, here the number they represent in big-endian order, such that
    the order of ids ([Ord]) is the order of numbers. *)
Definition semid := N.
(** src/typelib/id.rs:45-49 [TypeLibId], same representation. *)
Definition libid := N.

(** A 32-byte id as bytes ([as_slice]) and back ([from_byte_array]). *)
Definition id_bytes (id : N) : bytes := be 32 id.
Definition id_of_bytes (b : bytes) : N := unbe b.

(** ** References *)

(** src/typelib/type_lib.rs:50-53 [ExternRef]. *)
Record extern_ref := mkExtern { er_lib : libid; er_id : semid }.

(** src/typelib/type_lib.rs:64-69 [InlineRef], 106-111 [InlineRef1], 148-151 [InlineRef2], 174-179
    [LibRef]: the same shape for each nesting level; [I] is the type of inline definitions, which is
    empty for [InlineRef2] having no [Inline] variant. *)
Inductive gref (I : Type) : Type :=
| RInline (t : I)
| RNamed (id : semid)
| RExtern (e : extern_ref).
Arguments RInline {I} t.
Arguments RNamed {I} id.
Arguments RExtern {I} e.

(** src/typelib/type_lib.rs:148-151. *)
Definition inline_ref2 := gref Empty_set.
(** src/typelib/type_lib.rs:106-111. *)
Definition inline_ref1 := gref (ty inline_ref2).
(** src/typelib/type_lib.rs:64-69. *)
Definition inline_ref := gref (ty inline_ref1).
(** src/typelib/type_lib.rs:174-179. *)
Definition lib_ref := gref (ty inline_ref).

(** src/typelib/symbolic.rs:67-72 [SymbolRef]. *)
Record symbol_ref := mkSymRef { sr_lib : string; sr_name : string; sr_libid : libid; sr_id : semid }.

(** src/typelib/symbolic.rs:98-104 [TranspileRef]. *)
Inductive tref : Type :=
| TrEmbedded (t : ty tref)
| TrNamed (name : string)
| TrExtern (r : symbol_ref).

(** ** Commitments: the bytes fed into the hasher *)

(** src/ast/id.rs:134-160 [SemCommit] for [LibName], [TypeName], [FieldName], [VariantName]. *)
Definition commit_name (s : string) : bytes := b8 (slen s mod 256) :: sbytes s.

(** src/ast/id.rs:162-166 [SemCommit for SemId]. *)
Definition commit_id (id : semid) : bytes := id_bytes id.

(** src/ast/id.rs:245-250 [SemCommit for Variant]. *)
Definition commit_variant (v : variant) : bytes := commit_name (v_name v) ++ [b8 (v_tag v)].

(** src/ast/id.rs:252-258 [SemCommit for Sizing]. *)
Definition commit_sizing (s : sizing) : bytes := le 8 (s_min s) ++ le 8 (s_max s).

(** src/ast/id.rs:168-199 [SemCommit for Ty], with 201-243 for its parts; [cr] is the commitment of a
    reference. *)
Definition commit_ty {R} (cr : R -> bytes) (t : ty R) : bytes :=
  b8 (cls t) ::
  match t with
  | TPrim code => [b8 code]
  | TUnicode => []
  | TEnum vs => flat_map commit_variant vs
  | TUnion vs => flat_map (fun v => commit_variant (fst v) ++ cr (snd v)) vs
  | TTuple fs => flat_map cr fs
  | TStruct fs => flat_map (fun f => commit_name (fst f) ++ cr (snd f)) fs
  | TArray r len => cr r ++ le 2 len
  | TList r s => cr r ++ commit_sizing s
  | TSet r s => cr r ++ commit_sizing s
  | TMap k r s => cr k ++ cr r ++ commit_sizing s
  end.

(** src/typelib/id.rs:107-148 [SemCommit] for [LibRef], [InlineRef*], [ExternRef]; [ci] commits to an
    inline definition. *)
Definition commit_gref {I} (ci : I -> bytes) (r : gref I) : bytes :=
  match r with
  | RInline t => ci t
  | RNamed id => commit_id id
  | RExtern e => commit_id (er_id e)
  end.

(** src/typelib/id.rs:117-124. *)
Definition commit_ref2 : inline_ref2 -> bytes := commit_gref (fun e : Empty_set => match e with end).
(** src/typelib/id.rs:126-134. *)
Definition commit_ref1 : inline_ref1 -> bytes := commit_gref (commit_ty commit_ref2).
(** src/typelib/id.rs:136-144. *)
Definition commit_ref0 : inline_ref -> bytes := commit_gref (commit_ty commit_ref1).
(** src/typelib/id.rs:107-115. *)
Definition commit_libref : lib_ref -> bytes := commit_gref (commit_ty commit_ref0).

(** src/typelib/id.rs:93-105 [SemCommit] for [TranspileRef] and [SymbolRef]. *)
Fixpoint commit_tref (r : tref) : bytes :=
  match r with
  | TrEmbedded t => commit_ty commit_tref t
  | TrNamed name => commit_name name
  | TrExtern s => commit_id (sr_id s)
  end.

(** src/ast/id.rs:73 [SEM_ID_TAG]. *)
Definition SEM_ID_TAG : bytes := sbytes "urn:ubideco:strict-types:typ:v01".
(** src/typelib/id.rs:37 [LIB_ID_TAG]. *)
Definition LIB_ID_TAG : bytes := sbytes "urn:ubideco:strict-types:lib:v01".
(** src/typesys/id.rs:36 [TYPESYS_ID_TAG]. *)
Definition TYPESYS_ID_TAG : bytes := sbytes "urn:ubideco:strict-types:sys:v01".

(** The message hashed by src/ast/id.rs:91-99, src/typelib/id.rs:152-157, src/typesys/id.rs:77-82. *)
Definition tagged_message (tag msg : bytes) : bytes := sha256 tag ++ sha256 tag ++ msg.
Definition tagged_hash (tag msg : bytes) : N := id_of_bytes (sha256 (tagged_message tag msg)).

(** src/ast/id.rs:90-100 [sem_id_inner]: the message ... *)
Definition sem_message {R} (cr : R -> bytes) (name : option string) (t : ty R) : bytes :=
  match name with Some n => commit_name n | None => [] end ++ commit_ty cr t.
(** ... and the id. *)
Definition sem_id_inner {R} (cr : R -> bytes) (name : option string) (t : ty R) : semid :=
  tagged_hash SEM_ID_TAG (sem_message cr name t).

(** src/ast/id.rs:115, 127 [sem_id_named]. *)
Definition sem_id_named {R} (cr : R -> bytes) (name : string) (t : ty R) : semid :=
  sem_id_inner cr (Some name) t.

(** src/ast/id.rs:104-111, 116-122 [sem_id_unnamed], for references without [as_ty] ([SemId], [LibRef],
    [InlineRef*] use the default [as_ty] of src/ast/ty.rs:42 returning [None]); the recursive call is
    not reachable then. *)
Definition sem_id_unnamed {R} (cr : R -> bytes) (t : ty R) : semid :=
  match as_wrapped_ty (fun _ => None) t with
  | Some inner => sem_id_inner cr None inner
  | None => sem_id_inner cr None t
  end.

(** src/typelib/symbolic.rs:113-124 [TranspileRef::id]. *)
Definition tref_id (r : tref) : semid :=
  match r with
  | TrExtern s => sr_id s
  | _ => tagged_hash SEM_ID_TAG (commit_tref r)
  end.

(** src/ast/id.rs:51-54, 76 [SemId::unit]; 85 [SemId::byte], 86 [SemId::unicode_char]; the id of [U8]. *)
Definition unit_id : semid := sem_id_unnamed commit_id (TPrim P_UNIT).
Definition byte_id : semid := sem_id_unnamed commit_id (TPrim P_BYTE).
Definition u8_id : semid := sem_id_unnamed commit_id (TPrim P_U8).
Definition unicode_id : semid := sem_id_unnamed commit_id TUnicode.

(** src/ast/id.rs:80-81 [TypeRef for SemId]: [is_unicode_char], [is_byte]. *)
Definition is_unicode_id (id : semid) : bool := unicode_id =? id.
Definition is_byte_id (id : semid) : bool := (byte_id =? id) || (u8_id =? id).

(** ** Type libraries *)

(** src/typelib/type_lib.rs:215-218 [Dependency]. *)
Record dependency := mkDep { d_id : libid; d_name : string }.

(** src/typelib/symbolic.rs:38 [ExternTypes]: map from library name to map from id to type name. *)
Definition extern_types := list (string * list (semid * string)).

(** src/typelib/type_lib.rs:261-266 [TypeLib]. Sets and maps are lists in the order of their keys. *)
Record type_lib := mkLib {
  l_name : string;
  l_deps : list dependency;
  l_extern : extern_types;
  l_types : list (string * ty lib_ref)
}.

(** The semantic id of a library type, src/typelib/id.rs:83. *)
Definition lib_type_id (nt : string * ty lib_ref) : semid := sem_id_named commit_libref (fst nt) (snd nt).

(** src/typelib/id.rs:74-91 [SemCommit for TypeLib, Dependency]. *)
Definition lib_message (l : type_lib) : bytes :=
  commit_name (l_name l)
  ++ [b8 (lenN (l_deps l) mod 256)]
  ++ flat_map (fun d => id_bytes (d_id d)) (l_deps l)
  ++ le 2 (lenN (l_types l))
  ++ flat_map (fun nt => commit_id (lib_type_id nt)) (l_types l).

(** src/typelib/id.rs:151-158 [TypeLib::id]. *)
Definition lib_id (l : type_lib) : libid := tagged_hash LIB_ID_TAG (lib_message l).

(** ** Type systems *)

(** src/typesys/type_sys.rs:117 [TypeSystem]: ordered map from semantic ids to types. *)
Definition type_system := list (semid * ty semid).

(** src/typesys/id.rs:66-73 [SemCommit for TypeSystem]. *)
Definition sys_message (s : type_system) : bytes :=
  le 3 (lenN s) ++ flat_map (fun e => commit_id (fst e)) s.

(** src/typesys/id.rs:76-83 [TypeSystem::id]. *)
Definition sys_id (s : type_system) : N := tagged_hash TYPESYS_ID_TAG (sys_message s).

Arguments unit_id : simpl never.
Arguments byte_id : simpl never.
Arguments u8_id : simpl never.
Arguments unicode_id : simpl never.
Global Opaque unit_id byte_id u8_id unicode_id.
