(** Model of assembling a library by hand: [TypeLib::import] and [TypeLib::populate]. Only definitions. *)
From Coq Require Import NArith List Bool String.
From Verif Require Import Base Ty Ids TypeSys LibCodec Build.
Import ListNotations.
Local Open Scope N_scope.

(** src/typelib/compile.rs:39-71 [CompileError]: the errors of the two functions. *)
Inductive assembly_error : Type :=
| DuplicatedDependency (d : dependency)
| TooManyDependencies
| DuplicateName (n : string)
| TooManyTypes.

(** src/typelib/type_lib.rs:224-226 [PartialEq for Dependency]. *)
Definition dep_eqb (a b : dependency) : bool := (d_id a =? d_id b) || String.eqb (d_name a) (d_name b).

(** [Confined::push] on a set (external): an error when the set is full. *)
Definition confined_push {K} (cmp : K -> K -> comparison) (max : N) (k : K) (s : list K) : outcome oversize (list K) :=
  if lenN s =? max then Err Oversize else Ok (set_insert cmp k s).

(** src/typelib/type_lib.rs:288-294 [import]: the result and the library afterwards. [BTreeSet::contains] goes by
    [Ord], lines 232-234. *)
Definition import (l : type_lib) (d : dependency) : outcome assembly_error unit * type_lib :=
  if set_mem dep_cmp d (l_deps l) then (Err (DuplicatedDependency d), l)
  else match confined_push dep_cmp u8_max d (l_deps l) with
       | Ok deps => (Ok tt, mkLib (l_name l) deps (l_extern l) (l_types l))
       | _ => (Err TooManyDependencies, l)
       end.

(** src/typelib/type_lib.rs:296-302 [populate]: the result and the library afterwards. *)
Definition populate (l : type_lib) (n : string) (t : ty lib_ref) : outcome assembly_error unit * type_lib :=
  match om_get String.compare n (l_types l) with
  | Some _ => (Err (DuplicateName n), l)
  | None =>
      match confined_insert String.compare u16_max n t (l_types l) with
      | Ok types => (Ok tt, mkLib (l_name l) (l_deps l) (l_extern l) types)
      | _ => (Err TooManyTypes, l)
      end
  end.

(** A program which calls the two functions, and its results (no function of the crate). *)
Inductive call := Import (d : dependency) | Populate (n : string) (t : ty lib_ref).
Definition perform (l : type_lib) (o : call) : outcome assembly_error unit * type_lib :=
  match o with Import d => import l d | Populate n t => populate l n t end.
Fixpoint perform_all (l : type_lib) (os : list call) : list (outcome assembly_error unit) * type_lib :=
  match os with
  | [] => ([], l)
  | o :: os => let r := perform l o in let rs := perform_all (snd r) os in (fst r :: fst rs, snd rs)
  end.
