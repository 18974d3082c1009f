(** Specification for the derivation of libraries from Rust types. *)
From Coq Require Import NArith List Bool String Permutation.
From Verif Require Import Base Ty Ids TypeSys Spec SpecIds LibCodec SpecLib Compile Transpile.
Import ListNotations.
Local Open Scope N_scope.

(** ** Structure of types *)

(** A type as a tree: the library and the name if it has them, and the structure with the types of the
    components in their places. *)
Inductive stype : Type := SType (name : option (string * string)) (body : ty stype).
Definition st_name (s : stype) : option (string * string) := match s with SType n _ => n end.
Definition st_body (s : stype) : ty stype := match s with SType _ b => b end.

(** The same items in the order of tags. *)
Fixpoint place {A} (tag : A -> N) (a : A) (l : list A) : list A :=
  match l with
  | [] => [a]
  | b :: r => if tag a <? tag b then a :: l else b :: place tag a r
  end.
Definition by_tag {A} (tag : A -> N) (l : list A) : list A := fold_left (fun s a => place tag a s) l [].

(** What a Rust type is as a strict type: a product without fields is the unit type; a restricted string
    is its first character with the list of the others; a variant with fields holds a product without name.
    A type which writes nothing is the unit type. *)
Definition product (tuple : bool) (fs : list (string * stype)) : ty stype :=
  match fs with
  | [] => TPrim P_UNIT
  | _ => if tuple then TTuple (map snd fs) else TStruct fs
  end.
Definition full_name (lib : string) (name : option string) : option (string * string) := option_map (pair lib) name.
Fixpoint meaning (t : rust) : stype :=
  let fields := fun fs => map (fun f => (fst f, meaning (snd f))) fs in
  match t with
  | RuPrim code => SType None (TPrim code)
  | RuNothing lib name => SType (full_name lib name) (TPrim P_UNIT)
  | RuUnicode s => SType None (TList (SType None TUnicode) s)
  | RuString c c1 s =>
      SType None (TTuple [meaning c1; SType None (TList (meaning c) (mkSizing (s_min s - 1) (s_max s - 1)))])
  | RuArray t len => SType None (TArray (meaning t) len)
  | RuList t s => SType None (TList (meaning t) s)
  | RuSet t s => SType None (TSet (meaning t) s)
  | RuMap k t s => SType None (TMap (meaning k) (meaning t) s)
  | RuEnum lib name vs => SType (full_name lib name) (TEnum (by_tag v_tag vs))
  | RuUnion lib name vs _ =>
      SType (full_name lib name) (TUnion (by_tag (fun e => v_tag (fst e))
        (map (fun v => (fst v, match fst (snd v) with
                               | KUnit => SType None (TPrim P_UNIT)
                               | KFields tuple => SType None (product tuple (fields (snd (snd v))))
                               end)) vs)))
  | RuProduct lib name tuple fs => SType (full_name lib name) (product tuple (fields fs))
  end.

(** The type itself, its components, theirs and so on. *)
Inductive part : stype -> stype -> Prop :=
| part_self s : part s s
| part_inner s r n body : In r (refs body) -> part s r -> part s (SType n body).

(** Types which are part of another one through no type of another library than [own]. *)
Inductive inside (own : string) : stype -> stype -> Prop :=
| inside_self s : inside own s s
| inside_step p r n body : In r (refs body) -> inside own p r ->
    (forall lib m, n = Some (lib, m) -> lib = own) -> inside own p (SType n body).

(** The id of a type: the hash of the name, if any, and of the structure; types with names are represented
    there by their ids, those without names by their structure. *)
Fixpoint st_commit (s : stype) : bytes :=
  match s with
  | SType None body => commit_ty st_commit body
  | SType (Some (_, name)) body => id_bytes (tagged_hash SEM_ID_TAG (commit_name name ++ commit_ty st_commit body))
  end.
Definition st_id (s : stype) : semid :=
  match s with
  | SType None body => tagged_hash SEM_ID_TAG (commit_ty st_commit body)
  | SType (Some (_, name)) body => tagged_hash SEM_ID_TAG (commit_name name ++ commit_ty st_commit body)
  end.

(** ** Conditions *)

(** What can be described: limits for the numbers of fields and variants, different names and tags of
    variants, room for the first character; each type writes something. *)
Definition all {A} (P : A -> Prop) : list A -> Prop := fix all l :=
  match l with [] => True | a :: l => P a /\ all l end.
Definition variants_ok (vs : list variant) : Prop :=
  sized 1 255 vs /\ NoDup (map v_tag vs) /\ NoDup (map v_name vs).
Fixpoint describable (t : rust) : Prop :=
  match t with
  | RuPrim _ | RuUnicode _ => True
  | RuNothing _ _ => False
  | RuString c c1 s => describable c /\ describable c1 /\ 1 <= s_min s /\ 1 <= s_max s
  | RuArray t _ | RuList t _ | RuSet t _ => describable t
  | RuMap k t _ => describable k /\ describable t
  | RuEnum _ _ vs => variants_ok vs
  | RuUnion _ _ vs written =>
      variants_ok (map fst vs) /\ (written < List.length vs)%nat
      /\ all (fun v => sized 0 255 (snd (snd v)) /\ all (fun f => describable (snd f)) (snd (snd v))) vs
  | RuProduct _ _ _ fs => sized 0 255 fs /\ all (fun f => describable (snd f)) fs
  end.

(** All the types which take part. *)
Definition involved (ts : list rust) (s : stype) : Prop := exists t, In t ts /\ part s (meaning t).

(** A name stands for one type only; no library has the name of the embedded types. *)
Definition coherent (U : stype -> Prop) : Prop :=
  forall s s' q, U s -> U s' -> st_name s = Some q -> st_name s' = Some q -> s = s'.
Definition in_libraries (U : stype -> Prop) : Prop :=
  forall s lib n, U s -> st_name s = Some (lib, n) -> lib <> "_"%string.
(** The types of other libraries do not use the types of this one. *)
Definition layered (own : string) (U : stype -> Prop) : Prop :=
  forall s lib n s' lib' n', U s -> st_name s = Some (lib, n) -> lib <> own ->
    part s' s -> st_name s' = Some (lib', n') -> lib' <> own.
(** Types of other libraries are from known dependencies. *)
Definition from_known (own : string) (known : list (dependency * option (list semid))) (U : stype -> Prop) : Prop :=
  forall s lib n, U s -> st_name s = Some (lib, n) -> lib <> own -> exists k, In k known /\ d_name (fst k) = lib.

(** ** References *)

(** The id of the dependency with this name (the first one). *)
Definition dep_id (known : list (dependency * option (list semid))) (lib : string) : libid :=
  match find (fun k => (d_name (fst k) =? lib)%string) known with Some k => d_id (fst k) | None => 0 end.

(** How a type is referred to in the library [own]: by name if it is from this library, by the id if it is
    from another one; types without name are in place. *)
Fixpoint st_ref (own : string) (known : list (dependency * option (list semid))) (s : stype) : tref :=
  match s with
  | SType None body => TrEmbedded (map_ty (st_ref own known) body)
  | SType (Some (lib, n)) _ =>
      if (lib =? own)%string then TrNamed n
      else TrExtern (mkSymRef lib n (dep_id known lib) (st_id s))
  end.
Definition st_def own known (s : stype) : ty tref := map_ty (st_ref own known) (st_body s).

(** ** What is needed *)

(** The types of the library itself: with no more components than can be iterated over; with no more levels
    of types without name than a library can hold. *)
Definition items_ok (own : string) (U : stype -> Prop) : Prop :=
  forall s n, U s -> st_name s = Some (own, n) -> lenN (refs (st_body s)) <= 254.
Fixpoint levels (n : nat) (s : stype) : Prop :=
  match s with
  | SType (Some _) _ => True
  | SType None body => match n with O => False | S n => Forall (levels n) (refs body) end
  end.
Definition levels_ok (own : string) (U : stype -> Prop) : Prop :=
  forall s n, U s -> st_name s = Some (own, n) -> Forall (levels 3) (refs (st_body s)).
(** At most 65535 types of each library. *)
Definition counts_ok (U : stype -> Prop) : Prop :=
  forall lib names, NoDup names -> (forall n, In n names -> exists s, U s /\ st_name s = Some (lib, n)) -> lenN names <= 65535.
(** A type of a library which is a dependency, where it is not among the types of this dependency. *)
Definition lacking (own : string) (known : list (dependency * option (list semid))) (U : stype -> Prop)
  (lib : string) (id : semid) (n : string) : Prop :=
  exists s k types, U s /\ st_name s = Some (lib, n) /\ lib <> own /\ id = st_id s
    /\ find (fun k => (d_name (fst k) =? lib)%string) known = Some k /\ snd k = Some types /\ ~ In id types.

Record transpilable (own : string) (known : list (dependency * option (list semid))) (ts : list rust) : Prop := {
  tp_types : Forall describable ts;
  tp_some : exists s n, involved ts s /\ st_name s = Some (own, n);
  tp_coherent : coherent (involved ts);
  tp_libraries : in_libraries (involved ts);
  tp_layered : layered own (involved ts);
  tp_known : from_known own known (involved ts);
  tp_items : items_ok own (involved ts);
  tp_counts : counts_ok (involved ts);
  tp_deps : lenN known <= 255;
  tp_ids : NoDup (map (fun k => d_id (fst k)) known)
}.

(** The library derived from the types; the hash maps of the builder may be iterated over in any order. *)
Record reordered (b b' : lib_builder) : Prop := {
  re_lib : lb_lib b' = lb_lib b;
  re_known : lb_known b' = lb_known b;
  re_extern : Permutation (lb_extern b') (lb_extern b);
  re_types : Permutation (lb_types b') (lb_types b)
}.
Definition symbols_of (dbg : bool) own known ts (r : outcome transpile_error sym_lib) : Prop :=
  exists b b', transpile dbg ts (builder_with own known) = Ok b /\ reordered b b' /\ compile_symbols dbg b' = r.
Definition derives (dbg : bool) own known ts (r : outcome (transpile_error + compile_error) type_lib) : Prop :=
  exists b b', transpile dbg ts (builder_with own known) = Ok b /\ reordered b b'
    /\ exists n, forall fuel, (n <= fuel)%nat -> compile_builder fuel dbg b' = r.

(** Different types of one library have different ids. *)
Definition ids_differ (U : stype -> Prop) : Prop :=
  forall s s' lib n n', U s -> U s' -> st_name s = Some (lib, n) -> st_name s' = Some (lib, n') -> st_id s = st_id s' -> n = n'.

(** Several libraries, each derived from Rust types with its own dependencies. *)
Record job := mkJob { j_own : string; j_known : list (dependency * option (list semid)); j_types : list rust }.
Definition derived_by (dbg : bool) (j : job) (l : type_lib) : Prop :=
  transpilable (j_own j) (j_known j) (j_types j) /\ derives dbg (j_own j) (j_known j) (j_types j) (Ok l).
(** Each type with a name takes part in the derivation of its library. *)
Definition covered (jobs : list job) : Prop :=
  forall j s lib n, In j jobs -> involved (j_types j) s -> st_name s = Some (lib, n) ->
    exists j', In j' jobs /\ j_own j' = lib /\ involved (j_types j') s.
