(** Model of the derivation of libraries from Rust types: src/typelib/transpile.rs and
    src/typelib/symbolic.rs (170-275). Only definitions. *)
From Coq Require Import NArith List Bool String.
From Verif Require Import Base Sha256 Ty Ids TypeSys LibCodec Build Compile.
Import ListNotations.
Local Open Scope N_scope.

(** ** Rust types *)

(** A Rust type as [LibBuilder] sees it: which calls of the [TypedWrite] methods its [strict_encode] makes
    for the dumb value (src/typelib/transpile.rs:96-98), with what parameters. [lib] and [name] are
    [StrictType::STRICT_LIB_NAME] and [strict_name]. Primitives, arrays, strings and collections are
    implemented in [strict_encoding] (external) and have no name. Items of collections in the dumb value
    are not represented: they are written before the collection is registered with another dumb value of
    the same type. The field names of tuples are ignored. [written] is the position of the variant of the
    dumb value. [RuNothing] is a type whose [strict_encode] makes no call, as [Void] in
    tests/dependencies.rs:41-49. A type which contains itself has no description: its [strict_encode] would
    not end. *)
Inductive rust : Type :=
| RuPrim (code : N)
| RuNothing (lib : string) (name : option string)
| RuUnicode (s : sizing)
| RuString (c c1 : rust) (s : sizing)
| RuArray (t : rust) (len : N)
| RuList (t : rust) (s : sizing)
| RuSet (t : rust) (s : sizing)
| RuMap (k t : rust) (s : sizing)
| RuEnum (lib : string) (name : option string) (vs : list variant)
| RuUnion (lib : string) (name : option string) (vs : list (variant * (variant_kind * list (string * rust)))) (written : nat)
| RuProduct (lib : string) (name : option string) (tuple : bool) (fs : list (string * rust))
with variant_kind : Type := KUnit | KFields (tuple : bool).

(** [T::STRICT_LIB_NAME] and [T::strict_name()] in src/typelib/transpile.rs:240. *)
Definition rust_name (t : rust) : string * option string :=
  match t with
  | RuNothing lib name | RuEnum lib name _ | RuUnion lib name _ _ | RuProduct lib name _ _ => (lib, name)
  | _ => (LIB_EMBEDDED, None)
  end.

(** ** Equality of types, as in the assertion of src/typelib/transpile.rs:262 *)

(** [PartialEq for Variant] (external): equal when the tags or the names are. *)
Definition variant_eqb (a b : variant) : bool := (v_tag a =? v_tag b) || (v_name a =? v_name b)%string.
(** Derived [PartialEq] (external [Sizing]; src/typelib/symbolic.rs:62 [SymbolRef]). *)
Definition sizing_eqb (a b : sizing) : bool := (s_min a =? s_min b) && (s_max a =? s_max b).
Definition symref_eqb (a b : symbol_ref) : bool :=
  (sr_lib a =? sr_lib b)%string && (sr_name a =? sr_name b)%string && (sr_libid a =? sr_libid b) && (sr_id a =? sr_id b).
(** [PartialEq] of [Vec], [BTreeMap], [BTreeSet]. *)
Definition list_eqb {A B} (eqb : A -> B -> bool) : list A -> list B -> bool := fix list_eqb l l' :=
  match l, l' with
  | [], [] => true
  | a :: l, b :: l' => eqb a b && list_eqb l l'
  | _, _ => false
  end.
(** src/ast/ty.rs:108 derived [PartialEq for Ty]; 347, 366, 441, 508, 642 for its parts. *)
Definition ty_eqb {A B} (eqb : A -> B -> bool) (t : ty A) (t' : ty B) : bool :=
  match t, t' with
  | TPrim p, TPrim p' => p =? p'
  | TUnicode, TUnicode => true
  | TEnum vs, TEnum vs' => list_eqb variant_eqb vs vs'
  | TUnion vs, TUnion vs' => list_eqb (fun a b => variant_eqb (fst a) (fst b) && eqb (snd a) (snd b)) vs vs'
  | TStruct fs, TStruct fs' => list_eqb (fun a b => (fst a =? fst b)%string && eqb (snd a) (snd b)) fs fs'
  | TTuple fs, TTuple fs' => list_eqb eqb fs fs'
  | TArray r n, TArray r' n' => eqb r r' && (n =? n')
  | TList r s, TList r' s' => eqb r r' && sizing_eqb s s'
  | TSet r s, TSet r' s' => eqb r r' && sizing_eqb s s'
  | TMap k r s, TMap k' r' s' => eqb k k' && eqb r r' && sizing_eqb s s'
  | _, _ => false
  end.
(** src/typelib/symbolic.rs:94 derived [PartialEq for TranspileRef]. *)
Fixpoint tref_eqb (r r' : tref) : bool :=
  match r, r' with
  | TrEmbedded t, TrEmbedded t' => ty_eqb tref_eqb t t'
  | TrNamed n, TrNamed n' => (n =? n')%string
  | TrExtern e, TrExtern e' => symref_eqb e e'
  | _, _ => false
  end.

(** ** The builder *)

(** src/typelib/symbolic.rs:170-193 [TranspileError]. *)
Inductive transpile_error : Type :=
| TeUnknownType (unknown : string) (within : ty tref)
| TeUnknownLib (lib : string)
| TeTooManyDependencies
| TeTooManyTypes
| TeLibTooLarge (lib : string)
| TeMissesType (lib : string) (id : semid) (name : string).

(** src/typelib/transpile.rs:53-60 [LibBuilder], without the sink. The set of ids of a dependency is a
    list. The hash maps are lists; the types and external types are in the order of keys here, see
    [compile_symbols] for the order of iteration. *)
Record lib_builder := mkLibBuilder {
  lb_lib : string;
  lb_known : list (dependency * option (list semid));
  lb_extern : list (string * list (semid * string));
  lb_types : list (string * ty tref);
  lb_last : option tref
}.

(** src/typelib/transpile.rs:82-94 [with], 68-80 [new] (there all the sets are [None]). The dependencies
    have different ids: else the last one replaces others in the hash map. *)
Definition builder_with (lib : string) (known : list (dependency * option (list semid))) : lib_builder :=
  mkLibBuilder lib known [] [] None.

(** [self.last_compiled = Some(..)]. *)
Definition set_last (b : lib_builder) (r : tref) : lib_builder :=
  mkLibBuilder (lb_lib b) (lb_known b) (lb_extern b) (lb_types b) (Some r).

(** src/typelib/transpile.rs:100-106 [dependency_id]. *)
Definition dependency_id (b : lib_builder) (lib : string) : outcome transpile_error libid :=
  match find (fun k => (d_name (fst k) =? lib)%string) (lb_known b) with
  | Some k => Ok (d_id (fst k))
  | None => Panic
  end.

(** src/typelib/transpile.rs:253-280 [report_compiled]. *)
Definition report_compiled (b : lib_builder) (lib : string) (name : option string) (t : ty tref)
  : outcome transpile_error lib_builder :=
  match name with
  | Some name =>
      if (lib =? lb_lib b)%string then
        let insert := Ok (mkLibBuilder (lb_lib b) (lb_known b) (lb_extern b)
                            (om_insert String.compare name t (lb_types b)) (Some (TrNamed name))) in
        match om_get String.compare name (lb_types b) with
        | Some old => if ty_eqb tref_eqb old t then insert else Panic
        | None => insert
        end
      else
        let id := sem_id_named commit_tref name t in
        let ids := match om_get String.compare lib (lb_extern b) with Some ids => ids | None => [] end in
        let* lib_id := dependency_id b lib in
        Ok (mkLibBuilder (lb_lib b) (lb_known b)
              (om_insert String.compare lib (om_insert N.compare id name ids) (lb_extern b))
              (lb_types b) (Some (TrExtern (mkSymRef lib name lib_id id))))
  | None => Ok (set_last b (TrEmbedded t))
  end.

(** src/typelib/transpile.rs:233-251 [compile_type]; [encode] is [value.strict_encode]. *)
Definition compile_type (encode : lib_builder -> outcome transpile_error lib_builder) (lib_name : string * option string)
  (b : lib_builder) : outcome transpile_error (lib_builder * tref) :=
  let compile_ := fun b => let* b := encode b in let* r := expect (lb_last b) in Ok (b, r) in
  let (lib, name) := lib_name in
  match name with
  | None => compile_ b
  | Some name =>
      if (lib =? LIB_EMBEDDED)%string then compile_ b
      else if negb (lib =? lb_lib b)%string then
        let* (b, r) := compile_ b in
        let* lib_id := dependency_id b lib in
        Ok (b, TrExtern (mkSymRef lib name lib_id (tref_id r)))
      else match om_get String.compare name (lb_types b) with
           | Some _ => Ok (b, TrNamed name)
           | None => compile_ b
           end
  end.

(** The calls of [_define_field], src/typelib/transpile.rs:310-316, or of [_write_field], 318-335 (no
    builder which writes has a cursor), for all fields. *)
Definition compile_fields (compile : rust -> lib_builder -> outcome transpile_error (lib_builder * tref))
  : list (string * rust) -> lib_builder -> outcome transpile_error (lib_builder * list (string * tref)) :=
  fix compile_fields fs b :=
  match fs with
  | [] => Ok (b, [])
  | (n, t) :: fs =>
      let* (b, r) := compile t b in
      let* (b, rs) := compile_fields fs b in
      Ok (b, (n, r) :: rs)
  end.

(** src/typelib/transpile.rs:337-365 [_build_struct]. *)
Definition build_struct (tuple : bool) (fs : list (string * tref)) : outcome transpile_error (ty tref) :=
  match fs with
  | [] => Ok (TPrim P_UNIT)
  | _ => if negb (lenN fs <=? u8_max) then Panic
         else Ok (if tuple then TTuple (map snd fs) else TStruct fs)
  end.

(** [Confined::try_from] of src/typelib/transpile.rs:486-488, 493-495. *)
Definition confined_variants {A} (l : list A) : outcome transpile_error (list A) :=
  if (1 <=? lenN l) && (lenN l <=? u8_max) then Ok l else Panic.

(** src/typelib/transpile.rs:592-645 [define_unit], [define_tuple], [define_struct]; 658-708 [write_unit],
    [write_tuple], [write_struct]: the body of a variant becomes the last compiled type. *)
Definition compile_variant (compile : rust -> lib_builder -> outcome transpile_error (lib_builder * tref))
  (body : variant_kind * list (string * rust)) (b : lib_builder) : outcome transpile_error lib_builder :=
  match body with
  | (KUnit, _) => Ok (set_last b (TrEmbedded (TPrim P_UNIT)))
  | (KFields tuple, fs) =>
      let* (b, rs) := compile_fields compile fs b in
      let* t := build_struct tuple rs in
      Ok (set_last b (TrEmbedded t))
  end.

(** The calls which define the variants, with src/typelib/transpile.rs:470-474 [_define_variant]. The map
    from variants is the one built in 476-489 [_build_union]; the writer (external) refuses repeated names
    and tags, which is not modelled. *)
Definition define_variants (compile : rust -> lib_builder -> outcome transpile_error (lib_builder * tref))
  : list (variant * (variant_kind * list (string * rust))) -> lib_builder -> list (variant * tref) ->
    outcome transpile_error (lib_builder * list (variant * tref)) :=
  fix define_variants vs b defined :=
  match vs with
  | [] => Ok (b, defined)
  | (v, body) :: vs =>
      let* b := compile_variant compile body b in
      let* r := expect (lb_last b) in
      define_variants vs b (om_insert variant_cmp v r defined)
  end.

(** The calls which write the variant of the value; it is one of the defined. *)
Definition write_nth (compile : rust -> lib_builder -> outcome transpile_error (lib_builder * tref))
  : list (variant * (variant_kind * list (string * rust))) -> nat -> lib_builder -> outcome transpile_error lib_builder :=
  fix write_nth vs written b :=
  match vs, written with
  | [], _ => Panic
  | (_, body) :: _, O => compile_variant compile body b
  | _ :: vs, S n => write_nth vs n b
  end.

(** [sizing.min -= 1; sizing.max -= 1] on u64, src/typelib/transpile.rs:183-184. *)
Definition u64_decr (dbg : bool) (n : N) : outcome transpile_error N :=
  if n =? 0 then (if dbg then Panic else Ok u64_max) else Ok (n - 1).

(** [strict_encode] of a value with the builder as the writer: src/typelib/transpile.rs:109-220. *)
Fixpoint encode (dbg : bool) (t : rust) (b : lib_builder) : outcome transpile_error lib_builder :=
  let compile := fun t b => compile_type (encode dbg t) (rust_name t) b in
  match t with
  (* 156-159 [register_primitive] *)
  | RuPrim code => Ok (set_last b (TrEmbedded (TPrim code)))
  | RuNothing _ _ => Ok b
  (* 168-171 [register_unicode] *)
  | RuUnicode s => Ok (set_last b (TrEmbedded (TList (TrEmbedded TUnicode) s)))
  (* 173-189 [register_rstring] *)
  | RuString c c1 s =>
      let* b := encode dbg c1 b in
      let* r1 := expect (lb_last b) in
      let* b := encode dbg c b in
      let* r := expect (lb_last b) in
      let* min := u64_decr dbg (s_min s) in
      let* max := u64_decr dbg (s_max s) in
      Ok (set_last b (TrEmbedded (TTuple [r1; TrEmbedded (TList r (mkSizing min max))])))
  (* 161-166 [register_array] *)
  | RuArray t len =>
      let* b := encode dbg t b in
      let* r := expect (lb_last b) in
      Ok (set_last b (TrEmbedded (TArray r len)))
  (* 191-196 [register_list] *)
  | RuList t s =>
      let* b := encode dbg t b in
      let* r := expect (lb_last b) in
      Ok (set_last b (TrEmbedded (TList r s)))
  (* 198-203 [register_set] *)
  | RuSet t s =>
      let* b := encode dbg t b in
      let* r := expect (lb_last b) in
      Ok (set_last b (TrEmbedded (TSet r s)))
  (* 205-219 [register_map] *)
  | RuMap k t s =>
      let* b := encode dbg k b in
      let* rk := expect (lb_last b) in
      let* b := encode dbg t b in
      let* r := expect (lb_last b) in
      Ok (set_last b (TrEmbedded (TMap rk r s)))
  (* 125-134 [write_enum], 554-584. The reports of [U8] for the variants are not visible after the end. *)
  | RuEnum lib name vs =>
      let* vs := confined_variants (fold_left (fun s v => set_insert variant_cmp v s) vs []) in
      let* b := report_compiled b lib name (TEnum vs) in
      report_compiled b lib name (TEnum vs)
  (* 117-123 [write_union], 647-650 and 710-713 [complete] *)
  | RuUnion lib name vs written =>
      let* (b, defined) := define_variants compile vs b [] in
      let* defined := confined_variants defined in
      let* b := report_compiled b lib name (TUnion defined) in
      let* b := write_nth compile vs written b in
      report_compiled b lib name (TUnion defined)
  (* 136-154 [write_tuple], [write_struct], 376-391 [_complete_write] *)
  | RuProduct lib name tuple fs =>
      let* (b, rs) := compile_fields compile fs b in
      let* t := build_struct tuple rs in
      report_compiled b lib name t
  end.

(** A chain of calls of src/typelib/transpile.rs:96-98 [transpile]. *)
Fixpoint transpile (dbg : bool) (ts : list rust) (b : lib_builder) : outcome transpile_error lib_builder :=
  match ts with
  | [] => Ok b
  | t :: ts => let* b := encode dbg t b in transpile dbg ts b
  end.

(** ** From the builder to a symbolic library *)

(** src/typelib/symbolic.rs:205-216. *)
Fixpoint check_refs (types : list (string * ty tref)) (within : ty tref) (rs : list (tref * option item_case))
  : outcome transpile_error unit :=
  match rs with
  | [] => Ok tt
  | (TrNamed n, _) :: rs =>
      match om_get String.compare n types with
      | Some _ => check_refs types within rs
      | None => Err (TeUnknownType n within)
      end
  | _ :: rs => check_refs types within rs
  end.
Fixpoint check_types (dbg : bool) (types : list (string * ty tref)) (ts : list (string * ty tref))
  : outcome transpile_error unit :=
  match ts with
  | [] => Ok tt
  | (_, t) :: ts =>
      match type_refs dbg t with
      | Ok rs => let* _ := check_refs types t rs in check_types dbg types ts
      | Err e => match e with end
      | Panic => Panic
      | Diverge => Diverge
      end
  end.

(** src/typelib/symbolic.rs:218-232. The second arm of the match can not be reached: each library is looked
    at once. *)
Fixpoint find_deps (known : list (dependency * option (list semid))) (libs : list string) (used : list (string * dependency))
  : outcome transpile_error (list (string * dependency)) :=
  match libs with
  | [] => Ok used
  | lib :: libs =>
      if (lib =? LIB_EMBEDDED)%string then find_deps known libs used
      else match find (fun k => (d_name (fst k) =? lib)%string) known with
           | None => match om_get String.compare lib used with
                     | None => Err (TeUnknownLib lib)
                     | Some _ => find_deps known libs used
                     end
           | Some k => find_deps known libs (om_insert String.compare lib (fst k) used)
           end
  end.

(** src/typelib/symbolic.rs:237-256, for one library. *)
Fixpoint check_dep (known : list (dependency * option (list semid))) (used : list (string * dependency)) (lib : string)
  (ids : list (semid * string)) : outcome transpile_error unit :=
  match ids with
  | [] => Ok tt
  | (id, name) :: ids =>
      match om_get String.compare lib used with
      | None => Panic
      | Some dep =>
          match find (fun k => d_id (fst k) =? d_id dep) known with
          | None => Panic
          | Some (_, None) => check_dep known used lib ids
          | Some (_, Some types) =>
              if existsb (N.eqb id) types then check_dep known used lib ids else Err (TeMissesType lib id name)
          end
      end
  end.
(** src/typelib/symbolic.rs:235-260. *)
Fixpoint check_deps (known : list (dependency * option (list semid))) (used : list (string * dependency))
  (exts type_map : list (string * list (semid * string))) : outcome transpile_error (list (string * list (semid * string))) :=
  match exts with
  | [] => Ok type_map
  | (lib, ids) :: exts =>
      let* _ := check_dep known used lib ids in
      if lenN ids <=? u16_max then check_deps known used exts (om_insert String.compare lib ids type_map)
      else Err (TeLibTooLarge lib)
  end.

(** src/typelib/symbolic.rs:196-272 [compile_symbols]. The hash maps are iterated over in the order of the
    lists of [b]: in the program it is an arbitrary order, any [b] with the same entries in another order
    stands for another one. The map of types has no limit (48 [NonEmptyOrdMap]), so [TeTooManyTypes] does
    not arise. *)
Definition compile_symbols (dbg : bool) (b : lib_builder) : outcome transpile_error sym_lib :=
  match lb_types b with
  | [] => Panic
  | _ =>
      let* _ := check_types dbg (lb_types b) (lb_types b) in
      let* used := find_deps (lb_known b) (map fst (lb_extern b)) [] in
      let types := fold_left (fun m e => om_insert String.compare (fst e) (snd e) m) (lb_types b) [] in
      let* exts := check_deps (lb_known b) used (lb_extern b) [] in
      if negb (lenN exts <=? u8_max) then Err TeTooManyDependencies
      else
        let deps := fold_left (fun s e => set_insert dep_cmp (snd e) s) used [] in
        if negb (lenN deps <=? u8_max) then Err TeTooManyDependencies
        else Ok (mkSymLib (lb_lib b) deps exts types)
  end.

(** src/typelib/symbolic.rs:274 [LibBuilder::compile]; the conversion of errors (src/typelib/compile.rs:74-89)
    keeps them, here they stay different types. *)
Definition compile_builder (fuel : nat) (dbg : bool) (b : lib_builder) : outcome (transpile_error + compile_error) type_lib :=
  match compile_symbols dbg b with
  | Ok s => match compile fuel dbg s with
            | Ok l => Ok l
            | Err e => Err (inr e)
            | Panic => Panic
            | Diverge => Diverge
            end
  | Err e => Err (inl e)
  | Panic => Panic
  | Diverge => Diverge
  end.
