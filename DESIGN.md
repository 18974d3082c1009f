# Verification of `strict-types`: design

Source: `/repo` (Rust, read as text, neither built nor run). Model and proofs: Rocq/Coq 8.16.1 in
`rocq/theories`, standard library only. The properties are in `properties.jsonl`, the theorems for each of
them in `MANIFEST.json`.

## Approach

The Rust functions are modelled one by one as total computable Gallina functions; each definition cites the
file and lines it models and says where it is simplified.

* Bytes are `Init.Byte.byte`; byte strings `list byte`; Rust `String`/ASCII names are Coq `string` (byte
  sequences); integers are `N`/`Z` with explicit ranges.
* A Rust call returns an `outcome`: `Ok v`, `Err e`, `Panic` (any panic: `expect`, slice out of range,
  `todo!()`, failed `debug_assert!`, arithmetic overflow in a debug build, failed allocation), or `Diverge`
  (the fuel of the model ran out: only used for recursion or loops which the Rust code does not bound).
  Statements about results say `returns run r`: with any sufficient fuel the result is `r`.
* Build profile is a parameter: `dbg` says whether debug assertions and overflow checks are on. Theorems
  quantify over it.
* Ordered maps and sets are association lists sorted by key; `IndexMap` is the list in insertion order.
* SHA-256 is implemented concretely (`Sha256.v`, tested on published vectors), so semantic ids in the model
  are the real ids. No assumption about the hash is made: statements about ids are on the committed messages,
  or exhibit the two colliding messages.
* The specifications (`Spec*.v`) are separate from the model. They use the data types of the model (values,
  types, libraries) but none of its functions on them, except the ids (hash of a message) where a statement
  is about ids.

Bugs of the code are modelled as they are. When a property is false of the code, a theorem `..._refuted`
proves that with a concrete witness, and theorems `..._partial` prove what does hold. Such a property has
the status `partial` in the manifest with a note beginning with what is false.

Beside each theorem an `Example` shows that a concrete, non-trivial case meets its hypotheses.

## Files

| Files | Content |
|---|---|
| `Base`, `Sha256` | outcomes, bytes, numbers; hash |
| `Ty`, `Val`, `Ids`, `TypeSys`, `Encode`, `Decode`, `Typify`, `LibCodec`, `Build`, `Compile`, `Layout`, `Transpile`, `Serde`, `Ston`, `Sty`, `Text`, `Assemble`, `SysText`, `ByName`, `Files`, `Macros`, `Refs` | the model |
| `Spec*` | specifications |
| `Prop*` | the theorems `Cxx…` with examples and `Print Assumptions` |
| `Artifacts`, `ArtifactsBuild`, `ArtifactsLayout`, `ArtifactsSty` | tests of the model: the `.sta` libraries of the repository decode, re-encode to the same bytes, and have the ids published there; assembling and compiling them works; the layout of the type of libraries is the text of `stl/TypeLib.vesper` (number of lines and checksum); the source text of both libraries is that of `stl/*.sty` without mnemonics |
| others | lemmas |
| `tools/artifacts.py`, `tools/sty.py` | generate `Artifacts*.v` from the files in `/repo` |
| `tools/manifest.py`, `tools/notes.json` | generate `MANIFEST.json` |
| `tools/mutate.py`, `seeded/mutants.json`, `seeded/LOG.jsonl` | mutation tests of the theorems |

## Properties

| Property | Modelled code | How proved |
|---|---|---|
| C01–C05 | `value/encode.rs`, `value/decode.rs` | framed round trip by induction on the typing derivation `has_type` (Spec.v); C02 and C05 also by induction on the depth of decoding. C01, C02 false for non-byte arrays, exactly which values are affected: `C01_exact`, `C02_exact` |
| C06, C07 | `value/decode.rs` | false (witnesses); the exact image of the decoder is characterised. Elements and keys are repeated exactly when their encodings in the data are (C07_set_exact, C07_map_exact, PropWire.v), as every value has one encoding (`wire_same`, WireUnique.v, which also gives C02_unique for all type systems) |
| C08–C15, C41 | `value/typify.rs` with encode/decode | induction on `has_type` and on `denotes` (SpecTypify.v), the relation of notations to values; acyclicity by a rank; recursive types (SpecRecursive.v) by the length of the data or the height of the value, then the rank. C08_exact: kept are exactly the values without numbers of Byte (`holds_byte`, SpecByteNumber.v). C08–C10, C12–C15 false in part |
| C16–C18 | `value/decode.rs`, `value/encode.rs` | case analysis; C16 false in part |
| C19–C21 | `typesys/type_sys.rs` (`extract`, `extend`) | invariant of the work list against graph reachability; `C19_exact`, `C19_failure`: also with types of 255 components |
| C22–C25, C44–C47 | `typesys/translate.rs`, `typesys/symbols.rs` | invariants over import sequences; the collection of all definitions (SpecBuild.v); `C25_exact`: all lookups in a built system by the last definitions; `C23_exact`, `C24_exact` (PropBuildExact.v): exactly when a system is built and when the order of imports matters |
| C26–C30, C43 | `ast/id.rs`, `typelib/id.rs`, `typesys/id.rs` | injectivity of the committed message; colliding messages where it is not injective |
| C31, C32 | `ast/encoding.rs` and the derived codecs of types, libraries, symbolic libraries, systems, symbols | codec combinators with round trip and canonicity lemmas; search trees of variants (BTreeProofs.v): an insertion adds at the end or replaces a value |
| C33–C36, C48, C49 | `typelib/compile.rs`, `typelib/symbolic.rs` (`compile`, `to_symbolic`), `typelib/translate.rs` | the relation `lib_compiled` (SpecCompile.v); loop invariants; uniqueness of the solution of the naming equations; the symbolic form as an inverse of resolution. Which libraries compile, and what happens to others: `C34_exact`, `C34_stuck`; `C36_exact` (PropSymbolic.v): each translation step decides whether its references are told by the library (`libref_told`), so libraries are turned back exactly when all are; 65535 listed types of one dependency are allowed in a library, but then none of them is told |
| C37–C39 | `ast/ty.rs`, `ast/iter.rs`, `ast/path.rs` | direct; `C39_exact`: paths of any length; `C37_exact`, `C38_tuple_exact`: exactly where they fail |
| C40, C42 | `value/val.rs`, `value/path.rs` | direct, induction on wrappers. Text is specified by the definition of UTF-8 (SpecUtf8.v, also in `has_type` and `wire`), proved equivalent to the check of the standard library (Utf8Proofs.v) |
| C50 | encode, decode | the relation `wire` (SpecWire.v) |
| C51–C53 | `typesys/iter.rs`, `layout/*.rs` | trees of components (relation `laid`, SpecLayout.v); the iterator visits the tree in preorder, by induction on the derivation; `C51_exact` and `C51_recursive` (LayoutEnds.v) say exactly for which types it ends: rounds of types whose parts have trees are computed until nothing is added, what is left contains itself; rebuilding of the tree from depths by an invariant on the path; the attributes shown (sizes, bounds, primitives, wrappers) follow the type; `C52_exact` (LayoutShown.v): showing a layout panics exactly for optional types, otherwise every item is shown once and in order; `C52_nesting_exact`: the nesting is right exactly when optional items come first (an expression is given by its heads and depths in preorder; the depth of each item is the smaller of the one of the item and one more than that of the one before) |
| C54–C58 | `typelib/transpile.rs`, `typelib/symbolic.rs` (`LibBuilder`) and what follows them | a Rust type is modelled by the calls its `strict_encode` makes on the writer; `meaning` (SpecTranspile.v) is its structure as a tree. Invariant of the builder: what it has recorded is the structure of the types seen so far. C54 false in part; C58 joins this with C33, C45 |
| C59, C60 | `value/val.rs` (serde), `value/convert.rs` | documents (`doc`, Serde.v) with the text form outside; writing, reading and typifying is the identity on the class `documentable`, by induction on typing; documents of the relation `natural` (SpecSerde.v) give notations of C41. The rest refuted |
| C61 | `value/ston.rs` | the text of an item ends where a scan of brackets and quotes says; injectivity by induction on typing; brackets are balanced (inductive relation `balanced`, SpecSton.v) |
| C62–C64 | `Display` in `ast/ty.rs`, `typelib/symbolic.rs`, `typelib/serialize.rs`; `SemVer` of `util.rs` | the text of primitives and sizes and mnemonics are parameters with stated requirements (`prims_legible`, `sizings_legible`, `mnemonics_legible`, SpecSty.v), met by the forms seen in `stl/*.sty`. C62 by comparison of the committed messages (C62_named: by their lengths). C63: a scan of brackets finds the end of an item; unique reading by induction on the size of types, for the class `clear_type`. C64 direct. All false in part |
| C65, C66 | `Display` in `value/path.rs`, `ast/path.rs`, `typesys/type_sys.rs` (`TypeFqn`) | steps begin with marks which do not occur in names and numbers; injectivity by induction. C65 false for numeric against text keys |
| C67, C68 | `TypeLib::import`, `populate` of `typelib/type_lib.rs` | sequences of calls with their results; ordered lists with the same elements are equal. C68 false for dependencies of the same name |
| C69 | `LibBuilder::compile_symbols` of `typelib/symbolic.rs` | the result of each of its checks, by induction; the specification (SpecSymbols.v) says what is unresolved |
| C70, C71 | `Display` in `typesys/type_sys.rs`, `typesys/symbols.rs`, `typesys/translate.rs`, `typelib/serialize.rs`, `typelib/type_lib.rs` | the text of a type with ids is the text of a type with names for references (`embed`, `map_ty`), so that the unique reading of C63 applies, for ids of the form `ids_legible`. Both false in part |
| C72 | all of C50 and C58 | the bytes which Rust programs write are the relation `written` (SpecRust.v), stated for Rust types alone; by induction on the Rust type it agrees with `wire` in any system which describes the type. False in part |
| C73 | `to_sem_id`, `get`, `type_tree` of `SymbolicSys`, operations by name in `value/decode.rs`, `value/typify.rs` | the name is resolved first (C25, C44), then the operation by id is used; compositions with C41 and C72. False in part |
| C74, C75 | `TypeLib::serialize`, `SymbolicLib::serialize`, `StlFormat`, `parse_args` | files are a function from paths to contents (Files.v), with an oracle for files which can be created; text of ids, the armor and the part written before the size limit of 2^24 - 1 bytes is reported are parameters. By computation, C31, C36, induction on the sequence of saves; the meaning of arguments is an inductive relation (`asks`, SpecFiles.v). C74 is false for saves which fail; `C74_exact`: exactly which saves succeed |
| C76 | the decoders of C31, C32 | each decoder gives the same result when something follows the data it consumed (LibPrefix.v), so two accepted data, one of which begins with the other, are equal |
| C77, C78 | `variants!`, `fields!` of `macros.rs` | a macro is a function of its entries; the `BTreeMap` of the standard library is modelled with its nodes and splits (`tree_insert`, Macros.v), as the order of variants is not transitive. The entries stay in the order of tags, by induction on the tree (MacrosProofs.v). C77 is false for repeated names |
| C79 | `TypeSystem` with the operations of C19–C22, C32 | systems obtained by any sequence of operations are an inductive predicate (`grown`, SpecLimits.v); induction on it. The size limit is false: the size of joined systems is computed symbolically |
| C80 | macros `ston!`, `sv!`, `svenum!` of `value/val.rs` | the patterns of the macro are data and matched with tokens as the Rust language does (StonMacro.v); which rule is used is shown by induction on the groups of tokens. An expression is one token with a given value; negative numbers are such expressions |
| C81 | `Display` of `SymbolRef` in `typelib/symbolic.rs`, of `Urn` in `util.rs` | the text of ids is a parameter, required to differ for different ids (Refs.v). The first dot and the first `#` end the names, which have neither |

## Findings

Deviations from what a user relies on, each proved in the model. The letter is for reference only.

Values:

* (a) `encode.rs` has no arm for a list value of an array type: serializing any fixed-size array of
  anything but bytes panics (C01, C02, C09; exactly these types are affected, C50_serializable).
* (b) `typify` keeps a one-character string given for an enum when its code is a tag; serializing it then
  panics (C09_enum_refuted).
* (c) In debug builds, serializing a decoded restricted string longer than its bound panics
  (C02_debug_refuted).
* (d) The bound of a restricted string is computed as `max + 1`, which overflows for the largest bound
  (C16_overflow_refuted).
* (e) Lists of bytes or characters with a bound above 2^32-1 decode as lists of items, not as a string.
* (f) A structure with a repeated field name (possible in a decoded type system) loses data.
* (g) The encoder truncates a length which does not fit its prefix, without an error.
* (h) The decoder checks neither size bounds nor alphabets nor uniqueness (C06, C07).
* (i) The decoder panics on Unicode characters outside of strings (`todo!()`), and allocates the length
  found in the data before reading (C16).
* (j) `typify`: unsigned numbers for `Byte` become signed (C08); out-of-range numbers are accepted and
  truncated (C10); `Uint` is accepted for 128-bit numbers and panics on serialization; any ASCII string is
  accepted for any pair (C09); lists longer or shorter than a tuple (C14_list_refuted) and maps without some of the
  fields of a structure are accepted (C09, C14); arrays shorter than their length are accepted (C12); set elements which
  differ only in notation are accepted as different (C13); cyclic types make it run forever (C15).

Types, paths, accessors:

* (k) Iterating over a type of exactly 255 components panics in debug builds (C37), hence also `extract`
  (C19), `finalize` and `compile_symbols`.
* (l) `case_at` for tuples tests `len == pos` (C38).
* (m) `Ty::at_path` takes steps from the end of the path, each from the starting type, and has no arm for
  tuples (C39).
* (n) `StrictVal::at_path` makes the first step only; a numeric key does not match big numbers (C40).
* (o) A tuple of one field is indistinguishable from a newtype wrapper for the accessors (C42).

Ids:

* (p) The commitment of inline definitions has no end marker: `{inner: {a}, b}` and `{inner: {a, b}}` have
  one id, so that different libraries and type systems have the same id (C27, C24, C25).
* (q) A named and an unnamed type can have the same committed message when ids are specially made (C28).

Libraries and type systems:

* (r) Unions and enums with repeated variant names are decoded, silently dropping variants: the binary
  format is not canonical (C32).
* (s) `SystemBuilder::finalize` tests the presence of the referring type instead of the one referred to:
  dangling references are never reported (C22).
* (t) Two libraries with an identically named and defined type share its id; the later import overwrites
  the name of the earlier (C25).
* (u) `SymbolicLib::compile` on cyclic or unknown names panics in debug builds and runs forever in release
  builds (C34).
* (v) `compile_symbols` panics if external types include ones under the name of the embedded library.
* (w) The key of a type with inline definitions is not the semantic id of the definition stored under it.
* (x) A symbolic library may have more than 65535 types; compiling it panics (C48).
* (y) `compile_symbols` checks top-level references for unknown names only; nested ones go to (u).
* (z) `LibBuilder.known_libs` is a hash map whose keys are equal by id or by name but hashed by id; with two
  known libraries of one name the choice is not determined.
* (aa) In layouts, an option adds a level of depth which `to_vesper` takes for nesting: an optional field
  which is not the first one is shown inside of the previous field, and the layout of an optional type
  panics (`already set`) (C52).
* (ab) Layouts show positions of union variants as their tags (also in `stl/TypeLib.vesper`), and optional
  fields under the name `some` (C53).
* (ac) The tree of a recursive type is endless; such systems do not compile from libraries but can be
  decoded (C51).
* (ad) Transpiling takes a type for an earlier one with the same name, which is the last segment of the Rust
  path: `a::Foo` and `b::Foo` are one type. This is noticed (assertion) only if the second one is transpiled
  at the top; as a field it silently gets the structure of the first one (C54). The assertion compares variants
  by tag or name only.
* (ae) A type which writes nothing (like `Void` in `tests/dependencies.rs`) used as a field gets the type of the
  field before it (C54).
* (af) `write_string` subtracts one from the least length: for a restricted string which may be empty it is
  2^64-1 in a release build and a panic in a debug build (C54).
* (ag) A type of another library which contains a type of the library being derived gets a wrong id (C54); a
  library used only by types of a dependency must be a known dependency too, otherwise there is a panic.
* (ah) Types with 255 components panic or lose the last one in `compile_symbols` (the iterator counts in `u8`);
  the error `TooManyTypes` never arises, more than 65535 types panic later.
* (ai) serde: what is written is not read back in general. Bytes are written in hexadecimal and become the
  bytes of the hexadecimal text, silently; sets and maps are read as lists and rejected; two items of which the
  first is a name or a small number are read as a variant of a union; variants named with one letter stay text
  (C59).
* (aj) Conversion from JSON, YAML and TOML: no document is accepted for a set or a union other than an optional;
  a number with a fraction panics; integers of TOML are signed, and are rejected for unsigned types and enums
  (C60).
* (ak) The text form of values (STON) does not escape quotation marks: different values of one type have the same
  text (C61).
* (al) The mnemonic shown beside a type definition in the source text of a library is not that of the id of the
  type when the definition uses another type of the library by name: the symbolic form commits to the name, the
  compiled form to the id. The line `use Name#…` in the text of a library which uses the type shows another
  mnemonic than the text of the library which defines it (C62).
* (am) The source text of types is ambiguous: an optional tuple is shown like a tuple with the last item optional
  (no parentheses), of a union with variants named `none` and `some` only the content of `some` is shown, and
  wrappers are not shown (C63).
* (an) Versions are shown with pre-release and build metadata exchanged: the pre-release `1.0.0-beta` is shown as
  the release `1.0.0+beta` (C64).
* (ao) Paths are ambiguous: the key 1 and the key "1" of a map are shown alike, and a text key with braces is shown
  like several steps. In paths within types fields and variants are shown alike (C65).
* (ap) `TypeFqn` is made from a text by `From`, which panics on every text which is not a valid name (C66).
* (aq) `TypeLib::import` accepts a dependency which equals one of the library by name, with another id, though the
  two are equal by `==` (C68).
* (ar) The text of type systems and of compiled libraries has the ambiguities of (am) too; of a type system with symbols
  in which two types have one name, references by that name are ambiguous (C70, C71). With the flag `-`, the key of a
  map is shown without it: in the text of a type system the same id has two forms.
* (as) A tuple of a character and a list of characters in a Rust program has, in a type system, the structure of a
  restricted string: its data are read as a string, the first character taken for the length and the length for the
  first character, and may be read without an error. Non-zero numbers, numbers of 128 bits and more and texts with
  64-bit lengths are described by derived libraries, but are never read (C72).
* (at) When two libraries have an identical type (same name and structure), only the name in the library imported last
  stays known. Data and values of the type can then be read and typified by id, but not by the name in the first
  library: `TypeAbsent` is reported (C73).
* (au) Names of variants may repeat in an enumeration or union which is read from data, if it has more than eleven
  variants: because the order of variants is not transitive, the search tree does not see names which are not on the
  way to its last leaf (C32).
* (av) Saving a library empties the file first. When the save fails (a type of the library is missing, so that its source
  text cannot be made and the program panics, or the data exceed 2^24 - 1 bytes), the earlier file is lost, and a
  file with a comment only (with a part of the data) stays (C74). Such a part is not loaded as a library (C76).
* (aw) `variants!` does not see all repeated names: among more than eleven variants, or when tags are given and the
  second of the equal names comes with a smaller tag than a variant between them (`"b" => 5, "a" => 9, "a" => 1`; refused
  in another order). `fields!` accepts repeated names (C77).
* (ax) The documentation of `TypeSystem` promises a serialization shorter than 2^24 bytes; nothing checks it. Two systems
  within the limit can be joined to one beyond it with `extend` (C79), which can then not be serialized with this limit.
* (ay) `ston!(name value)` is an union and not a structure with one field, as the rule for unions comes first; typify
  rejects it for every structure type (C80). The rule for tags of enumerations, `ston!(tag)`, is never reached: an
  identifier is an expression, so it is taken for a variable. Numbers without a suffix (`ston!(precision 8, ...)`) are
  signed (`i32`), and rejected for all unsigned types. A field written twice is accepted. `svtable!` calls
  `StrictVal::table`, which does not exist, so no program which uses it compiles (the function is `map`).

## Mutation tests

`seeded/mutants.json` has realistic wrong versions of definitions of the model. `tools/mutate.py` applies each in
a scratch copy and rebuilds everything after it; a proof which fails is admitted there, and a theorem counts
as failing when it fails itself or uses an admitted lemma. `seeded/LOG.jsonl` has one line for each: the theorems
which failed and, when the broken claim had not been noticed, the theorems which were tightened or added.
RE09 and the second try of RE08 were compiled by hand, only up to the theorem named. Not in the log, as they were
stopped before they had a result: nine mutants of `TypeSys.v`, `Typify.v` and `Ty.v` (RD01-RD06, RD11, RD12,
RD14) and two of `Compile.v` (RE05, RE06).

## Trusted base

* The Coq 8.16.1 kernel (checked again by `coqchk`). No axioms: `Print Assumptions` prints `Closed under the
  global context` for every theorem listed in `MANIFEST.json` (the commands are at the end of each `Prop*.v`).
  `coqchk -o` over all files lists the constants `Coq.ssr.ssrunder.Under_rel.*`: these come from opaque module
  types of the standard library's `ssreflect` loaded with `lia` and are used by no theorem here. `vm_compute`
  (part of the kernel) is used for concrete computations such as ids.
* The correspondence of the model to the Rust code, which is by reading. It is supported by tests against
  the libraries and ids in the repository (`Artifacts*.v`).
* The specifications `Spec*.v` and the statements of the theorems.

Assumed about code outside of the repository (`strict_encoding`, `amplify`, `indexmap`, core), as cited at
the definitions:

* codes and sizes of primitives; any code is accepted when decoding a type;
* names have 1 to 100 ASCII characters, the first one a letter (capital for types and libraries, small for
  fields and variants) or `_`, the others letters, digits or `_`;
* two `Variant`s are equal when their tags or their names are, and are ordered by tag otherwise; where
  `BTreeMap` is used with this (not transitive) order, decoding types, its search is modelled: nodes have at most
  11 keys, a full node is split on insertion at its end so that 6 keys stay, the next one goes up, 4 and the new one
  are in the new node (`bt_insert`, LibCodec.v; in any order: `tree_insert`, Macros.v);
* collections are encoded with a length of 1, 2, 3, 4 or 8 bytes by their largest size; items of sets and
  maps must be in increasing order when decoding; inserting into a full collection is an error;
* `Confined::from_checked` panics outside of the bounds; `NonEmptyOrdMap` has no upper bound (8 bytes of
  length);
* `Dependency` is ordered by id, equal by id or name;
* the reader of values is limited to 2^32-1 bytes and allocates a requested length at once;
* `LIB_EMBEDDED` is `_`.

## Not modelled

* `Display` of types and libraries with the flag `#` or a width, of `Symbols` alone; the
  ASCII armor (a parameter in C74), Baid64 text of ids;
* the derive macros and the implementations of `StrictEncode` for standard types (crates `strict_encoding`,
  `amplify`): a Rust type is given by the calls it makes, its data by the relation `written` (C72);
* in layouts: the limits on the numbers of attributes and of nested expressions of the `vesper` crate, names
  of primitives, the text form (only in the test `ArtifactsLayout.v`);
* the text forms of documents (`serde_json`, `serde_yaml`, `toml`, external) and their limits on nesting, tags of
  YAML, dates of TOML; the text of numbers of 1024 bits (a parameter); serde forms other than of values;
* `stl.rs`, `bin`; errors of writing to a file which was created;
* floating point values (the code has none), the limit of the call stack, running out of memory except for
  allocation of a length found in the data, the size limit of 2^24 - 1 bytes when (de)serializing, except for files with
  libraries (C74, C76).
