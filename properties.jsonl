{"id": "C01", "title": "Serialize-then-deserialize returns the value", "statement": "If a value is well typed for a type of a type system (numbers in range, collection sizes within the declared bounds, names from the declared variants, characters from the declared alphabet), then strict_serialize_value succeeds and strict_deserialize_type on the produced bytes, under the same type id, returns exactly that value.", "quantifier": "every type system with unique field/variant names, every type id of it, every well-typed value, debug and release builds", "why_tests_cant": "types nest arbitrarily and values are unbounded; a test only samples finitely many type/value pairs", "anchors": ["src/value/encode.rs: strict_serialize_value, strict_write_val, strict_write_ty", "src/value/decode.rs: strict_deserialize_type, strict_read_type"]}
{"id": "C02", "title": "Deserialize-then-serialize reproduces the bytes", "statement": "Whenever strict_deserialize_type accepts a byte string for a type, serializing the returned value under that type yields the same byte string again, so that data has exactly one accepted encoding.", "quantifier": "every type system, type id and byte string accepted by the decoder", "why_tests_cant": "ranges over all byte strings including adversarial ones; fails only on particular type shapes", "anchors": ["src/value/decode.rs: strict_deserialize_type", "src/value/encode.rs: strict_write_ty"]}
{"id": "C03", "title": "Encodings of one type are unambiguous and prefix free", "statement": "Two different well-typed values of the same type never serialize to the same bytes, and the serialization of one is never a proper prefix of the serialization of the other.", "quantifier": "every type system, type id and pair of well-typed values", "why_tests_cant": "a statement about pairs of unbounded values", "anchors": ["src/value/encode.rs: strict_write_ty", "src/value/decode.rs: strict_read_type"]}
{"id": "C04", "title": "Truncated or extended data are rejected", "statement": "Cutting any non-empty suffix from a valid serialization, or appending any non-empty suffix to it, makes strict_deserialize_type return an error instead of a value.", "quantifier": "every well-typed value, every cut point, every appended suffix", "why_tests_cant": "unboundedly many cut points and suffixes for unboundedly many types", "anchors": ["src/value/decode.rs: strict_deserialize_type (NotEntirelyConsumed)"]}
{"id": "C05", "title": "Reading from a stream consumes exactly the bytes of the value", "statement": "strict_read_type, called on a reader positioned at the serialization of a value followed by arbitrary other data, returns the value and leaves the reader positioned exactly at the other data; its result does not depend on what follows.", "quantifier": "every type, well-typed value and trailing data; also every successful read of arbitrary data", "why_tests_cant": "quantifies over the unread remainder of the stream", "anchors": ["src/value/decode.rs: strict_read_type, strict_read_list, strict_read_map"]}
{"id": "C06", "title": "Every value returned by the decoder satisfies the type's size bounds and alphabets", "statement": "A value returned by strict_deserialize_type has collection sizes within the sizing of its type and only characters of the declared character enums.", "quantifier": "every type system, type id, byte string", "why_tests_cant": "needs one bad byte string among all; tests only feed encoder output", "anchors": ["src/value/decode.rs: strict_read_type"]}
{"id": "C07", "title": "Decoded sets and maps have no repeated elements or keys", "statement": "In any value returned by strict_deserialize_type, no set holds two equal elements and no map two equal keys.", "quantifier": "every type system, type id, byte string", "why_tests_cant": "existential over adversarial byte strings", "anchors": ["src/value/decode.rs: strict_read_type (Set/Map arms, TODO on uniqueness)"]}
{"id": "C08", "title": "Typing a canonical value is the identity", "statement": "typify applied to a value that is already well typed for a type returns the same value; in particular a decoded value which is within bounds typifies to itself.", "quantifier": "every type system, type id and well-typed value", "why_tests_cant": "unbounded nesting; the match in typify has over thirty ordered arms whose overlap tests cannot exhaust", "anchors": ["src/value/typify.rs: TypeSystem::typify"]}
{"id": "C09", "title": "A typified value can always be serialized", "statement": "If typify returns Ok for a value and a type, then strict_serialize_value on the result neither panics nor fails (apart from the output size limit).", "quantifier": "every type system, type id, value", "why_tests_cant": "the arms of typify and of the writer must match for every combination of value and type", "anchors": ["src/value/typify.rs: TypeSystem::typify", "src/value/encode.rs: strict_write_ty"]}
{"id": "C10", "title": "Serializing a typified number preserves its numeric value", "statement": "If typify accepts a number for an integer type, then serializing it and deserializing it gives the same number.", "quantifier": "every integer type and every number", "why_tests_cant": "boundary values of 8..64 bit types are the failing ones, and are all distinct inputs", "anchors": ["src/value/typify.rs: TypeSystem::typify", "src/value/encode.rs: strict_write_ty", "src/value/decode.rs: strict_read_type"]}
{"id": "C11", "title": "typify enforces collection size bounds", "statement": "If typify accepts a list, set, map, byte string or text for a list, set or map type, the number of elements (bytes for text) of the result is within the declared minimum and maximum.", "quantifier": "every type system, type id, value", "why_tests_cant": "all sizes and all nestings", "anchors": ["src/value/typify.rs: TypeSystem::typify, Error::OutOfBounds"]}
{"id": "C12", "title": "typify enforces fixed array lengths", "statement": "If typify accepts a value for an array type of length n, the resulting value has exactly n elements.", "quantifier": "every array type and value", "why_tests_cant": "all lengths", "anchors": ["src/value/typify.rs: TypeSystem::typify (Array arms)"]}
{"id": "C13", "title": "typify rejects repeated set elements and map keys", "statement": "If typify accepts a set (map), no two elements (keys) of the result are equal, and no two elements (keys) of the result serialize to the same bytes.", "quantifier": "every type system, type id, value", "why_tests_cant": "pairs of elements of unbounded collections, with two notations for the same union tag", "anchors": ["src/value/typify.rs: TypeSystem::typify (Set/Map arms)"]}
{"id": "C14", "title": "typify returns only complete structures", "statement": "If typify accepts a structure (or a map standing for a structure), the result has exactly the fields declared by the type, each once. If it accepts a tuple (or a list standing for a tuple), the result has as many fields as declared, each typed at its place.", "quantifier": "every struct or tuple type, every struct, map, tuple or list value", "why_tests_cant": "all subsets of fields", "anchors": ["src/value/typify.rs: TypeSystem::typify (Struct arms), Error::FieldNumberMismatch, Error::ExtraField"]}
{"id": "C15", "title": "Decoding and typing terminate", "statement": "strict_deserialize_type and typify return (a value, an error or a panic) after finitely many steps.", "quantifier": "every type system whose reference graph is acyclic (and: every type system), every input", "why_tests_cant": "non-termination is not observable by a finite test, and cyclic systems can arrive by deserialization", "anchors": ["src/value/decode.rs: strict_read_type", "src/value/typify.rs: typify", "src/typesys/type_sys.rs: TypeSystem"]}
{"id": "C16", "title": "Decoding never panics", "statement": "strict_deserialize_type returns Ok or Err, and never panics, on any byte string.", "quantifier": "every type system, type id, byte string", "why_tests_cant": "a single adversarial schema/input pair suffices to break it", "anchors": ["src/value/decode.rs: strict_read_type (todo!, expect, with_capacity)", "src/typesys/type_sys.rs: rstring_sizing"]}
{"id": "C17", "title": "Serialization size limit is respected", "statement": "strict_serialize_value::<MAX_LEN> returns Ok only with a blob of at most MAX_LEN bytes, and returns an error exactly when the complete encoding is longer.", "quantifier": "every MAX_LEN, type and value", "why_tests_cant": "boundary over all sizes", "anchors": ["src/value/encode.rs: strict_serialize_value"]}
{"id": "C18", "title": "Unknown enum and union tags are rejected by the decoder", "statement": "If the tag byte at the start of the data of an enum or union type is not a declared tag, deserialization fails with EnumTagNotKnown; a declared tag selects the variant with this tag and no other.", "quantifier": "every enum/union type, every tag byte, every following data", "why_tests_cant": "256 tags times all variant sets", "anchors": ["src/value/decode.rs: strict_read_type (Enum/Union arms)", "src/ast/ty.rs: EnumVariants::name_by_tag, UnionVariants::by_tag"]}
{"id": "C19", "title": "Type system extraction is sound, complete and minimal", "statement": "TypeSystem::extract(ids) succeeds exactly when every type reachable from ids is in the system; on success the result contains precisely the types reachable from ids, each with its definition unchanged, and references nothing outside of itself.", "quantifier": "every type system (cyclic ones included), every set of ids", "why_tests_cant": "graph reachability over arbitrary graphs and a worklist loop", "anchors": ["src/typesys/type_sys.rs: TypeSystem::extract"]}
{"id": "C20", "title": "Extraction is idempotent and monotone", "statement": "Extracting the same ids from an extracted system returns the same system; extracting fewer ids returns a subset.", "quantifier": "every type system and pair of id sets", "why_tests_cant": "relational statement over all graphs", "anchors": ["src/typesys/type_sys.rs: TypeSystem::extract"]}
{"id": "C21", "title": "Merging type systems", "statement": "TypeSystem::extend either succeeds and afterwards the system holds exactly the union of both systems, definitions of the argument taking precedence, or fails for reaching 2^24-1 types.", "quantifier": "every pair of type systems", "why_tests_cant": "all map pairs including the capacity boundary", "anchors": ["src/typesys/type_sys.rs: TypeSystem::extend"]}
{"id": "C22", "title": "A finalized type system is complete", "statement": "If SystemBuilder::finalize succeeds, each type id referenced from a type of the system is in the system.", "quantifier": "every sequence of imported libraries", "why_tests_cant": "requires one library set with a dangling reference", "anchors": ["src/typesys/translate.rs: SystemBuilder::finalize (InnerTypeAbsent)", "src/typesys/type_sys.rs: TypeSystem (type guarantees)"]}
{"id": "C23", "title": "Missing dependencies are detected", "statement": "Whenever SystemBuilder::finalize returns, it returns AbsentImport errors for exactly the libraries which are a dependency of some imported library and were never imported; it never succeeds with such a library missing and never reports a library which was imported. It does return (success or errors) unless some type has so many components that iteration over them fails (see C37).", "quantifier": "every sequence of imports, in every order", "why_tests_cant": "all import orders; imports before and after the dependants", "anchors": ["src/typesys/translate.rs: SystemBuilder::import, finalize"]}
{"id": "C24", "title": "The resulting type system does not depend on the import order", "statement": "Importing the same libraries in a different order gives a type system with the same types.", "quantifier": "every sequence of libraries and every permutation of it", "why_tests_cant": "factorially many orders", "anchors": ["src/typesys/translate.rs: SystemBuilder::import, translate_inline"]}
{"id": "C25", "title": "Every imported type is resolvable", "statement": "After import of a library and successful finalize, for each type of the library the system has its definition under its semantic id and resolve by fully qualified name returns this id.", "quantifier": "every sequence of imported libraries, every type name", "why_tests_cant": "all libraries, including libraries with identical types", "anchors": ["src/typesys/translate.rs: SystemBuilder::import", "src/typesys/symbols.rs: SymbolicSys::resolve, lookup"]}
{"id": "C26", "title": "Semantic id commits to the whole definition of a flat type", "statement": "Two types whose components are references by semantic id have the same committed message only if they are the same type, so equal semantic ids mean equal types unless SHA-256 collides on two exhibited messages.", "quantifier": "every pair of types over semantic ids", "why_tests_cant": "all pairs of types; variable-length pieces without separators", "anchors": ["src/ast/id.rs: SemCommit, sem_id_unnamed"]}
{"id": "C27", "title": "Semantic id commits to the whole definition of a library type", "statement": "Two library types (with inline definitions) under the same name have the same committed message only if they are equal.", "quantifier": "every pair of library types", "why_tests_cant": "ambiguity of the concatenation appears only for specially related pairs", "anchors": ["src/ast/id.rs: SemCommit, sem_id_named, sem_id_unnamed", "src/typelib/id.rs"]}
{"id": "C28", "title": "Named and unnamed types have different semantic ids", "statement": "No named type has the same committed message as an unnamed type.", "quantifier": "every pair of a named and an unnamed type", "why_tests_cant": "specially crafted names needed", "anchors": ["src/ast/id.rs: sem_id_inner"]}
{"id": "C29", "title": "Library id commits to library contents", "statement": "Two libraries with equal committed messages have equal names, equal dependency ids in the same order, and equal semantic ids of their types; thus equal TypeLibIds imply this unless SHA-256 collides on the two exhibited messages.", "quantifier": "every pair of libraries", "why_tests_cant": "all pairs of libraries", "anchors": ["src/typelib/id.rs: TypeLib::id"]}
{"id": "C30", "title": "Type system id commits to the set of types", "statement": "Two type systems with the same TypeSysId have the same set of semantic ids unless SHA-256 collides on the two exhibited messages.", "quantifier": "every pair of type systems", "why_tests_cant": "all pairs", "anchors": ["src/typesys/id.rs: TypeSystem::id"]}
{"id": "C31", "title": "Library binary format round trip", "statement": "Decoding the strict encoding of a type library (or a symbolic library, or a type system, or a symbol table) yields the same object and consumes exactly its bytes.", "quantifier": "every well-formed library / type system, every trailing data", "why_tests_cant": "nested inline types, all sizes", "anchors": ["src/ast/encoding.rs", "src/ast/ty.rs: Ty", "src/typelib/type_lib.rs: TypeLib, LibRef, InlineRef", "src/typesys/type_sys.rs: TypeSystem"]}
{"id": "C32", "title": "Library binary format is canonical", "statement": "If a byte string decodes as a type library (or type system), re-encoding the result gives the same bytes; distinct byte strings never decode to the same library.", "quantifier": "every byte string", "why_tests_cant": "all adversarial byte strings", "anchors": ["src/ast/encoding.rs", "src/typelib/type_lib.rs"]}
{"id": "C33", "title": "Library compilation resolves every reference", "statement": "If SymbolicLib::compile succeeds, every named reference of the source becomes the semantic id of the compiled type of this name in the same library, external references keep their id, embedded types stay inline with their structure unchanged, and the set of type names is unchanged; its dependencies are those named by its external types.", "quantifier": "every symbolic library", "why_tests_cant": "any dependency graph between types, any order of names", "anchors": ["src/typelib/symbolic.rs: SymbolicLib::compile", "src/typelib/compile.rs: Translate<LibRef> for TranspileRef"]}
{"id": "C34", "title": "Library compilation terminates", "statement": "SymbolicLib::compile returns for each library; for libraries with acyclic, resolvable references nested at most as deep as the inline types allow, it returns Ok.", "quantifier": "every symbolic library", "why_tests_cant": "non-termination cannot be observed by a test", "anchors": ["src/typelib/symbolic.rs: SymbolicLib::compile (while loop, debug_assert)"]}
{"id": "C35", "title": "Compilation is independent of resolution order", "statement": "The compiled library is the only one satisfying the resolution equations of its source: it does not depend on the names order in which types get compiled.", "quantifier": "every symbolic library with acyclic references", "why_tests_cant": "all orders", "anchors": ["src/typelib/symbolic.rs: SymbolicLib::compile"]}
{"id": "C36", "title": "Symbolic form of a compiled library compiles back", "statement": "If to_symbolic succeeds on a library produced by compile, compiling the symbolic form yields the same library. It succeeds, and gives the source without its unused dependencies, when types of other libraries are referred to as they are listed among the types used from the dependencies (unless two types of the library exhibit a collision of the hash function).", "quantifier": "every library", "why_tests_cant": "all libraries", "anchors": ["src/typelib/symbolic.rs: TypeLib::to_symbolic, SymbolicLib::compile", "src/typelib/translate.rs: SymbolContext"]}
{"id": "C37", "title": "Iterating over a type visits each component reference once, in order", "statement": "Iterating type_refs of a type yields exactly its component references in declaration order, as many as count_type_refs says, and panics for no type.", "quantifier": "every type, including types with the maximum of 255 fields", "why_tests_cant": "boundary at 255 fields and all type shapes", "anchors": ["src/ast/iter.rs: Iter, IntoIter", "src/ast/path.rs: count_type_refs", "src/ast/ty.rs: ty_at"]}
{"id": "C38", "title": "Component case information is available for each component", "statement": "For each position with a component type the description of its role (field name, index, variant, item) exists and belongs to this component.", "quantifier": "every type and position", "why_tests_cant": "all positions of all types", "anchors": ["src/ast/ty.rs: ty_at, case_at"]}
{"id": "C39", "title": "Type path lookup follows the path", "statement": "Ty::at_path(path) returns the type reached by following the steps of the path one after the other from the starting type, and an error naming the failing step if some step does not exist.", "quantifier": "every type and path", "why_tests_cant": "paths of any length", "anchors": ["src/ast/path.rs: Ty::at_path"]}
{"id": "C40", "title": "Value path lookup follows the path", "statement": "StrictVal::at_path(path) returns the value reached by following all steps of the path from the starting value, and an error if some step does not exist.", "quantifier": "every value and path", "why_tests_cant": "paths of any length", "anchors": ["src/value/path.rs: StrictVal::at_path, KeyStep::has_match"]}
{"id": "C41", "title": "All notations of a value are typified to the same serialization", "statement": "A value may be given to typify in several notations: natural numbers for signed ones, enum and union variants by tag, by name or as text, a structure with its fields in any order or as a map, a tuple as a list, an optional or a one-field tuple by its content, byte strings as text. Whatever notation is used, typify accepts it, serializing the result gives the same bytes as serializing the value in the canonical form, and deserializing these bytes gives the value in the canonical form. The short notations of optionals are accepted for optionals only: for other unions a value which is not a union is rejected.", "quantifier": "every well-formed type system, type id, value and notation of the value", "why_tests_cant": "Notations combine and nest without bound (a map for a structure inside an optional inside a set ...); tests cover single notations of single types only.", "anchors": ["src/value/typify.rs:142-447", "src/value/encode.rs:91-237", "src/value/decode.rs"]}
{"id": "C42", "title": "Accessors return what was put into a value", "statement": "The unwrap_* accessors of StrictVal return exactly what the matching constructor was given (options, numbers within the requested width, strings, bytes, enum tags, unions, tuple fields, struct fields, items, entries of maps by key), also when the value is wrapped into any number of newtypes; unwrap_uint panics exactly on numbers beyond the requested width; unwrap_option accepts just the variants none/some by name or by tag 0/1; unwrap_string gives text from bytes and from lists of characters exactly if they are UTF-8.", "quantifier": "every value, every depth of wrapping, every field name and position", "why_tests_cant": "all values and wrapping depths; the corner cases (one-field tuples, repeated field names) are easily missed", "anchors": ["src/value/val.rs: StrictVal constructors, skip_wrapper, unwrap_*"]}
{"id": "C43", "title": "Ids of types, libraries and type systems are from separate domains", "statement": "No type, library or type system shares its hashed message with an object of another of these kinds, so an id of one kind never equals an id of another kind unless SHA-256 collides on the two exhibited messages.", "quantifier": "every pair of objects of two different kinds", "why_tests_cant": "all pairs of objects", "anchors": ["src/ast/id.rs: sem_id_inner, SEM_ID_TAG", "src/typelib/id.rs: TypeLib::id, LIB_ID_TAG", "src/typesys/id.rs: TypeSystem::id, TYPESYS_ID_TAG"]}
{"id": "C44", "title": "Names and ids of an assembled type system agree", "statement": "If resolve(fqn) of an assembled system returns an id, then lookup(id) returns the same fqn, the system has a type with this id, and it is the type with this name of an imported library with this name.", "quantifier": "every sequence of imported libraries, every fully qualified name", "why_tests_cant": "all libraries, including ones with equal names, equal types or definitions in place having the id of a named type", "anchors": ["src/typesys/symbols.rs: SymbolicSys::with, resolve, lookup", "src/typesys/translate.rs: SystemBuilder::import"]}
{"id": "C45", "title": "An assembled type system has the types of its libraries and no others", "statement": "The ids in a system returned by finalize are exactly the ids of the named types of the imported libraries and of the types defined in place within them; each entry is one of these definitions with references replaced by ids.", "quantifier": "every sequence of imported libraries", "why_tests_cant": "any nesting of definitions in place, any number of libraries", "anchors": ["src/typesys/translate.rs: SystemBuilder::import, translate_inline, finalize", "src/ast/translate.rs: Translate for Ty"]}
{"id": "C46", "title": "An assembled type system can be stored and read back", "statement": "If the imported libraries are well-formed then the system returned by finalize (with and without symbols) is well-formed, and deserialization of its serialization returns the same system.", "quantifier": "every sequence of well-formed libraries", "why_tests_cant": "needs all confinement, order and naming rules to hold for every system that can be built", "anchors": ["src/typesys/translate.rs: SystemBuilder", "src/typesys/symbols.rs: Symbols, SymbolicSys", "src/typesys/type_sys.rs: TypeSystem"]}
{"id": "C47", "title": "The id of an assembled type system does not depend on import order or repetition", "statement": "Two successful builds from the same set of libraries, in any order and with any repetitions, have the same type ids and the same TypeSystem::id.", "quantifier": "every two sequences with the same libraries", "why_tests_cant": "factorially many orders and any repetitions", "anchors": ["src/typesys/translate.rs: SystemBuilder::import", "src/typesys/id.rs: TypeSystem::id"]}
{"id": "C48", "title": "Which libraries compile", "statement": "SymbolicLib::compile returns Ok, in debug and in release builds, exactly when no type depends on itself, all the names mentioned at any depth are defined in the library, types are nested in place at most three levels deep, the libraries of all external types are among the dependencies (but for the one for embedded types), and there are 1 to 65535 types.", "quantifier": "every symbolic library", "why_tests_cant": "an equivalence over all dependency graphs; the negative side includes runs which never end", "anchors": ["src/typelib/symbolic.rs: SymbolicLib::compile", "src/typelib/compile.rs: Translate for TranspileRef"]}
{"id": "C49", "title": "Compilation errors tell the truth", "statement": "If SymbolicLib::compile fails with NestedInline, the type named in the error does have types nested in place deeper than three levels; if with UnknownLib, the named library is in use and is not among dependencies; the internal error Continue is never returned.", "quantifier": "every symbolic library", "why_tests_cant": "any library and any order of types", "anchors": ["src/typelib/compile.rs: CompileError", "src/typelib/symbolic.rs: SymbolicLib::compile"]}
{"id": "C50", "title": "Values are written in the documented binary format", "statement": "The bytes returned by serialization of a typed value are those given by the binary format (numbers little-endian in the width of the type, collections and strings with a length prefix of 1, 2, 3, 4 or 8 bytes by the maximal size, one tag byte for enums and unions, fields and items one after another); deserialization accepts a byte string as a value exactly when the format gives it for this value. Serialization is impossible exactly for values with a fixed-size array of items other than bytes.", "quantifier": "every well-formed type system, type, value and byte string", "why_tests_cant": "an equivalence over all byte strings and all types; an error made both in the writer and in the reader passes every round trip test", "anchors": ["src/value/encode.rs: strict_write_val, Sizing::byte_size", "src/value/decode.rs: strict_read_type"]}
{"id": "C51", "title": "A type tree lists every component of a type once, in order", "statement": "Iterating the tree of a type gives the type, then each of its components in the order of the declaration, each followed by its own components: every item with its definition, its library name, its role in the type it is a component of, the new types and options around it, and its depth; strings and byte strings are single items. The iteration ends.", "quantifier": "every type of every complete type system, both kinds of build", "why_tests_cant": "any nesting of types; the tests of the repository print a few trees", "anchors": ["src/typesys/iter.rs: TypeTreeIter::next", "src/layout/memory.rs: From<&TypeTree>"]}
{"id": "C52", "title": "The shown layout has the nesting of the type", "statement": "In the layout shown for a type each component is inside of the type it is a component of, next to its siblings and in the same order; showing the layout does not fail.", "quantifier": "every type of every complete type system", "why_tests_cant": "the nesting is restored from depths in a flat list: any sequence of depths is possible", "anchors": ["src/layout/memory.rs: MemoryLayout::to_vesper"]}
{"id": "C53", "title": "The shown layout tells names, tags and sizes", "statement": "In the layout shown for a type the fields of structures appear under their names, the variants of unions under their names and with the tags by which they are encoded, and enumerations with the names and tags of their variants; lengths of arrays, bounds of collections and strings, primitive types, options and wrapping types are shown.", "quantifier": "every type of every complete type system", "why_tests_cant": "any tags and any wrappers around the fields", "anchors": ["src/layout/translate.rs: TypeInfo::to_vesper", "src/ast/ty.rs: case_at"]}
{"id": "C54", "title": "A library derived from Rust types describes these types", "statement": "After transpiling Rust types and compiling, the library has exactly the named types of that library which occur in them, each with the structure and semantic id that the Rust type has; for other libraries it lists exactly the types in use with their ids, and those libraries as dependencies.", "quantifier": "every set of Rust types, every set of known dependencies, debug and release builds", "why_tests_cant": "the types are recorded by serializing dumb values with mutable state shared between the calls: the result depends on all the types before", "anchors": ["src/typelib/transpile.rs: LibBuilder", "src/typelib/symbolic.rs: LibBuilder::compile_symbols"]}
{"id": "C55", "title": "Deriving a library fails only for stated reasons", "statement": "Deriving a library from describable Rust types always returns; it is an error only if a known dependency does not list a type in use, or if a type has more levels of unnamed types than a library can hold.", "quantifier": "every set of Rust types and dependencies which satisfy the stated conditions", "why_tests_cant": "unbounded nesting and any number of types", "anchors": ["src/typelib/transpile.rs: LibBuilder", "src/typelib/symbolic.rs: LibBuilder::compile_symbols", "src/typelib/compile.rs: SymbolicLib::compile"]}
{"id": "C56", "title": "A derived library does not depend on the order of transpile calls", "statement": "Two derivations from Rust types with the same parts give the same library, whatever the order of transpile calls, repetitions, the order of iteration over hash maps, and the build profile.", "quantifier": "every two lists of types with the same set of parts, every order of iteration", "why_tests_cant": "the orders of iteration over hash maps are random, the orders of calls factorially many", "anchors": ["src/typelib/transpile.rs: LibBuilder", "src/typelib/symbolic.rs: LibBuilder::compile_symbols"]}
{"id": "C57", "title": "Derived libraries refer to each other by the right ids", "statement": "If a type of another library is used, the id by which it is referred to is the id of the type with this name in that library as derived itself; so a dependency given by its derived library provides the types in use.", "quantifier": "every two derived libraries and every type in use in both", "why_tests_cant": "the two ids are computed from different representations for any structure of the type", "anchors": ["src/typelib/transpile.rs: TypeEncoder", "src/typelib/symbolic.rs: LibBuilder::compile_symbols, Dependency"]}
{"id": "C58", "title": "The type system of derived libraries has the structure of the Rust types", "statement": "If libraries are derived from Rust types and assembled to a type system, then each named type and every part of it, through all libraries, is found under its semantic id with the structure of the Rust type.", "quantifier": "every family of derived libraries which covers the types in use, every type and every part", "why_tests_cant": "unbounded depth of types through several libraries", "anchors": ["src/typelib/transpile.rs", "src/typelib/compile.rs", "src/typesys/translate.rs: SystemBuilder"]}
{"id": "C59", "title": "Values written with serde are read back", "statement": "If a value of a type is written with serde to a self-describing format (JSON, YAML), read back as a value and typified for the same type, the result is the same value.", "quantifier": "every type system, type and value of it, any text form of large numbers", "why_tests_cant": "the representation is untagged, so whether a value survives depends on all nested values and their neighbours", "anchors": ["src/value/val.rs: Serialize/Deserialize for StrictVal, StrictNum, EnumTag, Blob", "src/value/typify.rs", "src/value/ston.rs: test serde"]}
{"id": "C60", "title": "Values can be given as JSON, YAML and TOML documents", "statement": "A document which describes a value of a type in the natural way (numbers, text, null for absent optionals, variants by name or number, booleans, maps for structures in any order, sequences for lists, sets and tuples) converts without a panic to a value which is typified successfully, serializes to the bytes of the described value, and these deserialize to it.", "quantifier": "every type system, type, value of it and document describing the value", "why_tests_cant": "documents and types have unbounded nesting and combinations of notations", "anchors": ["src/value/convert.rs: From<serde_json::Value>, From<serde_yaml::Value>, From<toml::Value>", "src/value/typify.rs"]}
{"id": "C61", "title": "Different values of a type are shown differently", "statement": "If two values of one type have the same text form (STON, as printed by Display), they are the same value. Its brackets are balanced: each is closed by one of the same kind, properly nested.", "quantifier": "every type system, type and pair of values of the type", "why_tests_cant": "relates all pairs of values of all types with unbounded nesting", "anchors": ["src/value/ston.rs: Display for StrictVal, needs_parenthesis"]}
{"id": "C62", "title": "The id shown in the source text of a library is the id of the type", "statement": "In the source text of a library (Display of SymbolicLib, the .sty files), the mnemonic with which a type definition is annotated is that of the semantic id which the type has in the compiled library, by which other libraries and values refer to it.", "quantifier": "every library which compiles, every type of it", "why_tests_cant": "relates two hash computations (over the symbolic and over the compiled form) for all type definitions; the shipped libraries are self-consistent only where no named type is used", "anchors": ["src/typelib/serialize.rs: Display for SymbolicLib", "src/typelib/id.rs: SemCommit for TranspileRef", "src/ast/id.rs: sem_id_named"]}
{"id": "C63", "title": "The source text of a type determines the type", "statement": "Two type definitions displayed by the same source text are the same type; two libraries with the same source text have the same name, dependencies and types.", "quantifier": "every pair of type definitions and of symbolic libraries", "why_tests_cant": "relates all pairs of definitions of unbounded nesting", "anchors": ["src/ast/ty.rs: Display for Ty, NamedFields, UnnamedFields, UnionVariants, EnumVariants", "src/typelib/symbolic.rs: Display for TranspileRef", "src/typelib/serialize.rs: Display for SymbolicLib"]}
{"id": "C64", "title": "Versions are shown as Semantic Versioning defines", "statement": "The text of a version is that of Semantic Versioning 2.0.0: pre-release identifiers after a hyphen, build metadata after a plus sign.", "quantifier": "every version with any pre-release and build identifiers", "why_tests_cant": "no test has versions with pre-release or build parts; all combinations of both", "anchors": ["src/util.rs: Display for SemVer"]}
{"id": "C65", "title": "The text of a path determines the path", "statement": "Two paths within values (or within types) with the same text are the same path, so a path printed in a message leads to one place only.", "quantifier": "every pair of paths of any length", "why_tests_cant": "relates all pairs of paths of unbounded length with arbitrary keys", "anchors": ["src/value/path.rs: Display for Step, Key, Path", "src/ast/path.rs: Display for Step, Path"]}
{"id": "C66", "title": "Fully qualified type names are read as they are written", "statement": "The name made from the text of a fully qualified type name is that name; a text is accepted only if it is the text of a valid name; all other texts panic.", "quantifier": "every library name, type name and text", "why_tests_cant": "quantifies over all texts", "anchors": ["src/typesys/type_sys.rs: TypeFqn, Display, From<&'static str>"]}
{"id": "C67", "title": "A library assembled call by call has what was added, in any order of the calls", "statement": "Importing a dependency succeeds exactly when no dependency of the library has its id and there are fewer than 255, adding a type exactly when the library has no type of that name and there are fewer than 65535. A call which succeeds adds that one entry and changes nothing else; a call which fails reports why and changes nothing. The order of calls which all succeed does not matter to the library nor to its id.", "quantifier": "every library and every sequence of calls", "why_tests_cant": "all sequences of calls of any length, with errors in between", "anchors": ["src/typelib/type_lib.rs: TypeLib::import, TypeLib::populate"]}
{"id": "C68", "title": "No dependency equal to one of the library can be imported", "statement": "Importing a dependency which equals (==) a dependency of the library fails with DuplicatedDependency.", "quantifier": "every library and dependency", "why_tests_cant": "depends on equality and order of dependencies, which are defined by hand, for all pairs", "anchors": ["src/typelib/type_lib.rs: TypeLib::import, PartialEq and Ord for Dependency"]}
{"id": "C69", "title": "Gathering a library fails exactly for what is unresolved", "statement": "Resolving the references of the types gathered for a library returns an error exactly if a type has a component named after no type of the library, a type of an unknown library is used, a dependency known with its types lacks a type in use, or there are more than 255 libraries or 65535 types of one; the error names what is missing. Otherwise the library has exactly the gathered types, the types of other libraries in use, and those of the dependencies from which types are used.", "quantifier": "every state of the builder with different names and no type with more than 254 components, in any order of its hash maps", "why_tests_cant": "all combinations of types, libraries and dependencies; hash maps in any order", "anchors": ["src/typelib/symbolic.rs: LibBuilder::compile_symbols", "src/typelib/transpile.rs: LibBuilder"]}
{"id": "C70", "title": "The text of a type system tells its types", "statement": "Two type systems with the same text (Display) are the same: they have the same ids with the same types. Two type systems with symbols and the same text have the same types, and the same names for them.", "quantifier": "every two type systems, with and without symbols, with any text of ids, primitives and sizes which is different for different ones and has no blanks or brackets", "why_tests_cant": "injectivity over all pairs of type systems of any size", "anchors": ["src/typesys/type_sys.rs: Display for TypeSystem", "src/typesys/symbols.rs: Display for SymbolicSys", "src/typesys/translate.rs: Display for TypeSymbol", "src/ast/ty.rs: Display for Ty"]}
{"id": "C71", "title": "The text of a compiled library tells its definitions", "statement": "Two compiled libraries with the same text (Display) have the same name, id, dependencies and definitions.", "quantifier": "every two compiled libraries, with inline definitions of any depth", "why_tests_cant": "injectivity over all pairs of libraries of any size", "anchors": ["src/typelib/serialize.rs: Display for TypeLib", "src/typelib/type_lib.rs: Display for LibRef, InlineRef, InlineRef1, InlineRef2, ExternRef, Dependency", "src/ast/ty.rs: Display for Ty"]}
{"id": "C72", "title": "Data of Rust programs are read with the libraries derived from their types", "statement": "When libraries are derived from Rust types and a type system is built of them, the bytes which a Rust program writes for a value of one of these types are read, under the id of the type, as that value, and no other bytes are read as it; and what is written for a value by means of the type system is what the Rust program writes for it.", "quantifier": "every set of Rust types with derived libraries, every value of a type which is part of them and all data", "why_tests_cant": "relates two independent encoders over all types, values and sets of libraries", "anchors": ["src/typelib/transpile.rs: StrictType, LibBuilder::transpile", "src/typesys/translate.rs: SystemBuilder::finalize", "src/value/decode.rs: TypeSystem::strict_deserialize_type", "src/value/encode.rs: TypeSystem::strict_serialize_value"]}
{"id": "C73", "title": "A type given by its full name is the type of this name", "statement": "In a type system built of libraries, whenever a type is given by the full name (library and type) under which one of the libraries defines it, getting the type, typifying values, reading and deserializing data give what they give for the id of this type; for all other names they report that the type is absent, and nothing else.", "quantifier": "all sequences of libraries from which a type system is built, all names, values and data", "why_tests_cant": "covers all libraries, names, values and data; libraries with identical types are rare in tests", "anchors": ["src/typesys/symbols.rs: SymbolicSys::to_sem_id, get, type_tree, Index for Symbols", "src/value/typify.rs: TypeSpec, SymbolicSys::typify", "src/value/decode.rs: SymbolicSys::strict_deserialize_type, strict_read_type"]}
{"id": "C74", "title": "Libraries saved to files are loaded again, and no other files are touched", "statement": "A well-formed library saved in the binary format to a directory is loaded from the file named by its name, version and format as the same library; libraries saved one after another are all loaded again if their names or versions differ; a save changes at most the file named so, prints nothing, and changes nothing when the file cannot be created; without a directory exactly the content of the file is printed. A save which fails leaves an earlier file as it was.", "quantifier": "all well-formed libraries, versions, headers, directories, contents of the file system before, and sequences of saves", "why_tests_cant": "covers all libraries, sequences of saves and earlier contents; failing saves are not tested", "anchors": ["src/typelib/serialize.rs: TypeLib::serialize, SymbolicLib::serialize", "src/util.rs: StlFormat"]}
{"id": "C75", "title": "Arguments of programs mean one format and directory or are refused", "statement": "Without arguments the source format is printed; with a format name (sty, stl or sta, with double hyphens before it or not) and possibly a directory (otherwise stl), this format is saved to this directory; any other arguments make the program stop. No arguments have two meanings, and the name of each format is read as this format and nothing else is.", "quantifier": "all lists of arguments", "why_tests_cant": "all texts and numbers of arguments", "anchors": ["src/util.rs: parse_args, StlFormat"]}
{"id": "C76", "title": "Truncated and extended data are never accepted", "statement": "When data are accepted as a library (type system, symbol table, symbolic library), then no data which start with them and go on are accepted, and no proper beginning of them is; in particular a file with a library which was written only in part, or has something after its end, is never loaded.", "quantifier": "all data, also those not written by the library", "why_tests_cant": "tests cut data at some places of some libraries only", "anchors": ["src/ast/encoding.rs: UnionVariants::strict_decode", "src/typelib/type_lib.rs: TypeLib", "src/typesys/type_sys.rs: TypeSystem", "src/typesys/symbols.rs: SymbolicSys"]}
{"id": "C77", "title": "Types written with macros have the variants and fields as written", "statement": "A list of variants written without tags gives these variants, numbered from zero in the order written; with tags, these variants in the order of their tags, whatever the order they are written in; a list of fields gives these fields in order. Between 1 and 255 entries with valid different names (and tags) are accepted; entries with repeated names or tags, with invalid names or more than 255 make the program stop.", "quantifier": "all lists of entries", "why_tests_cant": "needs all numbers and orders of entries; the wrong cases need more than eleven variants or a special order of tags", "anchors": ["src/macros.rs: variants!, fields!"]}
{"id": "C78", "title": "A range of tags gives one variant for each tag", "statement": "An enumeration written as a range of tags from..=to has exactly the variants from, from+1, ... to, in this order, each named with an underscore and its number; it is accepted when it has from 1 to 255 variants and makes the program stop otherwise.", "quantifier": "all ranges of 8-bit tags", "why_tests_cant": "all ranges", "anchors": ["src/macros.rs: variants!"]}
{"id": "C79", "title": "Type systems keep their documented limits", "statement": "A type system has at most 2^24-1 types, each id once; its serialization is shorter than 2^24 bytes; it is complete. This holds for every type system obtained by building from libraries, reading data, extending one with another and extracting types, in any order and any number of times; those which come from well-formed libraries only are read back from their serialization unchanged.", "quantifier": "all sequences of operations on type systems, all libraries, all data read", "why_tests_cant": "quantifies over sequences of operations of any length; the limits are reached with millions of types only", "anchors": ["src/typesys/type_sys.rs: TypeSystem (type guarantees), extend, extract", "src/typesys/translate.rs: SystemBuilder::finalize"]}
{"id": "C80", "title": "The macro for values gives the value as written", "statement": "A value written with `ston!` is the value as written: `name value, name value` is a structure with these fields in this order, `value, value` a tuple, `tag value` an union, `tag` a value of an enumeration, `~` the absent optional; repeated or invalid field names are not accepted, and numbers are accepted by typify for number types they are in the range of.", "quantifier": "all field names, numbers of fields, values, variables in scope", "why_tests_cant": "the rules of the macro overlap, which one is used depends on the number and the form of all arguments; the examples in the repository have three fields", "anchors": ["src/value/val.rs: ston!, sv!, svenum!, StrictVal::struc, StrictVal::tuple, StrictVal::union", "src/value/typify.rs: TypeSystem::typify"]}
{"id": "C81", "title": "The texts of references and URNs tell what is meant", "statement": "A reference to a type of another library is shown as `Lib.Type`, which is read as the full name of this type. In the alternate form the id follows: references with the same text have the same library name, type name and id, and no reference looks like one in the short form. A URN tells whether it is one of a library or of a type: different libraries and types have different URNs.", "quantifier": "all references with valid names, all ids, in both forms of text", "why_tests_cant": "a claim on all pairs of references and ids; tests compare single texts", "anchors": ["src/typelib/symbolic.rs: SymbolRef (Display)", "src/util.rs: Urn (Display)", "src/typesys/type_sys.rs: TypeFqn (From<&str>)"]}
