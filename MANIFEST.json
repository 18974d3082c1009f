{
 "claims": [
  {
   "property": "C01",
   "status": "partial",
   "theorems": [
    "C01_exact",
    "C01_round_trip_partial",
    "C01_refuted"
   ],
   "note": "Proved for every well-typed value without non-byte fixed-size arrays, debug and release. The full statement is false of the code: C01_refuted (serializing a non-byte array panics). Exactly the values without such arrays are serialized, all others panic (C01_exact)."
  },
  {
   "property": "C02",
   "status": "partial",
   "theorems": [
    "C02_exact",
    "C02_reencode_partial",
    "C02_reencode_debug_partial",
    "C02_unique_partial",
    "C02_refuted",
    "C02_debug_refuted",
    "C02_unique"
   ],
   "note": "Proved for systems whose fixed-size arrays are byte arrays: release builds always, debug builds for values within the restrictions. The full statement is false of the code: C02_refuted (non-byte arrays), C02_debug_refuted (over-long restricted strings trip a debug assertion). In release builds exactly the values without such arrays are serialized again (C02_exact). No two byte strings decode to the same value, for all type systems (C02_unique)."
  },
  {
   "property": "C03",
   "status": "proved",
   "theorems": [
    "C03_prefix_free"
   ],
   "note": "For all well-typed values which can be serialized (non-byte arrays can not, see C01)."
  },
  {
   "property": "C04",
   "status": "proved",
   "theorems": [
    "C04_truncated",
    "C04_extended"
   ],
   "note": "For all well-typed values which can be serialized; the precise errors are given."
  },
  {
   "property": "C05",
   "status": "proved",
   "theorems": [
    "C05_framing",
    "C05_locality"
   ],
   "note": "Framing for serialized values, locality for every successful read of any data."
  },
  {
   "property": "C06",
   "status": "partial",
   "theorems": [
    "C06_refuted",
    "C06_minimum_refuted",
    "C06_shape_partial",
    "C06_image_partial"
   ],
   "note": "False of the code (C06_refuted, C06_minimum_refuted): neither bounds nor alphabets are checked. Proved: the shape of decoded values and the exact set of values which can be decoded."
  },
  {
   "property": "C07",
   "status": "partial",
   "theorems": [
    "C07_set_refuted",
    "C07_map_refuted",
    "C07_set_exact",
    "C07_map_exact"
   ],
   "note": "False of the code: C07_set_refuted, C07_map_refuted give data which decode to repeated elements and keys. C07_set_exact and C07_map_exact: elements or keys are repeated exactly when their encodings in the data are."
  },
  {
   "property": "C08",
   "status": "partial",
   "theorems": [
    "C08_identity_partial",
    "C08_decoded_partial",
    "C08_refuted",
    "C08_exact"
   ],
   "note": "Proved for systems which use Byte (prim 0x40) for byte strings only. False in general: C08_refuted (a Byte number turns from unsigned to signed). C08_exact: the canonical values which are kept are exactly those without a number of the type Byte outside of fixed-size arrays."
  },
  {
   "property": "C09",
   "status": "partial",
   "theorems": [
    "C09_serializable_partial",
    "C09_array_refuted",
    "C09_enum_refuted",
    "C09_pair_refuted",
    "C09_number_refuted",
    "C09_fields_refuted"
   ],
   "note": "Proved for every notation of a value described by the specification SpecTypify.denotes. False in general: C09_array_refuted, C09_enum_refuted, C09_pair_refuted, C09_number_refuted, C09_fields_refuted."
  },
  {
   "property": "C10",
   "status": "partial",
   "theorems": [
    "C10_unsigned_partial",
    "C10_signed_partial",
    "C10_in_range_partial",
    "C10_refuted",
    "C10_unsigned_exact",
    "C10_signed_exact"
   ],
   "note": "Proved: accepted numbers are taken modulo 2^bits (wrapped for signed types), so numbers in the range of the type are kept. False in general: C10_refuted (256 for U8 is accepted and becomes 0). The accepted numbers which are kept are exactly those in the range (C10_unsigned_exact, C10_signed_exact)."
  },
  {
   "property": "C11",
   "status": "proved",
   "theorems": [
    "C11_bounds",
    "C11_rejected"
   ],
   "note": ""
  },
  {
   "property": "C12",
   "status": "partial",
   "theorems": [
    "C12_length_partial",
    "C12_refuted",
    "C12_exact"
   ],
   "note": "Proved: never longer than the array. False in general: C12_refuted (shorter values are accepted). C12_exact says exactly what is accepted: items of lists are not checked at all."
  },
  {
   "property": "C13",
   "status": "partial",
   "theorems": [
    "C13_set_partial",
    "C13_map_partial",
    "C13_bytes_partial",
    "C13_keys_partial",
    "C13_bytes_refuted",
    "C13_numbers_refuted"
   ],
   "note": "First part proved (elements and keys differ); distinct bytes proved for elements and keys in the canonical form. The part on bytes is false in general: C13_bytes_refuted, C13_numbers_refuted."
  },
  {
   "property": "C14",
   "status": "partial",
   "theorems": [
    "C14_complete_partial",
    "C14_map_partial",
    "C14_refuted",
    "C14_tuple_partial",
    "C14_list_refuted",
    "C14_list_exact",
    "C14_map_exact"
   ],
   "note": "Proved for structures and tuples; for maps standing for structures only declared fields, each once. False in general: C14_refuted (a map may lack fields), C14_list_refuted (a list standing for a tuple may lack fields or have more). C14_list_exact and C14_map_exact say exactly which lists and maps are accepted for tuples and structures."
  },
  {
   "property": "C15",
   "status": "partial",
   "theorems": [
    "C15_reading_partial",
    "C15_typing_partial",
    "C15_endless",
    "C15_terminates_partial",
    "C15_refuted"
   ],
   "note": "Proved for systems without circular references (C15_terminates_partial), and for recursive types: reading when recursion goes on only after some data (C15_reading_partial), typing when no newtype or option contains only itself (C15_typing_partial). False in general: C15_refuted (a type referring to itself), C15_endless (reading never ends for all types which follow their first fields forever)."
  },
  {
   "property": "C16",
   "status": "partial",
   "theorems": [
    "C16_no_panic_partial",
    "C16_unicode_refuted",
    "C16_memory_refuted",
    "C16_overflow_refuted"
   ],
   "note": "Proved for well-formed systems with Unicode characters only in text and sufficient memory. False in general: todo!() for characters, allocation of an attacker-chosen size, arithmetic overflow of max + 1 in debug builds."
  },
  {
   "property": "C17",
   "status": "proved",
   "theorems": [
    "C17_limit",
    "C17_bound"
   ],
   "note": ""
  },
  {
   "property": "C18",
   "status": "proved",
   "theorems": [
    "C18_enum",
    "C18_union"
   ],
   "note": ""
  },
  {
   "property": "C19",
   "status": "partial",
   "theorems": [
    "C19_success_partial",
    "C19_content_partial",
    "C19_failure_partial",
    "C19_refuted",
    "C19_returns",
    "C19_exact",
    "C19_content",
    "C19_failure"
   ],
   "note": "False of the code in debug builds, which panic at a type of exactly 255 components: C19_refuted. For every ordered type system whose types have at most 255 components (all which can be constructed), cyclic ones included: C19_returns (extraction ends), C19_exact (exact success condition in both builds), C19_content (exactly the reachable types, complete), C19_failure (what is reported otherwise, and when it panics)."
  },
  {
   "property": "C20",
   "status": "proved",
   "theorems": [
    "C20_idempotent",
    "C20_monotone"
   ],
   "note": "C20_idempotent and C20_monotone hold for every ordered type system whose types have at most 255 components (all which can be constructed), in debug and release builds."
  },
  {
   "property": "C21",
   "status": "proved",
   "theorems": [
    "C21_union",
    "C21_fits",
    "C21_full"
   ],
   "note": "For all ordered type systems: content of the union, success when the sizes fit, failure only on reaching 2^24-1 entries."
  },
  {
   "property": "C22",
   "status": "partial",
   "theorems": [
    "C22_refuted",
    "C22_partial",
    "C22_exact"
   ],
   "note": "False of the code: C22_refuted (the test in finalize is on the referring id, so a dangling reference is never reported). Proved: the system is complete if every id referred to is defined by some imported library. C22_exact: a built system is complete exactly when the last definitions refer to defined ids only."
  },
  {
   "property": "C23",
   "status": "proved",
   "theorems": [
    "C23_error",
    "C23_success",
    "C23_total",
    "C23_exact"
   ],
   "note": "For every sequence of imports: C23_error, C23_success; C23_total for libraries whose types can be iterated over (C37). C23_exact: a system is built exactly when no library is missing and the limits of 2^16-1 libraries and 2^24-1 types are kept."
  },
  {
   "property": "C24",
   "status": "partial",
   "theorems": [
    "C24_refuted",
    "C24_partial",
    "C24_exact"
   ],
   "note": "False of the code: C24_refuted (two different definitions with one id, see C27; the last import wins). Proved when an id stands for one type only. C24_exact: the order has no influence exactly when libraries which define the same id define the same type."
  },
  {
   "property": "C25",
   "status": "partial",
   "theorems": [
    "C25_refuted",
    "C25_definition_refuted",
    "C25_partial",
    "C25_exact"
   ],
   "note": "False of the code: C25_refuted (libraries with an identically named and defined type share its id; the later import overwrites the name), C25_definition_refuted (different definitions with one id, see C27). Proved: some definition is present under the id; it is the right one when ids are consistent; the name resolves when no other definition has the id. C25_exact describes all lookups in a built system by the last definition under each id and name."
  },
  {
   "property": "C26",
   "status": "proved",
   "theorems": [
    "C26_message",
    "C26_id"
   ],
   "note": "For all pairs of types over semantic ids within their ranges; collisions are of the two exhibited messages."
  },
  {
   "property": "C27",
   "status": "partial",
   "theorems": [
    "C27_partial",
    "C27_names",
    "C27_refuted",
    "C27_library_refuted"
   ],
   "note": "Proved for types without inline definitions (C27_partial), and for the name (C27_names). False with inline definitions: C27_refuted exhibits two different structures with one committed message under every name, C27_library_refuted two different libraries with one id."
  },
  {
   "property": "C28",
   "status": "partial",
   "theorems": [
    "C28_partial",
    "C28_refuted"
   ],
   "note": "Proved for unnamed primitives, characters, enumerations, unions and structures against every named type. False for lists (and similarly tuples, arrays, sets, maps) over specially made ids: C28_refuted."
  },
  {
   "property": "C29",
   "status": "proved",
   "theorems": [
    "C29_library",
    "C29_types"
   ],
   "note": "For all pairs of libraries within the limits of their collections; C29_types adds the definitions of types when there are no inline ones."
  },
  {
   "property": "C30",
   "status": "proved",
   "theorems": [
    "C30_system"
   ],
   "note": "For all pairs of type systems."
  },
  {
   "property": "C31",
   "status": "proved",
   "theorems": [
    "C31_library",
    "C31_symbolic",
    "C31_system",
    "C31_symbols",
    "C31_symbolic_system",
    "C31_deserialize"
   ],
   "note": "Proved for libraries, symbolic libraries with definitions nested to any depth, type systems, symbol tables and symbolic type systems, with any trailing data. The model decodes and re-encodes the libraries shipped in the repository and computes their published ids (Artifacts.v)."
  },
  {
   "property": "C32",
   "status": "partial",
   "theorems": [
    "C32_refuted",
    "C32_library_refuted",
    "C32_names_refuted",
    "C32_library_partial",
    "C32_system_partial",
    "C32_symbolic_partial",
    "C32_symbolic_system_partial",
    "C32_few_partial",
    "C32_plain_partial",
    "C32_plain_system_partial",
    "C32_symbols"
   ],
   "note": "False as stated: unions with repeated variant names are accepted and one of the variants is dropped, so different byte strings decode to the same library (C32_refuted, C32_library_refuted); with more than eleven variants, repeated names may even stay in what is decoded (C32_names_refuted). Proved: everything decoded is well-formed, except for names of more than eleven variants, and its encoding is the bytes read or a shorter string; with at most eleven variants per type it is well-formed and is decoded again from its encoding (C32_few_partial); without enumerations and unions decoding is canonical; symbol tables are canonical."
  },
  {
   "property": "C33",
   "status": "proved",
   "theorems": [
    "C33"
   ],
   "note": "Relation lib_compiled in SpecCompile.v, independent of the code."
  },
  {
   "property": "C34",
   "status": "partial",
   "theorems": [
    "C34_refuted",
    "C34_unresolved_refuted",
    "C34_returns_partial",
    "C34_partial",
    "C34_exact",
    "C34_stuck"
   ],
   "note": "False: cyclic or unresolvable names make compile run forever (release) or panic (debug): C34_refuted, C34_unresolved_refuted. Proved: with acyclic, resolvable names it returns (C34_returns_partial), with known libraries and at most three levels of nesting it returns Ok (C34_partial). C34_exact: exactly these libraries compile; C34_stuck: all libraries with circular or undefined names run forever or panic."
  },
  {
   "property": "C35",
   "status": "proved",
   "theorems": [
    "C35",
    "C35_acyclic"
   ],
   "note": "The equations have one solution; compile finds it."
  },
  {
   "property": "C36",
   "status": "proved",
   "theorems": [
    "C36",
    "C36_source",
    "C36_exact"
   ],
   "note": "Up to an explicit collision of the hash function on two named types of the library. C36_source excludes libraries which list 65535 types of one dependency. C36_exact: exactly the libraries all of whose references are to own or listed types are turned back; all others are refused."
  },
  {
   "property": "C37",
   "status": "partial",
   "theorems": [
    "C37_partial",
    "C37_refuted",
    "C37_exact"
   ],
   "note": "Proved for all types in release builds and for types of at most 254 components in debug builds. False for 255 components in debug builds (the u8 counter overflows after the last component): C37_refuted. C37_exact: exactly these panic."
  },
  {
   "property": "C38",
   "status": "partial",
   "theorems": [
    "C38_partial",
    "C38_none_partial",
    "C38_iteration_partial",
    "C38_refuted",
    "C38_tuple_exact"
   ],
   "note": "Proved for all types except tuples. False for tuples: C38_refuted (no component of a tuple has a role; the position after the last one does). C38_tuple_exact: no other position of a tuple has a role."
  },
  {
   "property": "C39",
   "status": "partial",
   "theorems": [
    "C39_partial",
    "C39_exact",
    "C39_error_partial",
    "C39_refuted",
    "C39_tuple_refuted"
   ],
   "note": "Proved for paths of at most one step in types other than tuples. False otherwise: C39_refuted (longer paths are taken from the end, each step from the starting type), C39_tuple_refuted (fields of tuples are never found). C39_exact says what is found for paths of any length in types other than tuples."
  },
  {
   "property": "C40",
   "status": "partial",
   "theorems": [
    "C40_partial",
    "C40_error_partial",
    "C40_refuted",
    "C40_exact",
    "C40_key_refuted"
   ],
   "note": "Proved for paths of at most one step. False otherwise: C40_refuted (only the first step is made), C40_key_refuted (keys above 64 bits are not found by number). C40_exact: the result is exactly that of the first step."
  },
  {
   "property": "C41",
   "status": "proved",
   "theorems": [
    "C41_notations",
    "C41_optionals_only"
   ],
   "note": "Notations are defined by the inductive SpecTypify.denotes."
  },
  {
   "property": "C42",
   "status": "partial",
   "theorems": [
    "C42_option",
    "C42_option_tags",
    "C42_scalars",
    "C42_text",
    "C42_uint",
    "C42_tuple_partial",
    "C42_tuple_refuted",
    "C42_tuple_exact",
    "C42_items",
    "C42_keys",
    "C42_own_key",
    "C42_fields"
   ],
   "note": "Proved for options (by name and by tag, nothing else is accepted), numbers, strings, text from bytes and characters, byte strings, enumerations, unions, lists, sets, map entries, structures and tuples of other than one field, through any number of newtype wrappers. False for tuples of one field: C42_tuple_refuted. C42_tuple_exact says what is taken from any value by the accessor of tuples: a tuple of one field is passed through."
  },
  {
   "property": "C43",
   "status": "proved",
   "theorems": [
    "C43_domains"
   ],
   "note": "The messages hashed for ids of types, libraries and type systems are always different."
  },
  {
   "property": "C44",
   "status": "proved",
   "theorems": [
    "C44"
   ],
   "note": "For every successful build."
  },
  {
   "property": "C45",
   "status": "proved",
   "theorems": [
    "C45"
   ],
   "note": "For every successful build."
  },
  {
   "property": "C46",
   "status": "proved",
   "theorems": [
    "C46"
   ],
   "note": "For every successful build from well-formed libraries."
  },
  {
   "property": "C47",
   "status": "proved",
   "theorems": [
    "C47"
   ],
   "note": "For any two successful builds from the same set of libraries."
  },
  {
   "property": "C48",
   "status": "proved",
   "theorems": [
    "C48"
   ],
   "note": "An equivalence, for both kinds of build."
  },
  {
   "property": "C49",
   "status": "proved",
   "theorems": [
    "C49_nested",
    "C49_unknown",
    "C49_internal"
   ],
   "note": ""
  },
  {
   "property": "C50",
   "status": "proved",
   "theorems": [
    "C50_serialized",
    "C50_deserialized",
    "C50_serializable"
   ],
   "note": "The format is given by the inductive relation wire of SpecWire.v; serialization returns only encodings of the format, deserialization accepts exactly them (all types, including arrays of any items). Unicode characters outside of text can be neither read nor written in the format."
  },
  {
   "property": "C51",
   "status": "partial",
   "theorems": [
    "C51_partial",
    "C51_refuted",
    "C51_exact",
    "C51_recursive"
   ],
   "note": "Exact (C51_exact): the iteration ends with Ok exactly for types with a finite tree and at most 255 wrappers around an item, and the items are those of the tree in order; a tree exists exactly when no shown type contains itself (C51_recursive). Proved for complete systems, in release builds, and for types of at most 254 components in debug builds. False for recursive types: the iteration never ends (C51_refuted). The value inside an option has the role of the variant and not of the field; tuple fields have no role (see C38)."
  },
  {
   "property": "C52",
   "status": "partial",
   "theorems": [
    "C52_partial",
    "C52_first_partial",
    "C52_refuted",
    "C52_root_refuted",
    "C52_exact",
    "C52_nesting_exact"
   ],
   "note": "False for optional fields: after a sibling they are shown inside of that sibling (C52_refuted), and showing the layout of an optional type panics (C52_root_refuted). Proved when no item is optional, and more generally when optional items are first (C52_first_partial). C52_exact: a layout can not be shown exactly when its type is optional; otherwise each item is shown once and in order, so only the nesting may be wrong. C52_nesting_exact: the nesting is right exactly when the type is not optional and optional items (and those inside of them) are the first components of what they are in."
  },
  {
   "property": "C53",
   "status": "partial",
   "theorems": [
    "C53_fields_partial",
    "C53_fields_exact",
    "C53_variants_partial",
    "C53_variants_exact",
    "C53_enum_partial",
    "C53_length",
    "C53_bounds",
    "C53_primitive",
    "C53_wrappers",
    "C53_refuted",
    "C53_option_refuted",
    "C53_type_names"
   ],
   "note": "False for unions whose tags are not 0, 1, 2...: positions are shown as tags, so that types with different encodings have the same layout (C53_refuted); names of optional fields are not shown (C53_option_refuted). Proved for fields which are not optional, for unions with consecutive tags, and for enumerations. Exactly: names of fields are right when optional fields are called \"some\" (C53_fields_exact), names and tags of variants when the tags are the positions and optional variants are called \"some\" with tag 1 (C53_variants_exact). Names of types are always shown (C53_type_names)."
  },
  {
   "property": "C54",
   "status": "partial",
   "theorems": [
    "C54_partial",
    "C54_refuted",
    "C54_nothing_refuted",
    "C54_string_refuted",
    "C54_layers_refuted"
   ],
   "note": "False for two types with one name (C54_refuted), for types which write nothing (C54_nothing_refuted), for restricted strings which may be empty (C54_string_refuted) and when another library uses types of this one (C54_layers_refuted). Proved otherwise, under the conditions of the record transpilable."
  },
  {
   "property": "C55",
   "status": "proved",
   "theorems": [
    "C55"
   ],
   "note": "Under the conditions of the record transpilable (SpecTranspile.v); the conditions exclude the panics listed in DESIGN.md."
  },
  {
   "property": "C56",
   "status": "proved",
   "theorems": [
    "C56"
   ],
   "note": "Under the conditions of the record transpilable, and when types of one library have different ids."
  },
  {
   "property": "C57",
   "status": "proved",
   "theorems": [
    "C57",
    "C57_provided"
   ],
   "note": "Under the conditions of the record transpilable."
  },
  {
   "property": "C58",
   "status": "proved",
   "theorems": [
    "C58"
   ],
   "note": "Under the conditions of the record transpilable, and when equal ids are of equal definitions (no hash collision)."
  },
  {
   "property": "C59",
   "status": "partial",
   "theorems": [
    "C59_reread_partial",
    "C59_pairs_refuted",
    "C59_bytes_refuted",
    "C59_letters_refuted",
    "C59_collections_refuted"
   ],
   "note": "False for bytes, sets, maps, pairs which begin with a name or small number, variants of one letter. Proved for all other values (class documentable)."
  },
  {
   "property": "C60",
   "status": "partial",
   "theorems": [
    "C60_documents_partial",
    "C60_sets_refuted",
    "C60_floats_refuted",
    "C60_toml_refuted"
   ],
   "note": "False for sets, unions other than optionals, numbers with fractions (panic), and integers of TOML for unsigned types and enums. Proved for all documents of the relation natural."
  },
  {
   "property": "C61",
   "status": "partial",
   "theorems": [
    "C61_unambiguous_partial",
    "C61_refuted",
    "C61_balanced"
   ],
   "note": "False: quotation marks in text are not escaped. Proved for all values without quotation marks in text. Balanced brackets proved for the same values."
  },
  {
   "property": "C62",
   "status": "partial",
   "theorems": [
    "C62_partial",
    "C62_refuted",
    "C62_named"
   ],
   "note": "False for definitions which use other types of the library by name: the annotation is the hash of the name instead of the id (C62_refuted). Proved for all other definitions. C62_named: such definitions, with names of at most 30 letters, are always annotated with another id, as far as the hash function has no collisions."
  },
  {
   "property": "C63",
   "status": "partial",
   "theorems": [
    "C63_partial",
    "C63_library_partial",
    "C63_refuted",
    "C63_none_refuted",
    "C63_wrapper_refuted"
   ],
   "note": "False for optional tuples (C63_refuted), for unions which look like optionals (C63_none_refuted), and up to wrappers (C63_wrapper_refuted). Proved, up to wrappers and ids of external types, for types and libraries without optional tuples or structures and without enums and unions inside of anything but unions."
  },
  {
   "property": "C64",
   "status": "partial",
   "theorems": [
    "C64_swapped",
    "C64_partial",
    "C64_refuted",
    "C64_exact"
   ],
   "note": "False: pre-release and build metadata are exchanged (C64_swapped, C64_refuted). Proved for versions without both. The text is right exactly when both are the same (C64_exact)."
  },
  {
   "property": "C65",
   "status": "partial",
   "theorems": [
    "C65_partial",
    "C65_refuted",
    "C65_braces_refuted",
    "C65_types_partial",
    "C65_types_exact",
    "C65_within"
   ],
   "note": "False: a numeric key and a text key have the same text (C65_refuted), a key with braces looks like several steps (C65_braces_refuted), fields and variants of types are shown alike. Proved for paths with clear keys (C65_partial) and for paths within types up to fields and variants (C65_types_partial). Exactly the paths within types which are equal up to this have the same text (C65_types_exact), and within one type the text tells where a path leads (C65_within)."
  },
  {
   "property": "C66",
   "status": "proved",
   "theorems": [
    "C66_read",
    "C66_written",
    "C66_panics"
   ],
   "note": ""
  },
  {
   "property": "C67",
   "status": "proved",
   "theorems": [
    "C67_import",
    "C67_populate",
    "C67_import_error",
    "C67_populate_error",
    "C67_keeps",
    "C67_order"
   ],
   "note": ""
  },
  {
   "property": "C68",
   "status": "partial",
   "theorems": [
    "C68_partial",
    "C68_exact",
    "C68_refuted"
   ],
   "note": "False: equality is of id or name, but only the id is looked up (C68_refuted). Proved for equal ids. C68_exact: exactly these are refused as duplicates."
  },
  {
   "property": "C69",
   "status": "proved",
   "theorems": [
    "C69"
   ],
   "note": "For builders with at least one type (else compile_symbols panics), no dependencies of the same name, no types of the nameless library, at most 254 components. Only direct components are looked at, as in the code: a name inside of an embedded type is not checked here."
  },
  {
   "property": "C70",
   "status": "partial",
   "theorems": [
    "C70_partial",
    "C70_symbolic_partial",
    "C70_id",
    "C70_refuted",
    "C70_symbolic_refuted"
   ],
   "note": "False for unions which look like optionals (C70_refuted), and for symbols if one name is given to two types (C70_symbolic_refuted). Proved for all other type systems whose types are not empty and have names of letters, digits and underscores; with symbols, for closed systems with at most one type of each name. The text begins with the id of the system (C70_id)."
  },
  {
   "property": "C71",
   "status": "partial",
   "theorems": [
    "C71_partial",
    "C71_refuted"
   ],
   "note": "False as C63 is (C71_refuted). Proved, up to wrappers, for libraries whose definitions are clear in the sense of C63; dependencies are told by name and mnemonic."
  },
  {
   "property": "C72",
   "status": "partial",
   "theorems": [
    "C72_described",
    "C72_read_partial",
    "C72_write_partial",
    "C72_pair_refuted",
    "C72_number_refuted",
    "C72_text_refuted"
   ],
   "note": "False for tuples of a character and a list of characters (C72_pair_refuted), numbers of more than 64 bits and non-zero numbers (C72_number_refuted) and texts with a length of 64 bits (C72_text_refuted). Proved for all other types, in both directions, under the conditions of C58, when no other type has the id of bytes, characters or unit."
  },
  {
   "property": "C73",
   "status": "partial",
   "theorems": [
    "C73",
    "C73_ids",
    "C73_symbol",
    "C73_absent",
    "C73_found_partial",
    "C73_value_partial",
    "C73_rust_partial",
    "C73_refuted"
   ],
   "note": "False when a library imported later has an identical type: the name is lost, and everything by this name fails though the type is there (C73_refuted). Proved: a name is resolved to a type of this name or is absent (C73), other names are always absent (C73_absent); names which have their definition for themselves are found, for getting, typifying, reading (C73_found_partial), writing and reading of values (C73_value_partial) and for data of Rust programs (C73_rust_partial). The same for types given by id (C73_ids); names shown with types are names given by a library (C73_symbol)."
  },
  {
   "property": "C74",
   "status": "partial",
   "theorems": [
    "C74_names",
    "C74",
    "C74_all",
    "C74_others",
    "C74_printed",
    "C74_source",
    "C74_saved",
    "C74_symbolic",
    "C74_refuted",
    "C74_exact"
   ],
   "note": "False for saves which fail: the file is emptied first, so a library with a missing type leaves only a comment, whatever was there (C74_refuted). Everything else is proved: C74, C74_all, C74_names (names of files), C74_others, C74_printed; content of source files: C74_source, C74_saved, C74_symbolic. C74_exact: exactly when libraries are saved; whenever the file can be created, what was there before is lost."
  },
  {
   "property": "C75",
   "status": "proved",
   "theorems": [
    "C75_formats",
    "C75",
    "C75_unique"
   ],
   "note": "C75 (exactly the arguments accepted and their meaning), C75_unique, C75_formats."
  },
  {
   "property": "C76",
   "status": "proved",
   "theorems": [
    "C76",
    "C76_truncated",
    "C76_extended"
   ],
   "note": "C76 for all five kinds of data; C76_truncated and C76_extended for files with libraries."
  },
  {
   "property": "C77",
   "status": "partial",
   "theorems": [
    "C77_tagged",
    "C77_accepted",
    "C77_order",
    "C77",
    "C77_distinct",
    "C77_few",
    "C77_refuted",
    "C77_order_refuted",
    "C77_fields",
    "C77_fields_refuted",
    "C77_wf"
   ],
   "note": "False for repeated names: they are accepted among more than eleven variants (C77_refuted), with tags in some orders but not in others (C77_order_refuted), and always for fields (C77_fields_refuted). Proved: content and order of whatever is accepted (C77, C77_tagged, C77_order, C77_fields), acceptance of different names and tags (C77_accepted, C77_distinct), refusal of repeated names up to eleven variants (C77_few), results are well-formed enumerations (C77_wf). Repeated tags, invalid names and wrong numbers are always refused (part of C77, C77_tagged)."
  },
  {
   "property": "C78",
   "status": "proved",
   "theorems": [
    "C78",
    "C78_accepted"
   ],
   "note": "C78 (content of whatever is accepted), C78_accepted."
  },
  {
   "property": "C79",
   "status": "partial",
   "theorems": [
    "C79_types",
    "C79_stored",
    "C79_complete",
    "C79_libs_complete",
    "C79_refuted"
   ],
   "note": "False of the code for the size: two systems read from less than 2^24 bytes each are joined to a longer one, C79_refuted (completeness: see C22_refuted). Proved: the number of types, unique ids and well-formed types for all sequences of building, reading, extending and extracting; systems from well-formed libraries are read back unchanged; completeness is preserved by all operations."
  },
  {
   "property": "C80",
   "status": "partial",
   "theorems": [
    "C80_struct_partial",
    "C80_tuple_partial",
    "C80_union",
    "C80_union_number",
    "C80_value",
    "C80_none",
    "C80_names",
    "C80_refuted",
    "C80_numbers_refuted",
    "C80_enum_refuted",
    "C80_repeated_refuted"
   ],
   "note": "Proved for structures and tuples of two or more fields, unions by name and number, optionals, other values (C80_struct_partial, C80_tuple_partial, C80_union, C80_union_number, C80_none, C80_value); invalid names panic (C80_names). False for structures of one field, which become unions (C80_refuted), for numbers without a suffix, which are signed and not accepted for unsigned types (C80_numbers_refuted), for tags of enumerations (C80_enum_refuted) and for repeated fields, of which the last is taken (C80_repeated_refuted)."
  },
  {
   "property": "C81",
   "status": "proved",
   "theorems": [
    "C81_name",
    "C81_alternate",
    "C81_forms",
    "C81_urn"
   ],
   "note": "The text of ids (crate baid64, external) is a parameter which is required to differ for different ids. The id of the library is not part of the text of a reference."
  }
 ]
}