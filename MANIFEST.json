{
 "claims": [
  {
   "property": "C01",
   "status": "proved",
   "theorems": [
    "C01_scalar_roundtrip"
   ],
   "note": "Writer and reader hosts independent, both byte orders."
  },
  {
   "property": "C02",
   "status": "proved",
   "theorems": [
    "C02_read_in_bounds",
    "C02_read_out_of_bounds",
    "C02_read_out_of_bounds_release",
    "C02_read_panics_iff",
    "C02_debug_huge_location_refuted",
    "C02_write_frame",
    "C02_write_panics_iff"
   ],
   "note": "In bounds exact; out of bounds is the error, except that a debug build panics when loc+size overflows usize (refuted there)."
  },
  {
   "property": "C03",
   "status": "proved",
   "theorems": [
    "C03_reader_never_panics_release"
   ],
   "note": "Any chain of reader calls, release build."
  },
  {
   "property": "C04",
   "status": "proved",
   "theorems": [
    "C04_debug_panics_exact",
    "C04_reader_never_panics_debug_refuted",
    "C04_debug_panics_iff",
    "C04_field_access_panics_iff"
   ],
   "note": "The claim is false (refuted with a 8-byte buffer). Proved instead: a debug program panics exactly at the listed calls, for every program on buffers of less than 2^63 bytes (`C04_debug_panics_exact`); with the types generated code uses and buffers of up to 2 GiB the list is shorter (`C04_debug_panics_iff`)."
  },
  {
   "property": "C05",
   "status": "proved",
   "theorems": [
    "C05_string_read_iff",
    "C05_string_read_errors"
   ],
   "note": "UTF-8 stated from the Unicode definition, automaton proved equivalent."
  },
  {
   "property": "C06",
   "status": "proved",
   "theorems": [
    "C06_field_access_follows_vtable",
    "C06_table_outside_buffer"
   ],
   "note": "Buffers below 2 GiB (the format limit)."
  },
  {
   "property": "C07",
   "status": "proved",
   "theorems": [
    "C07_get_field_past_end_refuted",
    "C07_get_field_inside",
    "C07_get_inside",
    "C07_get_last_byte_refuted",
    "C07_num_fields_exact"
   ],
   "note": "False at index = field count (refuted, off by one); proved below the count, and for lookup by slot."
  },
  {
   "property": "C08",
   "status": "proved",
   "theorems": [
    "C08_length_exact",
    "C08_scalar_element_exact",
    "C08_bool_element_exact",
    "C08_string_element_exact",
    "C08_table_element_exact",
    "C08_past_end_debug",
    "C08_past_end_release_refuted"
   ],
   "note": "Exact below the length; past the end: debug panics, release returns other bytes (refuted)."
  },
  {
   "property": "C09",
   "status": "proved",
   "theorems": [
    "C09_iteration_is_a_deque",
    "C09_unreadable_vector_is_empty"
   ],
   "note": "Refinement to a deque for every call sequence; in debug the nth arguments must not overflow (see C10)."
  },
  {
   "property": "C10",
   "status": "proved",
   "theorems": [
    "C10_nth_far_release",
    "C10_nth_far_debug",
    "C10_nth_far_debug_refuted",
    "C10_nth_back_far"
   ],
   "note": "Release: all n. Debug: refuted, panics exactly when size*n overflows."
  },
  {
   "property": "C11",
   "status": "proved",
   "theorems": [
    "C11_data_kept",
    "C11_beyond_4gib_refuted"
   ],
   "note": "Every history below 4 GiB. Beyond 4 GiB a release build overwrites earlier bytes (refuted)."
  },
  {
   "property": "C12",
   "status": "proved",
   "theorems": [
    "C12_capacity_irrelevant",
    "C12_capacity_completes"
   ],
   "note": "Results and bytes; also completion, up to 2 GiB."
  },
  {
   "property": "C13",
   "status": "proved",
   "theorems": [
    "C13_unused_zero"
   ],
   "note": "Every history, resets included."
  },
  {
   "property": "C14",
   "status": "proved",
   "theorems": [
    "C14_objects_aligned",
    "C14_fields_aligned"
   ],
   "note": "Scalars, offsets, elements (and where they start, if there are none), lengths, table fields; total length in C14_objects_aligned."
  },
  {
   "property": "C15",
   "status": "proved",
   "theorems": [
    "C15_padding_least",
    "C15_padding_minimal"
   ],
   "note": "For the padding function and for every writing call."
  },
  {
   "property": "C16",
   "status": "proved",
   "theorems": [
    "C16_reset_like_new",
    "C16_reset_completes",
    "C16_reset_mid_table_refuted"
   ],
   "note": "When no table is half built at the reset; otherwise false (refuted: recorded fields survive the reset)."
  },
  {
   "property": "C17",
   "status": "proved",
   "theorems": [
    "C17_capacity_limit",
    "C17_request_limit",
    "C17_total_size_refuted"
   ],
   "note": "The claim as stated is false (refuted): only the initial capacity and each single request are limited. Both limits are proved."
  },
  {
   "property": "C18",
   "status": "proved",
   "theorems": [
    "C18_tables_share",
    "C18_vtables_counted",
    "C18_vtables_distinct"
   ],
   "note": "Sharing iff byte-identical, count, pairwise different."
  },
  {
   "property": "C19",
   "status": "proved",
   "theorems": [
    "C19_fields_round_trip"
   ],
   "note": "Distinct slots; buffer below 2 GiB; in release the 64 KiB inline limit is a hypothesis (see C31)."
  },
  {
   "property": "C20",
   "status": "proved",
   "theorems": [
    "C20_default_round_trip"
   ],
   "note": "Equality is the == of the scalar type."
  },
  {
   "property": "C21",
   "status": "proved",
   "theorems": [
    "C21_string_round_trip",
    "C21_byte_string_round_trip"
   ],
   "note": "Strings and byte strings, after any further building."
  },
  {
   "property": "C22",
   "status": "proved",
   "theorems": [
    "C22_vector_round_trip",
    "C22_offset_vector_round_trip",
    "C22_vector_direct_round_trip"
   ],
   "note": "Scalar, enum and offset vectors, both creation calls."
  },
  {
   "property": "C23",
   "status": "proved",
   "theorems": [
    "C23_direct_general"
   ],
   "note": "All states, hosts where the call exists."
  },
  {
   "property": "C24",
   "status": "proved",
   "theorems": [
    "C24_strings_vector_round_trip"
   ],
   "note": ""
  },
  {
   "property": "C25",
   "status": "proved",
   "theorems": [
    "C25_by_elements"
   ],
   "note": "Equal outcomes including panics."
  },
  {
   "property": "C26",
   "status": "proved",
   "theorems": [
    "C26_finish_root",
    "C26_finish_identifier",
    "C26_identifier_misplaced_refuted",
    "C26_finish_empty_refuted"
   ],
   "note": "Root and size prefix always; identifier when something 4-aligned was written, misplaced otherwise (refuted); finishing an empty builder panics (refuted)."
  },
  {
   "property": "C27",
   "status": "proved",
   "theorems": [
    "C27_required_exact"
   ],
   "note": "Exact."
  },
  {
   "property": "C28",
   "status": "proved",
   "theorems": [
    "C28_misuse_panics",
    "C28_completes_bracketed",
    "C28_misuse_unseen_refuted"
   ],
   "note": "Against a protocol automaton; two misuses are not noticed (refuted)."
  },
  {
   "property": "C29",
   "status": "proved",
   "theorems": [
    "C29_release_agrees",
    "C29_endianness_irrelevant"
   ],
   "note": "Also independent of host byte order."
  },
  {
   "property": "C30",
   "status": "proved",
   "theorems": [
    "C30_offset_reaches"
   ],
   "note": ""
  },
  {
   "property": "C31",
   "status": "proved",
   "theorems": [
    "C31_debug_refuses_oversized",
    "C31_truncated_fields",
    "C31_release_wide_table_refuted",
    "C31_release_last_slot_refuted"
   ],
   "note": "Debug builds refuse. Release builds do not (refuted twice); exact release behaviour proved."
  },
  {
   "property": "C32",
   "status": "proved",
   "theorems": [
    "C32_slots_bijective",
    "C32_slots_overflow_refuted"
   ],
   "note": "Up to index 32765; beyond, debug panics and release wraps (refuted)."
  },
  {
   "property": "C33",
   "status": "proved",
   "theorems": [
    "C33_documents_round_trip",
    "C33_documents_determined"
   ],
   "note": "Documents of any depth, and what is read determines the document. Structs are not supported by the generator (it panics)."
  },
  {
   "property": "C34",
   "status": "proved",
   "theorems": [
    "C34_create_exact",
    "C34_documents_written",
    "C34_documents_refused",
    "C34_required_given_refuted"
   ],
   "note": "As stated it is false (refuted): a required scalar equal to its default panics. Exact condition proved, for single tables and documents."
  },
  {
   "property": "C35",
   "status": "proved",
   "theorems": [
    "C35_generators_agree",
    "C35_old_reads_new",
    "C35_new_reads_old"
   ],
   "note": "Both directions."
  },
  {
   "property": "C36",
   "status": "proved",
   "theorems": [
    "C36_enum_round_trip",
    "C36_enum_read",
    "C36_enum_read_fails"
   ],
   "note": "For every byte string and host."
  },
  {
   "property": "C37",
   "status": "proved",
   "theorems": [
    "C37_documented_refuted",
    "C37_values_exact",
    "C37_distinct",
    "C37_documented_iff"
   ],
   "note": "As stated it is false (refuted): implicit values are indices. Exact values, distinctness and the exact condition for the documented ones proved."
  },
  {
   "property": "C38",
   "status": "proved",
   "theorems": [
    "C38_union_accessor",
    "C38_enum_variant_refuted"
   ],
   "note": "For every byte string. An enum among the variants is not read as it was stored (refuted)."
  },
  {
   "property": "C39",
   "status": "proved",
   "theorems": [
    "C39_terminates",
    "C39_resolved_or_error",
    "C39_unsupported",
    "C39_any_schema_refuted"
   ],
   "note": "Termination for every schema; resolved or rejected for every schema of supported declarations. As stated it is false (refuted): file_extension, file_identifier, attribute and object declarations panic."
  },
  {
   "property": "C40",
   "status": "proved",
   "theorems": [
    "C40_resolves_iff",
    "C40_same_definitions",
    "C40_any_order",
    "C40_refuted"
   ],
   "note": "As stated it is false (refuted): a union and a table that need each other resolve in one order only. Exactly which orders resolve is proved, and that the definitions are then the same."
  },
  {
   "property": "C41",
   "status": "proved",
   "theorems": [
    "C41_written_or_last",
    "C41_exact",
    "C41_one_namespace",
    "C41_declared_before_use",
    "C41_refuted"
   ],
   "note": "As stated it is false (refuted): a deferred declaration moves to the last namespace of the file. Proved exactly which do: a declaration stays if and only if, from where it is written, it refers only to earlier ones that stay and to tables declared so far; the others are defined in the last namespace."
  },
  {
   "property": "C42",
   "status": "proved",
   "theorems": [
    "C42_complete",
    "C42_count"
   ],
   "note": "Every schema."
  },
  {
   "property": "C43",
   "status": "proved",
   "theorems": [
    "C43_defined_once",
    "C43_one_namespace",
    "C43_declared_before_use",
    "C43_given",
    "C43_refuted"
   ],
   "note": "No resolved schema defines a name twice. As stated it is false (refuted), because a deferred declaration moves to another namespace; proved for the names declarations give where they end up (C41), and so if there is one namespace, or if types are declared before use."
  },
  {
   "property": "C44",
   "status": "proved",
   "theorems": [
    "C44_mentioned",
    "C44_exact",
    "C44_one_namespace",
    "C44_declared_before_use",
    "C44_companion",
    "C44_refuted",
    "C44_kind_refuted"
   ],
   "note": "As stated it is false (refuted): a table that moved leaves references behind, also to names that something else is defined with. Proved that nothing but such tables dangles, and exactly which names are defined; nothing dangles if there is one namespace, or if types are declared before use."
  },
  {
   "property": "C45",
   "status": "proved",
   "theorems": [
    "C45_leads_to_the_name",
    "C45_shape",
    "C45_enclosing",
    "C45_no_super",
    "C45_emitted_iff",
    "C45_refuted"
   ],
   "note": "The relative path is right for all names. As stated it is false (refuted): modules are emitted in snake case and paths are not. Exact condition proved."
  },
  {
   "property": "C46",
   "status": "proved",
   "theorems": [
    "C46_keyword_iff",
    "C46_keyword_refuted",
    "C46_collisions",
    "C46_distinct",
    "C46_distinct_refuted",
    "C46_accessor_refuted"
   ],
   "note": "As stated it is false (refuted): try is not substituted, type and ty clash. Exactly which identifiers stay keywords or clash is proved."
  },
  {
   "property": "C47",
   "status": "proved",
   "theorems": [
    "C47_rules_split",
    "C47_schema_runs",
    "C47_many0_exact",
    "C47_list_exact",
    "C47_nonempty_list_exact",
    "C47_value_equation",
    "C47_type_equation"
   ],
   "note": "Every rule, every text; loops and recursion shown independent of the model fuel. Stack exhaustion on deep nesting is not modelled."
  },
  {
   "property": "C48",
   "status": "proved",
   "theorems": [
    "C48_reads_language",
    "C48_reads_only_language",
    "C48_exact",
    "C48_clear_in_language",
    "C48_printed_in_language",
    "C48_printed_parses",
    "C48_unambiguous",
    "C48_documented_syntax_refuted"
   ],
   "note": "The texts read are exactly those of an independently stated grammar where no special word is in the way of a value (C48_exact, an equivalence); printed schemas read back; unambiguous. As stated it is false (refuted): parts of the documented syntax are not read."
  },
  {
   "property": "C49",
   "status": "proved",
   "theorems": [
    "C49_type_name_iff",
    "C49_field_rejected",
    "C49_user_type_refuted"
   ],
   "note": "As stated it is false (refuted): interval. Proved: read as itself exactly if it does not start with a built-in name; otherwise the field is rejected."
  },
  {
   "property": "C50",
   "status": "proved",
   "theorems": [
    "C50_blanks_do_not_matter",
    "C50_exact",
    "C50_around_declarations",
    "C50_blank_read",
    "C50_comment_refuted"
   ],
   "note": "As stated it is false (refuted): a comment with the word inf. Proved exactly: of two texts of one schema of which one is read, the other is read if and only if none of the words nan, inf, infinity is in the way of a value."
  },
  {
   "property": "C51",
   "status": "proved",
   "theorems": [
    "C51_decimal",
    "C51_hexadecimal",
    "C51_integer",
    "C51_integer_only",
    "C51_scalar",
    "C51_every_digit_string_refuted"
   ],
   "note": "As stated it is false (refuted) outside i128; proved exact inside, rejected outside."
  },
  {
   "property": "C52",
   "status": "proved",
   "theorems": [
    "C52_syntax_error",
    "C52_generated",
    "C52_no_syntax_error",
    "C52_exact",
    "C52_error_refuted"
   ],
   "note": "As stated it is false (refuted): the error message panics. Proved exactly when a text reaches the generator, when it is an error and when a panic."
  },
  {
   "property": "C53",
   "status": "proved",
   "theorems": [
    "C53_snake_shape",
    "C53_snake_fixed",
    "C53_words",
    "C53_accessor_valid_iff",
    "C53_module_valid_iff",
    "C53_substitution_undone",
    "C53_refuted"
   ],
   "note": "As stated it is false (refuted): match, _ and _1. Snake case is exactly the words of the name (`SpecWords.v`: where a word starts is said by its neighbours) in small letters. Exactly which names give a valid accessor or module name is proved, for ASCII names."
  },
  {
   "property": "C54",
   "status": "proved",
   "theorems": [
    "C54_clash",
    "C54_exact",
    "C54_distinct",
    "C54_refuted"
   ],
   "note": "As stated it is false (refuted): fooBar and foo_bar. Proved: two fields clash exactly if they have the same words up to case, type counting as ty; so snake-case names do not clash except type and ty."
  },
  {
   "property": "C55",
   "status": "proved",
   "theorems": [
    "C55_never_panics",
    "C55_typed",
    "C55_required"
   ],
   "note": "Never panicking: release builds (debug builds: see C04). Types: every build. Tables of any number of fields."
  },
  {
   "property": "C56",
   "status": "proved",
   "theorems": [
    "C56_buffer_bounded",
    "C56_buffer_bounded_no_reset",
    "C56_buffer_doubles"
   ],
   "note": "Every call sequence; with resets the bound is on the largest content so far."
  },
  {
   "property": "C57",
   "status": "proved",
   "theorems": [
    "C57_completes",
    "C57_struct_panics",
    "C57_field_panics",
    "C57_default_panics",
    "C57_refuted",
    "C57_exact"
   ],
   "note": "As stated it is false (refuted). Proved: it completes on every schema without structs whose names have a letter in front, whose defaults go with their types, and in which no type has the name of a namespace; three causes of a panic; and exactly which resolved schemas it completes on, for ASCII names."
  },
  {
   "property": "C58",
   "status": "proved",
   "theorems": [
    "C58_no_clash_iff",
    "C58_refuted"
   ],
   "note": "As stated it is false (refuted). Proved: there is no clash exactly if four conditions on the schema hold."
  },
  {
   "property": "C59",
   "status": "proved",
   "theorems": [
    "C59_one_namespace",
    "C59_declared_before_use",
    "C59_exact",
    "C59_exact_defined",
    "C59_refuted"
   ],
   "note": "As stated it is false (refuted). Proved for one namespace, for several under three conditions, and exactly when all paths lead to their items."
  },
  {
   "property": "C60",
   "status": "proved",
   "theorems": [
    "C60_definitions_grow",
    "C60_accessors",
    "C60_elements",
    "C60_added_fields",
    "C60_any_schema_refuted"
   ],
   "note": "As stated it is false (refuted): a new reference can move a table to another namespace (C41). Proved for schemas in which declarations stay where they are written."
  },
  {
   "property": "C61",
   "status": "proved",
   "theorems": [
    "C61_compiles_iff",
    "C61_type_fields",
    "C61_refuted"
   ],
   "note": "As stated it is false (refuted, 30 schemas). Proved: exactly which tables of a resolved schema compile, as far as the rules of rustc in Codegen.v go; names that are no Rust names are C53 and C57, clashes between items C58, names hidden by others C62."
  },
  {
   "property": "C62",
   "status": "proved",
   "theorems": [
    "C62_hidden_iff",
    "C62_items",
    "C62_free_names",
    "C62_refuted"
   ],
   "note": "As stated it is false (refuted, 11 schemas): a type B, Result, u8 or a namespace std is enough. Proved: exactly which schemas hide nothing, that no name is hidden if no type or namespace has one of twenty names, and that every name meant as a type of the generated code is that of a type beside it or a path of C59."
  },
  {
   "property": "C63",
   "status": "proved",
   "theorems": [
    "C63_others",
    "C63_main_others",
    "C63_success",
    "C63_exact",
    "C63_main_exact",
    "C63_failure",
    "C63_own_output",
    "C63_main_own_output",
    "C63_output_name",
    "C63_output_exact",
    "C63_output_place",
    "C63_lost_refuted",
    "C63_rustfmt_refuted"
   ],
   "note": "As stated it is false (refuted): the output is truncated before the schema is read, the exit status of rustfmt is ignored, and the directory of the schema plays no part in the name of the output. Proved: what a run can change, what success means, what is left after a failure, and the name of the output."
  },
  {
   "property": "C64",
   "status": "proved",
   "theorems": [
    "C64_saved",
    "C64_between",
    "C64_exact",
    "C64_refused",
    "C64_from_text"
   ],
   "note": "For schemas all of whose tables get code that compiles (C61) and have at most 8190 fields (below 64 KiB whatever their types), and documents of less than 2^31 - 150000 bytes. Exact: the documents of the right Rust types are saved and read back if no required field is given its default or left out for it; all others make the generated code panic. Numbers read back equal in the sense of ==: 0.0 and -0.0 are not told apart when one is the default (C20)."
  },
  {
   "property": "C65",
   "status": "proved",
   "theorems": [
    "C65_new_reads_old",
    "C65_old_reads_new"
   ],
   "note": "For pairs of schemas as in C60 (declarations stay where they are written) with documents and tables as in C64. Added fields that are required and without default are reported missing by new code on old documents; a vector is read whole, its elements with an unknown variant are refused one by one."
  },
  {
   "property": "C66",
   "status": "proved",
   "theorems": [
    "C66_follow_exact",
    "C66_follow_debug",
    "C66_follow_debug_exact",
    "C66_field_exact",
    "C66_field_debug",
    "C66_field_debug_exact",
    "C66_element_exact",
    "C66_element_debug_exact",
    "C66_vtable_length_exact",
    "C66_object_length_exact",
    "C66_vtable_get_exact",
    "C66_vtable_get_field_exact",
    "C66_vtable_bytes_exact",
    "C66_identifier_exact"
   ],
   "note": "Buffers of less than 2^63 bytes. Exact for release builds and, with the positions that overflow, for debug builds. In a release build Vector::get past the end returns what stands in the cell, and VTable::get_field one past the last field reads the two bytes after the vtable (findings)."
  },
  {
   "property": "C67",
   "status": "proved",
   "theorems": [
    "C67_panics_exactly",
    "C67_completes_exactly",
    "C67_release",
    "C67_call",
    "C67_bytes"
   ],
   "note": "Buffers within 2 GiB, where the builder stops growing (C56). The rules as the code has them: the fields pending at a reset stay pending, offsets up to seven bytes beyond the end pass, a slot set twice passes when its first entry is 0 modulo 2^16 (findings)."
  },
  {
   "property": "C68",
   "status": "proved",
   "theorems": [
    "C68_reader_same",
    "C68_reader_in_bounds",
    "C68_builder_same",
    "C68_builder_in_bounds",
    "C68_generated_same",
    "C68_generated_in_bounds"
   ],
   "note": "Slices of allocations of less than 2^63 bytes, reader calls with locations that fit usize, builder calls with arguments of their Rust types. The functions are written out a second time with the slices and pointers they really use, and proved to return the same as the model; the generated accessors too."
  },
  {
   "property": "C69",
   "status": "proved",
   "theorems": [
    "C69_reader_refuted",
    "C69_builder_exact",
    "C69_builder_new",
    "C69_odd_slot_refuted",
    "C69_required_refuted",
    "C69_bool_refuted",
    "C69_bools_valid",
    "C69_documents_aligned",
    "C69_unfinished_refuted"
   ],
   "note": "As stated it is false (refuted): the reader makes misaligned accesses on bytes no address can align, and shows any byte as a bool in a &[bool]; the builder makes them when created with a capacity other than 0, 1, 2, 4 or a multiple of 8, for odd slots, and in required for a place that is no table. Proved: with one of those capacities and without the other two every access of the builder is aligned, and these capacities are exact; without &[bool] every byte taken for a bool is 0 or 1. Whole documents, written with generated code between any calls and finished, are read with aligned accesses only, by every host and all the way down (buffers below 2 GiB); before they are finished this is refuted."
  },
  {
   "property": "C70",
   "status": "proved",
   "theorems": [
    "C70_exact",
    "C70_one_namespace",
    "C70_declared_before_use",
    "C70_refuted"
   ],
   "note": "As stated it is false (refuted): a root_type written before its table names, when tried again, a table of the last namespace. Proved exactly which tables are roots: those named from where the declaration ends up (C41), and those that a deferred service names, where it is written, before the first that is not defined yet. So it holds if there is one namespace, or if types are declared before use."
  },
  {
   "property": "C71",
   "status": "proved",
   "theorems": [
    "C71_no_effect",
    "C71_texts",
    "C71_union_numbers",
    "C71_refuted",
    "C71_include_refuted"
   ],
   "note": "As stated it is false (refuted). Proved exactly: attributes other than required on fields and streaming on methods, numbers given to variants of unions, and includes have no effect at all; variants of unions are numbered by position."
  },
  {
   "property": "C72",
   "status": "proved",
   "theorems": [
    "C72_texts",
    "C72_texts_rejected",
    "C72_accepts_iff",
    "C72_one_namespace",
    "C72_declared_before_use",
    "C72_rejects",
    "C72_refuted"
   ],
   "note": "As stated it is false (refuted): fields, methods and services of the same name are accepted, and one more condition is needed, that some declaration can be the first to be defined. Proved: among the schemas whose declarations stay in their namespaces (as with one namespace, or declared before use) exactly the well-formed ones with such a declaration are accepted, and the other supported ones rejected with an error. Schemas with declarations that move (C41) are not covered."
  },
  {
   "property": "C73",
   "status": "proved",
   "theorems": [
    "C73_one_file",
    "C73_no_two_files",
    "C73_exact",
    "C73_one_document",
    "C73_same_file",
    "C73_same_exactly",
    "C73_same_bytes_refuted"
   ],
   "note": "The last clause is false as stated (refuted): 0.0 and -0.0 are equal but have different bytes. Proved: the file of a document is the same for all builds, hosts and capacities, and the documents it reads as are exactly those that say the same; documents that say the same with numbers of the same bits have the same file, and where no number is -0.0 two documents have the same file exactly if they say the same. Documents of up to about 2 GiB, tables of up to 8190 fields; that no document has two files also beyond 2 GiB."
  }
 ]
}