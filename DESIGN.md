# Formal model of butte in Rocq: design

Property texts are in `properties.jsonl`, status per property in
`MANIFEST.json`, wrong programs tried against the theorems in
`seeded/LOG.jsonl`. This file says what is modelled, what is trusted, how each
property is stated and proved, and what was found wrong with the code.

## Approach

* Small, total, computable Gallina functions, one per Rust function, each
  carrying a comment with file and lines. Proofs live in separate files.
* `outcome A` is a value, an `Error`, or a panic. `&mut self` methods return
  the new state. `Result` and `Option` stay data. Panics are never hidden.
* A `host` parameter carries the two things in which builds differ: overflow
  checks and debug assertions on or off ("debug" / "release"), and the byte
  order of the machine. `usize` has 64 bits.
* Bytes are Coq's `Byte.byte`; a buffer is a `list byte`; numbers are `Z` with
  explicit wrap-around or panic wherever the Rust operation can overflow.
* Property theorems are in `Props*.v`, which hold nothing but statements closed
  by `exact`, a `Print Assumptions` each, and a concrete example (`Cxx_case`)
  meeting the hypotheses. Specifications independent of the model are in
  `Spec*.v`: byte layouts by `nth_error`, a protocol automaton, document trees,
  an order-free description of resolution, a grammar relation, a printer.
* Client programs are data: `Client.v` (sequences of reader calls on handles
  obtained earlier), `Ops.v` (sequences of builder calls), `SpecGen.v` (documents), `SpecAccess.v` (generated accessors on arbitrary bytes).
  The theorems quantify over all of them.
* If a property is false of the code, there is a theorem `..._refuted` with a
  witness, next to the strongest version that does hold, usually an
  equivalence. `MANIFEST.json` says so in the note.

## File map

| model | of | proofs |
|---|---|---|
| `Base.v` | meaning of Rust's integers, slices, panics | `BaseFacts.v` |
| `Scalar.v` | `butte/src/endian_scalar.rs`, `push.rs` | `ScalarFacts.v` |
| `Utf8.v` | `std::str::from_utf8` | `Utf8Facts.v` |
| `Reader.v`, `Client.v` | `follow.rs`, `primitives.rs`, `table.rs`, `vtable.rs`, `vector.rs`, `error.rs` | `SpecReader.v`, `SpecFollow.v`, `ReaderProofs*.v`, `PropsReader.v`, `PropsFollow.v` |
| `Builder.v`, `Ops.v` | `builder.rs`, `vtable_writer.rs`, `primitives.rs` (`Push`) | `Builder*.v`, `SpecUse.v`, `UseProofs*.v`, `PropsBuilder.v`, `PropsUse.v` |
| `Raw.v`, `RawBuilder.v`, `RawGen.v` | the `unsafe` code behind these: its memory accesses | `SpecRaw.v`, `SpecSeat.v`, `RawProofs*.v`, `PropsRaw.v`, `PropsSeat.v` |
| `Codegen.v` | what the code emitted by `butte-build/src/codegen.rs` does | `PropsGen.v` and the files it imports |
| `Emit.v` | which items, names and paths `codegen.rs` emits, and when it panics | `SpecPaths.v`, `SpecWrite.v`, `EmitProofs*.v`, `EmitCase*.v`, `PropsEmit.v` |
| `Schema.v` | `ast/types.rs`, `ir/types.rs` (data types) | |
| `Ident.v` | `ir/keywords.rs`, `ir/types.rs` (identifiers) | `PropsIdent.v` |
| `Heck.v` | heck 0.3.1 `to_snake_case`, ASCII | `SpecWords.v`, `HeckProofs*.v`, `PropsIdent.v` |
| `Resolve.v` | `ir/transform.rs` | `SpecResolve.v`, `SpecFormed.v`, `Resolve*.v`, `PropsResolve.v` |
| `SpecEvolve.v` | versions of a schema | `EvolveProofs*.v`, `PropsEvolve.v` |
| `Parser.v` | `ast/parser.rs`, `ast/parser_macros.rs` users, nom 5.1 combinators | `ParserProofs*.v`, `GrammarProofs*.v`, `SoundProofs*.v`, `PrintProofs.v`, `PropsParser.v` |
| `Compile.v` | `compile.rs` (`compile_fbs_generic`) | `CompileProofs.v`, `PropsCompile.v`, `PropsAttr.v` |
| `Files.v` | `compile.rs`, `main.rs`: runs of the compiler on files | `FilesProofs.v`, `PropsFiles.v` |
| `Names.v` | names in emitted code that Rust or its prelude also uses | `SpecNames.v`, `NameProofs*.v`, `PropsNames.v` |
| `SpecTable.v` | (no model: accessors described by the schema) | `TableProofs*.v`, `PropsTable.v` |
| `SpecDoc.v` | (no model: documents in the words of a schema) | `DocProofs*.v`, `DocCase.v`, `PropsDoc.v` |
| `SpecSame.v` | (no model: when documents say the same) | `DocProofs6.v`-`DocProofs9.v`, `SameCase.v`, `PropsSame.v` |
| `SpecGrow.v` | (no model: documents under a later schema) | `GrowProofs*.v`, `GrowCase.v`, `PropsGrow.v` |
| `RepoTests.v`, `RepoTests2.v` | the project's own tests, run on the model | |

## Trusted base

1. **Coq 8.16.1's kernel** (and `vm_compute` where a proof uses it: that is
   part of the kernel).
2. **No axioms.** `Print Assumptions` of each of the theorems listed below
   prints "Closed under the global context". The `vcheck` report
   also lists seven axioms of the loaded libraries,
   `Coq.ssr.ssrunder.Under_rel.{Under_rel, Under_rel_from_rel,
   Under_relE, Over_rel, over_rel, over_rel_done, under_rel_done}`: these are
   the opaque-signature constants of ssreflect's `under` tactic, present because
   the Coq standard library file `ssrunder` is loaded; no theorem here uses them.
3. **The reading of the Rust source by hand.** Nothing connects the model to
   `/repo` mechanically. Each definition cites the lines it models. As a check on the
   reading, `RepoTests.v` and `RepoTests2.v` run the project's own tests on the model:
   all 134 of `ast/parser.rs`, the 15 of `ir/transform.rs`, the 5 of `ir/types.rs`, those
   of `codegen.rs` on default values (integers and booleans) and required fields, and the
   programs of `butte-examples` (arrays, default values, greeter). Model and tests agree
   everywhere. Left out are the tests of test helpers (`parser_macros.rs`), of one-line
   token conversions and of float literals as text (`codegen.rs`), and of
   `ast::Type::is_scalar` and `Element::namespace` (`ast/types.rs`). These examples are
   tests and prove no property.
4. **The meaning given to Rust and its libraries**, in particular:
   * `usize` is 64 bits; `Vec` allocation never fails; stack never overflows.
   * `unsafe` blocks (raw pointer reads/writes in `builder.rs`,
     `endian_scalar.rs`, `vtable_writer.rs`, `vector.rs`) do what the
     corresponding byte copy does. That their accesses are in bounds is proved (C68);
     which of them are aligned, and which bytes are taken for a `bool`, is C69. Where an
     access is misaligned the model goes on with the bytes, as the machine usually does.
   * In C69 the allocations of the builder start at a multiple of 8. (`Vec<u8>` asks for
     an alignment of 1; the usual allocators give 8 or 16.)
   * `SmallVec::set_len` in `create_vector_of_strings` is given a length within the
     capacity asked for one line before.
   * `str::from_utf8` (`Utf8.v`) is proved equal to the Unicode definition.
   * Floats are bit patterns; `==` on them follows IEEE (`Scalar.v`).
   * nom 5.1 and `regex` combinators, written down from their documented
     behaviour in `Parser.v`. One of them matters: `re_match!` succeeds with the
     *whole* input when the regex matches *anywhere* in it.
   * `anyhow`, `BTreeMap`/`HashMap` iteration where order matters
     (`BTreeSet` order modelled in `qset_add`), `VecDeque`.
5. **Oracles.** Section variables over which the theorems quantify universally,
   so nothing is assumed about them unless a hypothesis says so:
   * `snake`: `heck`'s `to_snake_case` (C33-C46, C52). `Heck.v` writes that function
     out for ASCII names, from heck 0.3.1's published code (it is not in `/repo`);
     C45's refutation, C46's last theorem, C53 and C54 are about it;
   * `uni_alphabetic`, `uni_alphanumeric`, `uni_word`: `char` classes on non-ASCII
     characters (parser); the hypotheses `alphabetic_wide`, `alphanumeric_wide` say
     that they are only asked about encoded non-ASCII characters;
   * `parse_f64`, `parse_hexf64`: float conversions (parser); the hypothesis
     `hexf_range` says that the second gives 64-bit patterns; how a printer writes
     floats (`show_float`) is open, `writable` asks that they are read back;
   * `has_stem`: `Path::file_stem` on include paths (parser);
   * `ident_ok`, `path_ok`, `literal_ok`: whether `format_ident!`, `syn`'s path
     parser and `LitInt::new`/`LitFloat::new` take their argument (`Emit.v`); the
     hypotheses `accepts` and `rejects` say so for plain cases, `decides` for all ASCII
     names (leaving open whether `try` can be part of a path, which depends on
     the features of `syn`, and which floats can be printed), and `C57_case` and
     `C57_exact_case` show that they can be met;
   * `floats`: conversions of literals by rustc and `as f32` (`Codegen.v`); the
     hypothesis is only that they give bit patterns of the right width;
   * `code`, `rustfmt`, `interrupted`, `locate`, `creatable`, `out_dir` (`Files.v`): the
     text of the generated code, what `rustfmt` writes to its standard output, whether
     a write fails half-way, which file a path leads to, whether it can be created,
     the variable `OUT_DIR`.

### Not modelled

* Stack exhaustion on deeply nested schema values or types, memory exhaustion.
* The options of the command line (`structopt` in `butte-build/src/main.rs`); what is
  done with them is in `Files.v`. `lib.rs` re-exports, `macros.rs`, `ast/parser_macros.rs` (test
  helpers for building ASTs).
* The emitted Rust as text: `Codegen.v` models what the emitted code *does*.
  `Emit.v` models the names of emitted types, modules and functions and the paths
  between them, `Names.v` the names the code takes from Rust and which type
  parameters are in scope. Doc attributes, lifetimes, clippy attributes, derives, and names
  inside an item (other than those in C45, C46, C53, C54 and the `x_type` accessor
  lookup) are left out. A default naming an associated constant
  (`x:ubyte = MAX`), which rustc might accept, is treated as rejected.
* Rpc code: it is produced by a generator the caller supplies (`RpcGenerator`,
  codegen.rs:1146-1160), so there is none in `/repo`; resolution of services *is*
  modelled.
* Struct code generation: the generator panics (codegen.rs:1151), which
  `Codegen.v` shows as no generated table and `Emit.v` as a panic.
* `Debug`, `Clone`, `Display` impls. `SafeSliceAccess` slices are modelled for the
  scalar types; the trait is public and safe to implement, so a client can read any
  type through it (by reading). `follow_cast_ref` is `pub unsafe` and has no caller in
  the code that is modelled; the public function `read_scalar::<bool>` called on bytes directly is no
  reader call either.

### Simplifications inside modelled code

* `RequiredFieldMissing` carries no field name; error and panic messages are not
  kept.
* `HashMap`s used only for lookup are association lists.
* A generated table type, its `Args` and its builder are one list of fields;
  they refer to fields by index instead of by name.
* nom loops and recursive rules run on fuel; C47 proves the result does not
  depend on it. Resolution passes run on fuel; C39 proves it never runs out.


## Properties

Every row is a claim of `MANIFEST.json`; the theorem names are those of `Props*.v`.

| id | property | modelled in | how stated and proved | theorems | verdict |
|---|---|---|---|---|---|
| C01 | Scalars survive a write and a read | `Scalar.v`: `emplace_scalar`, `read_scalar(_at)` | Codec round trip by induction on the width. The byte layout is stated in `SpecWire.v` with `nth_error` and division only; writer and reader hosts are different variables. | `C01_scalar_roundtrip` | proved. Writer and reader hosts independent, both byte orders. |
| C02 | Scalar access stays in bounds | `Scalar.v` | Slice algebra. The error side needs `loc + size` not to overflow in debug; the overflow is refuted separately. | `C02_read_in_bounds` `C02_read_out_of_bounds` `C02_read_out_of_bounds_release` `C02_read_panics_iff` `C02_debug_huge_location_refuted` `C02_write_frame` `C02_write_panics_iff` | proved. In bounds exact; out of bounds is the error, except that a debug build panics when loc+size overflows usize (refuted there). |
| C03 | Reading untrusted bytes never panics (release build) | `Reader.v`, `Client.v` | Client programs are lists of calls on handles from earlier calls. Invariant: every handle in the environment is harmless. Induction on the program and on the field type. | `C03_reader_never_panics_release` | proved. Any chain of reader calls, release build. |
| C04 | Reading untrusted bytes never panics (debug build) | `Reader.v`, `Client.v` | Witness program on 8 bytes. Two lists of calls are proved to be exactly the source of panics: `trips` (`SpecFollow.v`) for every program, `hazard` (`SpecReader.v`) for programs over generated types and buffers of up to 2 GiB. Iteration is related to a deque of indices. | `C04_debug_panics_exact` `C04_reader_never_panics_debug_refuted` `C04_debug_panics_iff` `C04_field_access_panics_iff` | proved. The claim is false (refuted with a 8-byte buffer). Proved instead: a debug program panics exactly at the listed calls, for every program on buffers of less than 2^63 bytes (`C04_debug_panics_exact`); with the types generated code uses and buffers of up to 2 GiB the list is shorter (`C04_debug_panics_iff`). |
| C05 | String reads return exactly the bytes in the buffer or an error | `Reader.v` (`follow` on `FStr`), `Utf8.v` | Equivalence with `string_at`; UTF-8 is restated from code points (`SpecWire.v`) and the automaton proved equal to it. | `C05_string_read_iff` `C05_string_read_errors` | proved. UTF-8 stated from the Unicode definition, automaton proved equivalent. |
| C06 | Field access follows the vtable | `Reader.v` (`table_get`, `vtable_get`) | Case analysis against a relational description of vtable and slot. | `C06_field_access_follows_vtable` `C06_table_outside_buffer` | proved. Buffers below 2 GiB (the format limit). |
| C07 | Vtable queries stay inside the vtable | `Reader.v` (`num_fields`, `get_field`, `vtable_get`) | Non-interference: two buffers that agree on the vtable give the same answer. Off-by-one refuted by two such buffers. | `C07_get_field_past_end_refuted` `C07_get_field_inside` `C07_get_inside` `C07_get_last_byte_refuted` `C07_num_fields_exact` | proved. False at index = field count (refuted, off by one); proved below the count, and for lookup by slot. |
| C08 | Vector element access is exact | `Reader.v` (`vector_get`) | Exact value at cell `loc+4+i*size`; one theorem per element kind; past-the-end behaviour per build. | `C08_length_exact` `C08_scalar_element_exact` `C08_bool_element_exact` `C08_string_element_exact` `C08_table_element_exact` `C08_past_end_debug` `C08_past_end_release_refuted` | proved. Exact below the length; past the end: debug panics, release returns other bytes (refuted). |
| C09 | Vector iteration is the sequence of elements from both ends | `Reader.v` (iterators), `Client.v` | Simulation of the byte-position iterator by a deque of indices, for every list of calls. | `C09_iteration_is_a_deque` `C09_unreadable_vector_is_empty` | proved. Refinement to a deque for every call sequence; in debug the nth arguments must not overflow (see C10). |
| C10 | Skipping far ahead in an iterator is safe | `Reader.v` (`iter_nth`) | Arithmetic on the position; overflow in debug characterised and refuted. | `C10_nth_far_release` `C10_nth_far_debug` `C10_nth_far_debug_refuted` `C10_nth_back_far` | proved. Release: all n. Debug: refuted, panics exactly when size*n overflows. |
| C11 | Written data is never disturbed | `Builder.v`, `Ops.v` | Every operation prepends: invariant over histories by refinement to a prepend-only machine. Witness beyond 4 GiB is built symbolically, not computed. | `C11_data_kept` `C11_beyond_4gib_refuted` | proved. Every history below 4 GiB. Beyond 4 GiB a release build overwrites earlier bytes (refuted). |
| C12 | Output does not depend on the initial capacity | `Builder.v`, `Ops.v` | Simulation relation that forgets the unused part of the buffer. | `C12_capacity_irrelevant` `C12_capacity_completes` | proved. Results and bytes; also completion, up to 2 GiB. |
| C13 | Padding is zero and old contents never leak | `Builder.v`, `Ops.v` | Invariant over histories with resets. | `C13_unused_zero` | proved. Every history, resets included. |
| C14 | Every scalar is aligned in the finished buffer | `Builder.v`, `Ops.v` | Invariant: positions from the end are multiples of the alignment and `min_align` is a multiple of each; `finish` aligns the total. | `C14_objects_aligned` `C14_fields_aligned` | proved. Scalars, offsets, elements (and where they start, if there are none), lengths, table fields; total length in C14_objects_aligned. |
| C15 | Padding is minimal | `Builder.v` (`padding_bytes`, `align`) | Least-number statement, for the function and for every writing call. | `C15_padding_least` `C15_padding_minimal` | proved. For the padding function and for every writing call. |
| C16 | A reset builder behaves like a new one | `Builder.v` (`reset`) | Bisimulation between a reset and a new builder; witness when a table is half built. | `C16_reset_like_new` `C16_reset_completes` `C16_reset_mid_table_refuted` | proved. When no table is half built at the reset; otherwise false (refuted: recorded fields survive the reset). |
| C17 | The builder stops at two gigabytes | `Builder.v` (`ensure_capacity`, `grow_owned_buf`) | Exact panic conditions; symbolic witness for the total size. | `C17_capacity_limit` `C17_request_limit` `C17_total_size_refuted` | proved. The claim as stated is false (refuted): only the initial capacity and each single request are limited. Both limits are proved. |
| C18 | Identical table layouts share one vtable | `Builder.v` (`write_vtable`), `vtable_writer.rs` | Invariant on the recorded vtables. Sharing is stated about two completed tables of one history. | `C18_tables_share` `C18_vtables_counted` `C18_vtables_distinct` | proved. Sharing iff byte-identical, count, pairwise different. |
| C19 | Table fields round-trip | `Builder.v`, `Reader.v` | Frame lemma (later building keeps absolute-from-end positions) plus layout of `write_vtable`. | `C19_fields_round_trip` | proved. Distinct slots; buffer below 2 GiB; in release the 64 KiB inline limit is a hypothesis (see C31). |
| C20 | Omitted defaults read back as the default | `Builder.v` (`push_slot`) | From C19 with the default test; equality is the `PartialEq` of the scalar type. | `C20_default_round_trip` | proved. Equality is the == of the scalar type. |
| C21 | Strings round-trip | `Builder.v` (`create_string`, `create_byte_string`), `Reader.v` | Layout + frame lemma. | `C21_string_round_trip` `C21_byte_string_round_trip` | proved. Strings and byte strings, after any further building. |
| C22 | Vectors round-trip | `Builder.v` (`create_vector`, `create_vector_direct`), `Reader.v` | Layout by induction on the items + frame lemma. | `C22_vector_round_trip` `C22_offset_vector_round_trip` `C22_vector_direct_round_trip` | proved. Scalar, enum and offset vectors, both creation calls. |
| C23 | The fast vector path equals the general one | `Builder.v` | Equality of the two buffers by induction on the items. | `C23_direct_general` | proved. All states, hosts where the call exists. |
| C24 | Vectors of strings round-trip | `Builder.v` (`create_vector_of_strings_offset`) | Induction on the strings, frame lemma. | `C24_strings_vector_round_trip` | proved. |
| C25 | Element-by-element vectors round-trip | `Builder.v` (`start_vector`, `push`, `end_vector`) | Equality of outcomes, panics included. | `C25_by_elements` | proved. Equal outcomes including panics. |
| C26 | Finishing places root, identifier and size | `Builder.v` (`finish*`), `Reader.v` (`root`, `size_prefixed_root`, `buffer_has_identifier`) | Layout of the header; exact condition for the identifier. | `C26_finish_root` `C26_finish_identifier` `C26_identifier_misplaced_refuted` `C26_finish_empty_refuted` | proved. Root and size prefix always; identifier when something 4-aligned was written, misplaced otherwise (refuted); finishing an empty builder panics (refuted). |
| C27 | Required-field check is exact | `Builder.v` (`required`) | Equivalence with the field having been pushed in the table. | `C27_required_exact` | proved. Exact. |
| C28 | Misuse is caught in debug builds | `Builder.v`, `Ops.v` | Protocol automaton in `SpecBuilder.v`, independent of the builder state; two accepted misuses exhibited. | `C28_misuse_panics` `C28_completes_bracketed` `C28_misuse_unseen_refuted` | proved. Against a protocol automaton; two misuses are not noticed (refuted). |
| C29 | Debug and release builds agree | `Builder.v`, `Ops.v` | Simulation debug/release and between byte orders. | `C29_release_agrees` `C29_endianness_irrelevant` | proved. Also independent of host byte order. |
| C30 | Offsets lead to their target | `Builder.v` (`push` of an offset), `Reader.v` | Layout + frame lemma. | `C30_offset_reaches` | proved. |
| C31 | Oversized tables are not silently corrupted | `Builder.v` (`write_vtable`) | Debug: panic proved. Release: exact truncated contents; two witnesses. | `C31_debug_refuses_oversized` `C31_truncated_fields` `C31_release_wide_table_refuted` `C31_release_last_slot_refuted` | proved. Debug builds refuse. Release builds do not (refuted twice); exact release behaviour proved. |
| C32 | Slot numbering is a bijection | `Reader.v` (`field_index_to_field_offset`, inverse) | Arithmetic. | `C32_slots_bijective` `C32_slots_overflow_refuted` | proved. Up to index 32765; beyond, debug panics and release wraps (refuted). |
| C33 | Generated tables round-trip | `Codegen.v`, `Builder.v`, `Reader.v` | Documents are finite trees (`SpecGen.v`); written children first by the generated `create`, read by the generated accessors. Induction on the tree. | `C33_documents_round_trip` `C33_documents_determined` | proved. Documents of any depth, and what is read determines the document. Structs are not supported by the generator (it panics). |
| C34 | Generated create never panics on required fields that are given | `Codegen.v` (`gen_create`) | Exact condition for a single call and for whole documents. | `C34_create_exact` `C34_documents_written` `C34_documents_refused` `C34_required_given_refuted` | proved. As stated it is false (refuted): a required scalar equal to its default panics. Exact condition proved, for single tables and documents. |
| C35 | Old readers read new data and new readers read old data | `Codegen.v` | `gen_table` of a prefix is a prefix of `gen_table`; then C06/C19. | `C35_generators_agree` `C35_old_reads_new` `C35_new_reads_old` | proved. Both directions. |
| C36 | Enums round-trip and reject unknown values | `Codegen.v`, `Reader.v` | For every byte string; reading gives the unique variant with the stored number or `UnknownEnumVariant`. | `C36_enum_round_trip` `C36_enum_read` `C36_enum_read_fails` | proved. For every byte string and host. |
| C37 | Enum variants have the documented distinct values | `Codegen.v` (`enum_values`) | Exact values; distinctness follows from rustc accepting the enum; the documented rule is an equivalence condition. | `C37_documented_refuted` `C37_values_exact` `C37_distinct` `C37_documented_iff` | proved. As stated it is false (refuted): implicit values are indices. Exact values, distinctness and the exact condition for the documented ones proved. |
| C38 | Union accessors return the variant that was stored | `Codegen.v` (`gen_get` on unions) | Case analysis for every byte string. | `C38_union_accessor` `C38_enum_variant_refuted` | proved. For every byte string. An enum among the variants is not read as it was stored (refuted). |
| C39 | Schema resolution terminates | `Resolve.v` (`build`) | Measure on the number of deferred declarations; the fuel is proved sufficient. | `C39_terminates` `C39_resolved_or_error` `C39_unsupported` `C39_any_schema_refuted` | proved. Termination for every schema; resolved or rejected for every schema of supported declarations. As stated it is false (refuted): file_extension, file_identifier, attribute and object declarations panic. |
| C40 | Resolution does not depend on declaration order | `Resolve.v` | Resolution of a single-namespace schema is characterised without the algorithm (`SpecResolve.v`), then permutation invariance. | `C40_resolves_iff` `C40_same_definitions` `C40_any_order` `C40_refuted` | proved. As stated it is false (refuted): a union and a table that need each other resolve in one order only. Exactly which orders resolve is proved, and that the definitions are then the same. |
| C41 | Declarations stay in their namespace | `Resolve.v` | Loop invariant on where nodes are recorded; induction on the first pass shows which declarations succeed in it. | `C41_written_or_last` `C41_exact` `C41_one_namespace` `C41_declared_before_use` `C41_refuted` | proved. As stated it is false (refuted): a deferred declaration moves to the last namespace of the file. Proved exactly which do: a declaration stays if and only if, from where it is written, it refers only to earlier ones that stay and to tables declared so far; the others are defined in the last namespace. |
| C42 | Resolution loses and invents nothing | `Resolve.v` (`build`, `arrange`) | Multiset equality of declared and produced nodes, through the namespace tree. | `C42_complete` `C42_count` | proved. Every schema. |
| C43 | No duplicate definitions | `Resolve.v` | Invariant of the type table; witness for deferred declarations. | `C43_defined_once` `C43_one_namespace` `C43_declared_before_use` `C43_given` `C43_refuted` | proved. No resolved schema defines a name twice. As stated it is false (refuted), because a deferred declaration moves to another namespace; proved for the names declarations give where they end up (C41), and so if there is one namespace, or if types are declared before use. |
| C44 | No dangling references | `Resolve.v` | Invariant: every mention was in the table when made. | `C44_mentioned` `C44_exact` `C44_one_namespace` `C44_declared_before_use` `C44_companion` `C44_refuted` `C44_kind_refuted` | proved. As stated it is false (refuted): a table that moved leaves references behind, also to names that something else is defined with. Proved that nothing but such tables dangles, and exactly which names are defined; nothing dangles if there is one namespace, or if types are declared before use. |
| C45 | Relative paths lead to the type | `Ident.v` (`relative`) | Walking the path (`SpecIdent.walk`) arrives; induction on common prefix. | `C45_leads_to_the_name` `C45_shape` `C45_enclosing` `C45_no_super` `C45_emitted_iff` `C45_refuted` | proved. The relative path is right for all names. As stated it is false (refuted): modules are emitted in snake case and paths are not. Exact condition proved. |
| C46 | Identifiers never clash with Rust keywords | `Ident.v` (`fix_identifier`) | Exact set of keywords left and of clashing pairs, for all identifiers. | `C46_keyword_iff` `C46_keyword_refuted` `C46_collisions` `C46_distinct` `C46_distinct_refuted` `C46_accessor_refuted` | proved. As stated it is false (refuted): try is not substituted, type and ty clash. Exactly which identifiers stay keywords or clash is proved. |
| C47 | The parser consumes a prefix | `Parser.v` | Every rule splits its input; loops are characterised by fuel-free relations; the recursive rules satisfy their grammar equations. | `C47_rules_split` `C47_schema_runs` `C47_many0_exact` `C47_list_exact` `C47_nonempty_list_exact` `C47_value_equation` `C47_type_equation` | proved. Every rule, every text; loops and recursion shown independent of the model fuel. Stack exhaustion on deep nesting is not modelled. |
| C48 | Printed schemas parse back | `Parser.v`, `SpecGrammar.v`, `SpecPrint.v` | Soundness and completeness of the parser for an independent grammar relation, whose judgements carry the rest of the file since constants are read depending on it; a printer whose output is in the grammar. | `C48_reads_language` `C48_reads_only_language` `C48_exact` `C48_clear_in_language` `C48_printed_in_language` `C48_printed_parses` `C48_unambiguous` `C48_documented_syntax_refuted` | proved. The texts read are exactly those of an independently stated grammar where no special word is in the way of a value (C48_exact, an equivalence); printed schemas read back; unambiguous. As stated it is false (refuted): parts of the documented syntax are not read. |
| C49 | User type names may start like built-in ones | `Parser.v` (`type_`) | Equivalence. | `C49_type_name_iff` `C49_field_rejected` `C49_user_type_refuted` | proved. As stated it is false (refuted): interval. Proved: read as itself exactly if it does not start with a built-in name; otherwise the field is rejected. |
| C50 | Comments and spaces do not change the meaning | `Parser.v`, `SpecGrammar.v` | Two texts that differ in blanks have the same derivations up to the condition on the rest of the file; monotonicity of the grammar in that condition. | `C50_blanks_do_not_matter` `C50_exact` `C50_around_declarations` `C50_blank_read` `C50_comment_refuted` | proved. As stated it is false (refuted): a comment with the word inf. Proved exactly: of two texts of one schema of which one is read, the other is read if and only if none of the words nan, inf, infinity is in the way of a value. |
| C51 | Integer constants denote their value | `Parser.v` (integer rules) | Equivalence with positional value. | `C51_decimal` `C51_hexadecimal` `C51_integer` `C51_integer_only` `C51_scalar` `C51_every_digit_string_refuted` | proved. As stated it is false (refuted) outside i128; proved exact inside, rejected outside. |
| C52 | Compilation reports errors instead of panicking | `Compile.v`, `Parser.v`, `Resolve.v` | Exact condition for error and for panic. | `C52_syntax_error` `C52_generated` `C52_no_syntax_error` `C52_exact` `C52_error_refuted` | proved. As stated it is false (refuted): the error message panics. Proved exactly when a text reaches the generator, when it is an error and when a panic. |
| C53 | Generated names are valid Rust names | `Heck.v`, `Ident.v` | Invariant of heck's word-splitting loop: its output joined by underscores; then case analysis on keyword substitution. | `C53_snake_shape` `C53_snake_fixed` `C53_words` `C53_accessor_valid_iff` `C53_module_valid_iff` `C53_substitution_undone` `C53_refuted` | proved. As stated it is false (refuted): match, _ and _1. Snake case is exactly the words of the name (`SpecWords.v`: where a word starts is said by its neighbours) in small letters. Exactly which names give a valid accessor or module name is proved, for ASCII names. |
| C54 | Different fields have different accessors | `Heck.v`, `Ident.v` | Letters of the output are those of the input; names in snake case are fixed points; the loop is related to a description of words by what stands around a character (`SpecWords.v`). | `C54_clash` `C54_exact` `C54_distinct` `C54_refuted` | proved. As stated it is false (refuted): fooBar and foo_bar. Proved: two fields clash exactly if they have the same words up to case, type counting as ty; so snake-case names do not clash except type and ty. |
| C55 | Generated accessors are safe and well-typed on untrusted bytes | `Codegen.v` (`gen_get`), `Client.v`, `SpecAccess.v` | Safety predicate through every call, as in C03; type soundness by induction on the schema type. | `C55_never_panics` `C55_typed` `C55_required` | proved. Never panicking: release builds (debug builds: see C04). Types: every build. Tables of any number of fields. |
| C56 | The buffer grows by doubling and only when needed | `Builder.v`, `Ops.v` | Growth invariant through every call, composed over programs. | `C56_buffer_bounded` `C56_buffer_bounded_no_reset` `C56_buffer_doubles` | proved. Every call sequence; with resets the bound is on the largest content so far. |
| C57 | Code generation completes | `Emit.v`, `SpecEmit.v`, `SpecWrite.v` | Every identifier, path and literal the generator prints is accepted, by induction on the tree of modules; source-level conditions transported through resolution (C42). Exactly: each piece of a definition is printed if and only if its condition holds (`EmitProofs12.v`), for all nodes and namespaces (`EmitProofs13.v`). | `C57_completes` `C57_struct_panics` `C57_field_panics` `C57_default_panics` `C57_refuted` `C57_exact` | proved. As stated it is false (refuted). Proved: it completes on every schema without structs whose names have a letter in front, whose defaults go with their types, and in which no type has the name of a namespace; three causes of a panic; and exactly which resolved schemas it completes on, for ASCII names. |
| C58 | Generated items do not clash | `Emit.v`, `SpecEmit.v` | Names in a module computed from the definitions at that level of the tree, for all levels by induction; both directions. | `C58_no_clash_iff` `C58_refuted` | proved. As stated it is false (refuted). Proved: there is no clash exactly if four conditions on the schema hold. |
| C59 | Paths in the generated code lead to generated items | `Emit.v`, `SpecEmit.v`, `SpecPaths.v` | Every path printed is the relative path of a needed type (C45); the needed type is defined (C44) and its modules are emitted. Exactly: the walk along a relative path is computed in the emitted tree and compared with the resolved one (`EmitProofs10.v`, `EmitProofs11.v`). | `C59_one_namespace` `C59_declared_before_use` `C59_exact` `C59_exact_defined` `C59_refuted` | proved. As stated it is false (refuted). Proved for one namespace, for several under three conditions, and exactly when all paths lead to their items. |
| C60 | Schemas can grow | `Resolve.v`, `Codegen.v`, `SpecEvolve.v` | The declarations of both versions are related one by one; kinds by induction on the size of the old one; accessors case by case on the field's type. | `C60_definitions_grow` `C60_accessors` `C60_elements` `C60_added_fields` `C60_any_schema_refuted` | proved. As stated it is false (refuted): a new reference can move a table to another namespace (C41). Proved for schemas in which declarations stay where they are written. |
| C61 | Generated tables compile | `Codegen.v` (`gen_table`), `SpecTable.v` | Each test in the generator against its condition, both ways, by case analysis on the type of the field; the companion enum of a union is known from C44. | `C61_compiles_iff` `C61_type_fields` `C61_refuted` | proved. As stated it is false (refuted, 30 schemas). Proved: exactly which tables of a resolved schema compile, as far as the rules of rustc in Codegen.v go; names that are no Rust names are C53 and C57, clashes between items C58, names hidden by others C62. |
| C62 | Names in the generated code mean what they should | `Names.v`, `Emit.v`, `SpecNames.v` | The names each definition relies on are listed place by place; those that Rust provides are compared with the emitted names of the module (C58), those meant for schema types with the type parameter `B`, both ways; the latter are the definition's own or among the paths of C59 (`NameProofs3.v`). | `C62_hidden_iff` `C62_items` `C62_free_names` `C62_refuted` | proved. As stated it is false (refuted, 11 schemas): a type B, Result, u8 or a namespace std is enough. Proved: exactly which schemas hide nothing, that no name is hidden if no type or namespace has one of twenty names, and that every name meant as a type of the generated code is that of a type beside it or a path of C59. |
| C63 | A compiler run leaves the complete code or changes nothing | `Files.v` | The run is followed case by case over any file system in which several paths may lead to one file; the meaning of success is taken from C52. | `C63_others` `C63_main_others` `C63_success` `C63_exact` `C63_main_exact` `C63_failure` `C63_own_output` `C63_main_own_output` `C63_output_name` `C63_output_exact` `C63_output_place` `C63_lost_refuted` `C63_rustfmt_refuted` | proved. As stated it is false (refuted): the output is truncated before the schema is read, the exit status of rustfmt is ignored, and the directory of the schema plays no part in the name of the output. Proved: what a run can change, what success means, what is left after a failure, and the name of the output. |
| C64 | Documents in the words of a schema survive | `SpecDoc.v` over `Resolve.v`, `Codegen.v`, `Builder.v`, `Reader.v` | Induction on the document: the resolver's facts about names (C43, C44) find the fields and the type fields of unions, C61 gives the generated code, C33's typing of arguments is derived rather than assumed, and C33's round trip is read back in the document's own words; finishing as in C26. | `C64_saved` `C64_between` `C64_exact` `C64_refused` `C64_from_text` | proved. For schemas all of whose tables get code that compiles (C61) and have at most 8190 fields (below 64 KiB whatever their types), and documents of less than 2^31 - 150000 bytes. Exact: the documents of the right Rust types are saved and read back if no required field is given its default or left out for it; all others make the generated code panic. Numbers read back equal in the sense of ==: 0.0 and -0.0 are not told apart when one is the default (C20). |
| C65 | Documents survive the growth of their schema | `SpecGrow.v` over `SpecDoc.v`, `SpecEvolve.v` | C64 gives the bytes and what the writer's own accessors return; induction on the document carries that over to the accessors of the other version with C60 (`reads_alike`), C41/C42 (types of old fields are still defined) and the uniqueness of names and numbers (C36, C43, C61). | `C65_new_reads_old` `C65_old_reads_new` | proved. For pairs of schemas as in C60 (declarations stay where they are written) with documents and tables as in C64. Added fields that are required and without default are reported missing by new code on old documents; a vector is read whole, its elements with an unknown variant are refused one by one. |
| C66 | Reading is exact for every type | `Reader.v`; `SpecFollow.v` states what stands where with `nth_error` and division only | Induction on the type: following either returns a value that stands there or an error that is due; the two relations determine their results and exclude each other, so both directions hold (`ReaderProofs7.v`). Debug builds agree or panic, and panic exactly when a position on the way overflows (`ReaderProofs8.v`). | `C66_follow_exact` `C66_follow_debug` `C66_follow_debug_exact` `C66_field_exact` `C66_field_debug` `C66_field_debug_exact` `C66_element_exact` `C66_element_debug_exact` `C66_vtable_length_exact` `C66_object_length_exact` `C66_vtable_get_exact` `C66_vtable_get_field_exact` `C66_vtable_bytes_exact` `C66_identifier_exact` | proved. Buffers of less than 2^63 bytes. Exact for release builds and, with the positions that overflow, for debug builds. In a release build Vector::get past the end returns what stands in the cell, and VTable::get_field one past the last field reads the two bytes after the vtable (findings). |
| C67 | The builder panics exactly when misused | `Builder.v`, `Ops.v`; `SpecUse.v` keeps what a caller knows from its own calls and lists per call what must not be done | Each operation of the abstract builder decides: it panics and the rule is broken, or returns and it is not (`UseProofs.v`, `UseProofs2.v`); the refinement to the concrete builder carries this over within 2 GiB, and induction over the calls (`UseProofs3.v`, `UseProofs4.v`). | `C67_panics_exactly` `C67_completes_exactly` `C67_release` `C67_call` `C67_bytes` | proved. Buffers within 2 GiB, where the builder stops growing (C56). The rules as the code has them: the fields pending at a reset stay pending, offsets up to seven bytes beyond the end pass, a slot set twice passes when its first entry is 0 modulo 2^16 (findings). |
| C68 | Unsafe code stays inside its memory | `Raw.v`, `RawBuilder.v`: the functions of `Reader.v`, `Client.v`, `Builder.v` and `Ops.v` again, on slices of allocations, returning also the list of their accesses through raw pointers; `RawGen.v`: the generated accessors likewise | Each traced function is related to the plain one: same outcome, and accesses inside the slice (`RawProofs1.v`-`RawProofs4.v`); for `create_vector_of_strings` every element is written before the vector is read. Generated accessors: `RawProofs8.v`. | `C68_reader_same` `C68_reader_in_bounds` `C68_builder_same` `C68_builder_in_bounds` `C68_generated_same` `C68_generated_in_bounds` | proved. Slices of allocations of less than 2^63 bytes, reader calls with locations that fit usize, builder calls with arguments of their Rust types. The functions are written out a second time with the slices and pointers they really use, and proved to return the same as the model; the generated accessors too. |
| C69 | Unsafe code makes aligned accesses to valid values | `Raw.v`, `RawBuilder.v`; `SpecRaw.v` says aligned, for an allocation at any multiple of 8, and which bytes are a `bool`; `SpecSeat.v`: a document is read with aligned accesses, all the way down | Witnesses for the refutations. Builder: by induction over the calls the distance of every typed access from the end of the buffer is a multiple of its alignment, and so is the length of the buffer once it is large enough to hold it (`RawProofs5.v`); conversely one push misaligns every other capacity. Bools: by cases over the reader (`RawProofs6.v`). Documents: in the induction of C33 each part also knows that it lies at a multiple of its alignment once the buffer is finished (C14, and vtables at even places), so that following it is aligned (`RawProofs8.v`-`RawProofs10.v`, `GenProofs4.v`). | `C69_reader_refuted` `C69_builder_exact` `C69_builder_new` `C69_odd_slot_refuted` `C69_required_refuted` `C69_bool_refuted` `C69_bools_valid` `C69_documents_aligned` `C69_unfinished_refuted` | proved. As stated it is false (refuted): the reader makes misaligned accesses on bytes no address can align, and shows any byte as a bool in a &[bool]; the builder makes them when created with a capacity other than 0, 1, 2, 4 or a multiple of 8, for odd slots, and in required for a place that is no table. Proved: with one of those capacities and without the other two every access of the builder is aligned, and these capacities are exact; without &[bool] every byte taken for a bool is 0 or 1. Whole documents, written with generated code between any calls and finished, are read with aligned accesses only, by every host and all the way down (buffers below 2 GiB); before they are finished this is refuted. |
| C70 | The root tables are those that the schema names | `Resolve.v` as for C39-C44; `SpecResolve.v`: [makes_root], [tries_root] | By induction over the calls of a service exactly what a failed attempt marks; by induction over the passes which attempt marks what; those of the first pass are described by [stays] (C41) (`ResolveProofs11.v`). Witness for the refutation. | `C70_exact` `C70_one_namespace` `C70_declared_before_use` `C70_refuted` | proved. As stated it is false (refuted): a root_type written before its table names, when tried again, a table of the last namespace. Proved exactly which tables are roots: those named from where the declaration ends up (C41), and those that a deferred service names, where it is written, before the first that is not defined yet. So it holds if there is one namespace, or if types are declared before use. |
| C71 | Attributes, given numbers and includes have their documented effect | `Resolve.v`, `Compile.v`; `SpecResolve.v`: [bare], a declaration without what has no effect | Every function of the resolver gives the same for a declaration and its bare form, by induction over fields, variants, methods and passes (`ResolveProofs12.v`); texts by the exact grammar of C48-C52. Witnesses for the refutations. | `C71_no_effect` `C71_texts` `C71_union_numbers` `C71_refuted` `C71_include_refuted` | proved. As stated it is false (refuted). Proved exactly: attributes other than required on fields and streaming on methods, numbers given to variants of unions, and includes have no effect at all; variants of unions are numbered by position. |
| C72 | Exactly the well-formed schemas are accepted | `Resolve.v` as for C39-C44; `SpecFormed.v`: [well_formed], from the declarations alone; `Compile.v` for texts | Accepted schemas are well-formed by C41-C44 and the order in which a run defines things (`ResolveProofs8.v`). Conversely the definitions of a well-formed schema are built level by level along the references, are one per name by strong induction over levels, and make every attempt of every pass succeed or wait, never fail; as long as something is missing a pass defines more (`ResolveProofs7.v`, `ResolveProofs13.v`). Texts by the exact grammar of C48-C52 (`AcceptProofs.v`). Witnesses for the refutation. | `C72_texts` `C72_texts_rejected` `C72_accepts_iff` `C72_one_namespace` `C72_declared_before_use` `C72_rejects` `C72_refuted` | proved. As stated it is false (refuted): fields, methods and services of the same name are accepted, and one more condition is needed, that some declaration can be the first to be defined. Proved: among the schemas whose declarations stay in their namespaces (as with one namespace, or declared before use) exactly the well-formed ones with such a declaration are accepted, and the other supported ones rejected with an error. Schemas with declarations that move (C41) are not covered. |
| C73 | A document has one file and a file one document | `Codegen.v`, `Builder.v`, `SpecDoc.v` as for C64; `SpecSame.v`: [same], when two documents say the same | Bytes: the builder refines an abstract one without capacity (C12), so two runs of the generated code on builders of the same contents stay alike, by induction over the document; a release build does what a debug build does unless that panics, whatever the byte order (C29), likewise. Reading: by induction over documents, what the accessors return determines the document up to [same], and [same] keeps what they return (`DocProofs6.v`, `DocProofs7.v`); same bits: the arguments passed to the generated code are equal (`DocProofs8.v`); without -0.0 both meet (`DocProofs9.v`). Witness for the refutation. | `C73_one_file` `C73_no_two_files` `C73_exact` `C73_one_document` `C73_same_file` `C73_same_exactly` `C73_same_bytes_refuted` | proved. The last clause is false as stated (refuted): 0.0 and -0.0 are equal but have different bytes. Proved: the file of a document is the same for all builds, hosts and capacities, and the documents it reads as are exactly those that say the same; documents that say the same with numbers of the same bits have the same file, and where no number is -0.0 two documents have the same file exactly if they say the same. Documents of up to about 2 GiB, tables of up to 8190 fields; that no document has two files also beyond 2 GiB. |

## Findings

Each is a theorem about the model (named), except those marked "by reading".

Runtime library (`butte`):

* Reading in debug builds can panic on untrusted bytes: offset additions overflow
  (`C04_reader_never_panics_debug_refuted`).
* `VTable::get_field` accepts index = field count and reads past the vtable
  (`C07_get_field_past_end_refuted`).
* `Vector::get` past the end is only a `debug_assert`: release builds return a
  neighbour's bytes as an element (`C08_past_end_release_refuted`).
* `nth(n)` multiplies before comparing: overflow panic in debug
  (`C10_nth_far_debug_refuted`).
* Beyond 4 GiB a release build truncates positions and overwrites earlier data
  (`C11_beyond_4gib_refuted`); the 2 GiB limit is only checked per request
  (`C17_total_size_refuted`).
* `reset` does not clear the fields of a half-built table
  (`C16_reset_mid_table_refuted`).
* `finish` on an empty builder panics (`min_align` is 0)
  (`C26_finish_empty_refuted`); the identifier is misplaced if nothing with
  alignment 4 was written (`C26_identifier_misplaced_refuted`).
* `end_vector` closes a table and `create_vector` inside a table go unnoticed
  (`C28_misuse_unseen_refuted`).
* Tables over 64 KiB and slot 65534 are silently truncated in release
  (`C31_release_wide_table_refuted`, `C31_release_last_slot_refuted`); slot
  numbers wrap from index 32766 (`C32_slots_overflow_refuted`).
* Two tables with the same fields may not share a vtable because padding differs:
  sharing is exactly byte equality of vtables (`C18_tables_share`).
* Adding one slot twice is only a debug assertion, and passes when the first entry is
  0 modulo 2^16; offsets up to seven bytes beyond the written data pass; fields pending
  at a reset make a later `end_table` panic (`C67_panics_exactly`, `C67_stale`).

Generated code:

* A required scalar that equals its default is not stored, so `create` panics
  (`C34_required_given_refuted`).
* Enum values without explicit value are the *index*, not previous plus one:
  `{A=5,B}` gives B=1 (`C37_documented_refuted`). `{A=1,B}` makes rustc reject the
  output (equal discriminants).
* -0.0 with default 0.0 reads back as 0.0 (equal under `==`, C20).
* Attributes other than `required` and `streaming`, so `id`, `deprecated`, `bit_flags`,
  numbers given to union variants, and includes are read and ignored (`C71_no_effect`,
  `C71_refuted`, `C71_include_refuted`).
* A union variant that is an enum is accepted, and its accessor takes the low bytes of the
  reference for the value (`C38_enum_variant_refuted`).
* `inf`/`nan` defaults, and finite ones too large for a `float` field, panic in
  `LitFloat::new` (`C57_exact`); the default of an enum field need not be a variant, which
  rustc rejects (`C61_compiles_iff`).
* The generator panics on structs, on numbers as defaults of enum, string, vector
  and table fields, and on field names without a letter (`C57_refuted`,
  `C57_default_panics`, `C57_field_panics`).  It also panics on namespaces without a
  letter in front, on a type used in a namespace of its own full name, on a
  reference to a type `_`, and, unless some required field is no scalar, on a name
  as the default of a scalar and a truth value as that of an enum; nothing else
  makes it panic (`C57_exact`, `C57_exact_case`).
* These are accepted and rustc rejects the output (`C58_refuted`): tables `Orc` and
  `OrcArgs`; namespaces `fooBar` and `foo_bar`; enums `HitPoints` and `hitPoints`; a
  table `orc` beside a namespace `orc`.
* A type of another namespace that is not in snake case cannot be referred to
  (`C59_refuted`).

Resolution:

* A declaration that must wait for another is resolved under the *last* namespace
  of the file, so it moves (`C41_refuted`), may be declared twice (`C43_refuted`)
  or be dangling (`C44_refuted`), or leave references as to a table where there is
  an enum (`C44_kind_refuted`).
* Mutually dependent union and table resolve in one order only (`C40_refuted`).
* file_extension, file_identifier, attribute and object declarations panic
  (`C39_any_schema_refuted`).
* A `root_type` written before its table makes a table of that name in the last
  namespace the root instead (`C70_refuted`); a deferred service makes roots in two
  namespaces (`C70_exact`, `C70_case`).
* Fields, methods and services of the same name are accepted (`C72_refuted`).

Names:

* `try` is not substituted (`C46_keyword_refuted`); `type`/`ty` and `as`/`as_`
  clash (`C46_distinct_refuted`).
* Accessor and module names are snake-cased after substitution, which undoes it for
  every name but `type`: a field `match` has the accessor `match`
  (`C46_accessor_refuted`, `C53_substitution_undone`). `_` and `_1` have no valid
  accessor name, and the generator panics on them (`C53_refuted`).
* `fooBar` and `foo_bar` in one table get the same accessor, and rustc rejects the
  output (`C54_refuted`).
* A field with the accessor `create` or `get_root` is a duplicate definition
  (`C61_refuted`).
* A field named `Some`, `None`, `Ok` or `Err` is a parameter name that Rust takes for
  the variant (`C61_refuted`).
* The emitted tables have a type parameter `B` and use short names (`Result`,
  `Option`, `From`, `Default`, `u8`, `butte`, `std`): a table `B`, a type `B` used by a
  table beside it, and types or namespaces with one of those names break the code
  around them (`C62_refuted`, exact condition `C62_hidden_iff`).
* Modules are emitted in snake case, paths to them are not (`C45_refuted`).

Tables that resolve and do not compile (`C61_refuted`, one schema each; the exact
condition is `C61_compiles_iff`):

* Enums or unions with a variant `Error` or `Inner` (ambiguous with the associated
  types of `TryFrom` and `Follow`), without variants, with two equal values (a value
  given to one variant does not shift the following ones), enums with a variant
  `default`, unions with a variant `None` or without a table among the variants.
* A union field named `type`: its accessor is `ty`, its type's accessor `type_type`,
  and the generated code looks for `ty_type`.
* Struct fields, vectors of unions, unions of unions.
* Defaults out of range or of another type, and on strings.

Parser:

* Documented syntax that is not read: `= inf`, `enum E : ubyte (bit_flags)`,
  `[ int ]` with blanks, a file of comments only (`C48_documented_syntax_refuted`).
* A user type that starts with a built-in name (`interval`) is rejected
  (`C49_user_type_refuted`).
* The word `inf` or `nan` anywhere later in the file, e.g. in a comment, changes
  how an earlier constant is read (`C50_comment_refuted`).
* The minimum of i128 is rejected in hexadecimal and constants out of i128 fail
  (`C51_every_digit_string_refuted`).
* A syntax error near the end of the file panics in the error message
  (`&rest[..30]`, `C52_error_refuted`).
* By reading: strings keep their escapes raw; a lone CR in a comment is an error;
  `parse_hexf64` is called without its `0x` prefix.

Running the compiler (`Files.v`):

* The output file is truncated before the schema is read: any error or panic destroys
  the code of the last run (`C63_lost_refuted`), and a schema given as its own output is
  lost with a successful run (`C63_own_output`, `C63_main_own_output`).
* The exit status of `rustfmt` is not looked at: when it fails, and it does on code
  that is no Rust, the run succeeds with an empty output (`C63_rustfmt_refuted`).
* `a/x.fbs` and `b/x.fbs` are written to the same `x.rs` (`C63_output_name`).
* By reading: `--ugly` is documented as the opposite of what it does.

Unsafe code (`Raw.v`, `RawBuilder.v`):

* Nothing asks that a buffer is aligned, or that what stands in it is: safe calls on
  suitable bytes dereference misaligned pointers, which is undefined behaviour, wherever
  the bytes are (`C69_reader_refuted`). The slices of `follow_slice_helper` and
  `Vector::safe_slice` are misaligned in the same way.
* `&[bool]` can be followed and shows every byte as a `bool` (`C69_bool_refuted`).
  Single booleans are read as `u8` and compared with 0.
* `FlatBufferBuilder::new_with_capacity(3)`, and every capacity but 0, 1, 2, 4 and the
  multiples of 8, make the first pushes write to misaligned places, because alignment is
  counted from the end of the buffer (`C69_builder_exact`). Odd slots do so for vtables
  (`C69_odd_slot_refuted`), and `required` reads wherever it is told
  (`C69_required_refuted`).
