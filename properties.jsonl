{"id": "C01", "title": "Scalars survive a write and a read", "statement": "Writing any scalar value into a buffer and reading it back at the same place gives the same value, and the bytes written are the value's little-endian encoding whatever the endianness of the host.", "quantifier": "every scalar type, every value of that type, every destination buffer, both host byte orders", "why_tests_cant": "2^64 values per type and a big-endian host are out of reach of a test run", "anchors": ["butte/src/endian_scalar.rs:emplace_scalar", "butte/src/endian_scalar.rs:read_scalar", "butte/src/endian_scalar.rs:read_scalar_at", "butte/src/primitives.rs:impl_follow_for_endian_scalar"]}
{"id": "C02", "title": "Scalar access stays in bounds", "statement": "Reading a scalar at any location of any byte slice returns the value when all its bytes are inside the slice and an OutOfBounds error otherwise; writing a scalar changes exactly the bytes of that scalar and nothing else.", "quantifier": "every buffer, every location up to usize::MAX, every scalar type", "why_tests_cant": "the space of buffers and locations is unbounded", "anchors": ["butte/src/endian_scalar.rs:read_scalar_at", "butte/src/endian_scalar.rs:read_scalar", "butte/src/endian_scalar.rs:emplace_scalar"]}
{"id": "C03", "title": "Reading untrusted bytes never panics (release build)", "statement": "Any chain of reader calls (root, size-prefixed root, field access of any type, vector access and iteration, vtable queries) started on any byte string returns a value or an Error; it never panics when the crate is built without overflow checks and debug assertions.", "quantifier": "every byte string, every chain of reader calls with any slots, indices and types", "why_tests_cant": "adversarial inputs cannot be enumerated", "anchors": ["butte/src/table.rs:Table", "butte/src/vector.rs:Vector", "butte/src/primitives.rs:Follow impls", "butte/src/vtable.rs:VTable"]}
{"id": "C04", "title": "Reading untrusted bytes never panics (debug build)", "statement": "The same claim for builds with overflow checks and debug assertions.", "quantifier": "every byte string, every chain of reader calls", "why_tests_cant": "adversarial inputs cannot be enumerated", "anchors": ["butte/src/primitives.rs:BackwardsSOffset", "butte/src/vtable.rs:VTable::num_fields", "butte/src/vector.rs:Vector::get"]}
{"id": "C05", "title": "String reads return exactly the bytes in the buffer or an error", "statement": "Following a string reference succeeds exactly when the declared length and its terminator lie inside the buffer, the terminator is zero and the bytes are UTF-8; it then returns exactly those bytes. Otherwise the error tells which condition failed.", "quantifier": "every byte string, every location", "why_tests_cant": "malformed inputs cannot be enumerated", "anchors": ["butte/src/vector.rs:impl Follow for &str", "butte/src/vector.rs:follow_slice_helper"]}
{"id": "C06", "title": "Field access follows the vtable", "statement": "Reading a table field returns the caller's default exactly when the vtable is too short to hold the slot or holds zero for it; otherwise it reads the value at table start plus the recorded offset, and an unreadable vtable gives an error.", "quantifier": "every byte string, every table location, every slot, every default and every field type", "why_tests_cant": "the combination of vtable lengths and slots is unbounded", "anchors": ["butte/src/table.rs:Table::get", "butte/src/vtable.rs:VTable::get"]}
{"id": "C07", "title": "Vtable queries stay inside the vtable", "statement": "The field count and the by-index field lookup of a vtable never consult bytes beyond the vtable's declared length.", "quantifier": "every byte string, every vtable location, every index", "why_tests_cant": "off-by-one at the boundary depends on adjacent bytes", "anchors": ["butte/src/vtable.rs:VTable::num_fields", "butte/src/vtable.rs:VTable::get_field"]}
{"id": "C08", "title": "Vector element access is exact", "statement": "For a vector of n elements, element i (i < n) is the value decoded at its own i-th cell, elements do not overlap, and an index past the end never yields another object's bytes as an element.", "quantifier": "every buffer, every vector location, every index, every element type", "why_tests_cant": "lengths and indices are unbounded", "anchors": ["butte/src/vector.rs:Vector::get", "butte/src/vector.rs:Vector::len"]}
{"id": "C09", "title": "Vector iteration is the sequence of elements from both ends", "statement": "Any interleaving of next, next_back, nth, nth_back, len and size_hint on a vector iterator behaves as the same calls on the double-ended sequence get(0)..get(len-1), and once exhausted it stays exhausted.", "quantifier": "every vector, every interleaving of iterator calls of any length", "why_tests_cant": "interleavings of calls are unbounded", "anchors": ["butte/src/vector.rs:VectorIter"]}
{"id": "C10", "title": "Skipping far ahead in an iterator is safe", "statement": "nth(n) for any usize n, however large, returns None when n is past the end, in every build.", "quantifier": "every vector, every n", "why_tests_cant": "the overflow needs n near usize::MAX and a debug build", "anchors": ["butte/src/vector.rs:VectorIter::nth"]}
{"id": "C11", "title": "Written data is never disturbed", "statement": "Every builder operation other than reset leaves all previously written bytes in place: the unfinished data before the call is a suffix of the unfinished data after it.", "quantifier": "every builder history, every operation and argument", "why_tests_cant": "histories are unbounded", "anchors": ["butte/src/builder.rs:FlatBufferBuilder", "butte/src/builder.rs:write_vtable", "butte/src/builder.rs:grow_owned_buf"]}
{"id": "C12", "title": "Output does not depend on the initial capacity", "statement": "Two builders created with different initial capacities and given the same calls return the same offsets and the same bytes.", "quantifier": "every pair of capacities, every call sequence", "why_tests_cant": "growth points depend on the pair (capacity, history)", "anchors": ["butte/src/builder.rs:new_with_capacity", "butte/src/builder.rs:ensure_capacity", "butte/src/builder.rs:grow_owned_buf"]}
{"id": "C13", "title": "Padding is zero and old contents never leak", "statement": "All bytes of the builder's buffer that are not yet used are zero at all times, also after reset and after a vtable has been discarded, so padding is always zero and two runs give identical bytes.", "quantifier": "every builder history including resets", "why_tests_cant": "leftovers depend on the whole history", "anchors": ["butte/src/builder.rs:reset", "butte/src/builder.rs:make_space", "butte/src/builder.rs:write_vtable", "butte/src/vtable_writer.rs:VTableWriter::clear"]}
{"id": "C14", "title": "Every scalar is aligned in the finished buffer", "statement": "In a finished buffer the position of every pushed scalar, offset, vector element and vector length is a multiple of its alignment, and the total length is a multiple of the largest alignment used.", "quantifier": "every builder history ending in finish, every pushed value", "why_tests_cant": "alignment depends on all earlier pushes", "anchors": ["butte/src/builder.rs:align", "butte/src/builder.rs:push", "butte/src/builder.rs:finish_with_opts", "butte/src/builder.rs:padding_bytes"]}
{"id": "C15", "title": "Padding is minimal", "statement": "The padding inserted before an object is the least number of bytes that aligns it.", "quantifier": "every used size, every power-of-two alignment", "why_tests_cant": "unbounded sizes", "anchors": ["butte/src/builder.rs:padding_bytes"]}
{"id": "C16", "title": "A reset builder behaves like a new one", "statement": "After reset, every further call sequence gives the same results and bytes as on a freshly created builder.", "quantifier": "every history before reset, every call sequence after", "why_tests_cant": "histories are unbounded and the bad ones involve abandoning a table half-way", "anchors": ["butte/src/builder.rs:reset"]}
{"id": "C17", "title": "The builder stops at two gigabytes", "statement": "The builder never lets the buffer exceed the documented 2 GiB limit.", "quantifier": "every history", "why_tests_cant": "needs gigabytes of memory to observe", "anchors": ["butte/src/builder.rs:ensure_capacity", "butte/src/builder.rs:new_with_capacity", "butte/src/primitives.rs:FLATBUFFERS_MAX_BUFFER_SIZE"]}
{"id": "C18", "title": "Identical table layouts share one vtable", "statement": "When a table is ended, its vtable is shared with an earlier table of the same buffer exactly when their vtables are byte-identical; the recorded vtables are pairwise different and the count grows by one only for a new layout.", "quantifier": "every history, every set of fields", "why_tests_cant": "the set of earlier vtables is unbounded", "anchors": ["butte/src/builder.rs:write_vtable", "butte/src/builder.rs:num_written_vtables", "butte/src/vtable.rs:PartialEq"]}
{"id": "C19", "title": "Table fields round-trip", "statement": "After start_table, any sequence of field additions to distinct slots and end_table, and after any further building, reading each added slot gives the value added and every other slot reads as absent.", "quantifier": "every history before and after, every list of fields with any types, values and slots", "why_tests_cant": "combinations of slots, sizes and paddings are unbounded", "anchors": ["butte/src/builder.rs:start_table", "butte/src/builder.rs:push_slot_always", "butte/src/builder.rs:end_table", "butte/src/table.rs:Table::get"]}
{"id": "C20", "title": "Omitted defaults read back as the default", "statement": "A field added with a default is stored only if it differs from the default, and reading it with that default gives back an equal value in both cases.", "quantifier": "every scalar value and default, floats included", "why_tests_cant": "value pairs cannot be enumerated; NaN and signed zero are special", "anchors": ["butte/src/builder.rs:push_slot", "butte/src/table.rs:Table::get"]}
{"id": "C21", "title": "Strings round-trip", "statement": "A string created by the builder reads back as the same string, its length and terminator are in place, and this stays so after any further building.", "quantifier": "every byte content and length, every history before and after", "why_tests_cant": "contents and histories are unbounded", "anchors": ["butte/src/builder.rs:create_string", "butte/src/builder.rs:create_byte_string", "butte/src/vector.rs:impl Follow for &str"]}
{"id": "C22", "title": "Vectors round-trip", "statement": "A vector created from a slice reads back with the same length and the same elements in the same order, after any further building.", "quantifier": "every element type, every list of values, every history before and after", "why_tests_cant": "lengths and contents are unbounded", "anchors": ["butte/src/builder.rs:create_vector", "butte/src/vector.rs:Vector"]}
{"id": "C23", "title": "The fast vector path equals the general one", "statement": "create_vector_direct writes the same bytes and returns the same offset as create_vector for the same items.", "quantifier": "every plain scalar type and every list of values, every builder state", "why_tests_cant": "lengths and builder states are unbounded", "anchors": ["butte/src/builder.rs:create_vector_direct", "butte/src/builder.rs:create_vector"]}
{"id": "C24", "title": "Vectors of strings round-trip", "statement": "create_vector_of_strings gives a vector whose i-th element is the i-th string.", "quantifier": "every list of strings, every history", "why_tests_cant": "lists are unbounded", "anchors": ["butte/src/builder.rs:create_vector_of_strings"]}
{"id": "C25", "title": "Element-by-element vectors round-trip", "statement": "start_vector(n), n pushes in reverse order and end_vector(n) produce the same bytes as create_vector of the items.", "quantifier": "every scalar type, every list, every builder state", "why_tests_cant": "lengths unbounded", "anchors": ["butte/src/builder.rs:start_vector", "butte/src/builder.rs:end_vector"]}
{"id": "C26", "title": "Finishing places root, identifier and size", "statement": "A finished buffer starts with (size prefix,) root offset (and identifier): the root offset leads to the given object, the identifier test accepts the given identifier, and the size prefix is the length of what follows.", "quantifier": "every history, every root, every identifier, with and without size prefix", "why_tests_cant": "depends on alignment state of the whole history", "anchors": ["butte/src/builder.rs:finish_with_opts", "butte/src/table.rs:get_root", "butte/src/table.rs:buffer_has_identifier", "butte/src/table.rs:get_size_prefixed_root"]}
{"id": "C27", "title": "Required-field check is exact", "statement": "required() panics exactly when the field was not written in the table.", "quantifier": "every table history, every slot", "why_tests_cant": "histories unbounded", "anchors": ["butte/src/builder.rs:required"]}
{"id": "C28", "title": "Misuse is caught in debug builds", "statement": "In a debug build, nesting objects, ending what was not started, finishing twice or reading unfinished data panics, for every call sequence; a sequence that completes is well bracketed.", "quantifier": "every call sequence", "why_tests_cant": "sequences are unbounded", "anchors": ["butte/src/builder.rs:assert_nested", "butte/src/builder.rs:assert_not_nested", "butte/src/builder.rs:assert_finished", "butte/src/builder.rs:assert_not_finished"]}
{"id": "C29", "title": "Debug and release builds agree", "statement": "A call sequence that completes without panic in a debug build gives the same offsets and bytes in a release build.", "quantifier": "every call sequence, every capacity", "why_tests_cant": "sequences unbounded, and two builds are needed", "anchors": ["butte/src/builder.rs:FlatBufferBuilder"]}
{"id": "C30", "title": "Offsets lead to their target", "statement": "An offset pushed anywhere into the buffer, when followed later, arrives exactly at the object it was created for.", "quantifier": "every history between creating the object, pushing the reference and reading", "why_tests_cant": "histories unbounded", "anchors": ["butte/src/primitives.rs:impl Push for WIPOffset", "butte/src/primitives.rs:ForwardsUOffset::follow"]}
{"id": "C31", "title": "Oversized tables are not silently corrupted", "statement": "A table whose inline data or vtable does not fit 16-bit offsets is refused rather than written wrongly, in every build.", "quantifier": "every table history", "why_tests_cant": "needs 64 KiB tables and a release build", "anchors": ["butte/src/builder.rs:write_vtable", "butte/src/vtable_writer.rs:VTableWriter"]}
{"id": "C32", "title": "Slot numbering is a bijection", "statement": "Field index to slot conversion is injective, avoids the vtable header and is inverted by the reverse conversion for every index a table can have.", "quantifier": "every 16-bit field index", "why_tests_cant": "boundary overflow near 32766", "anchors": ["butte/src/vtable.rs:field_index_to_field_offset", "butte/src/vtable.rs:field_offset_to_field_index"]}
{"id": "C33", "title": "Generated tables round-trip", "statement": "For every table schema and every argument record accepted by the generated create function, the generated accessors return the arguments: scalars, enums, strings, vectors, sub-tables, unions, defaults and absent options.", "quantifier": "every schema, every argument record, every history", "why_tests_cant": "schemas are unbounded", "anchors": ["butte-build/src/codegen.rs:impl ToTokens for Table", "butte/src/table.rs:Table::get"]}
{"id": "C34", "title": "Generated create never panics on required fields that are given", "statement": "Calling the generated create function with every required field supplied does not panic.", "quantifier": "every schema, every argument record", "why_tests_cant": "needs the value to coincide with the default", "anchors": ["butte-build/src/codegen.rs:impl ToTokens for Table", "butte/src/builder.rs:required", "butte/src/builder.rs:push_slot"]}
{"id": "C35", "title": "Old readers read new data and new readers read old data", "statement": "Appending fields to a table is compatible both ways: an accessor of the old schema reads the same values from data written with the new schema, and an accessor of the new schema returns the default for an appended field on old data.", "quantifier": "every schema, every list of appended fields, every value", "why_tests_cant": "schemas unbounded", "anchors": ["butte/src/table.rs:Table::get", "butte/src/vtable.rs:VTable::get", "butte-build/src/codegen.rs:impl ToTokens for Table"]}
{"id": "C36", "title": "Enums round-trip and reject unknown values", "statement": "Reading an enum returns the variant written; a stored number that is no variant gives UnknownEnumVariant, never another variant.", "quantifier": "every enum schema, every stored number", "why_tests_cant": "schemas and numbers unbounded", "anchors": ["butte-build/src/codegen.rs:impl ToTokens for Enum"]}
{"id": "C37", "title": "Enum variants have the documented distinct values", "statement": "Each variant has its explicit value, a variant without one has the previous value plus one, and values are distinct.", "quantifier": "every enum schema", "why_tests_cant": "schemas unbounded", "anchors": ["butte-build/src/codegen.rs:impl ToTokens for Enum"]}
{"id": "C38", "title": "Union accessors return the variant that was stored", "statement": "The union accessor returns the variant named by the type field with the stored table, absent if the type is None or missing, and an error for an unknown type.", "quantifier": "every union schema, every stored variant, every byte string", "why_tests_cant": "schemas unbounded", "anchors": ["butte-build/src/codegen.rs:impl ToTokens for Table", "butte-build/src/codegen.rs:impl ToTokens for Union", "butte-build/src/ir/transform.rs:generate_enum_for_union"]}
{"id": "C39", "title": "Schema resolution terminates", "statement": "Resolving any parsed schema terminates with a resolved schema or an error.", "quantifier": "every parsed schema", "why_tests_cant": "cyclic and forward references are unbounded", "anchors": ["butte-build/src/ir/transform.rs:Builder::build"]}
{"id": "C40", "title": "Resolution does not depend on declaration order", "statement": "If a schema resolves, then it resolves to the same definitions when its declarations are permuted within their namespace.", "quantifier": "every schema and permutation", "why_tests_cant": "permutations unbounded", "anchors": ["butte-build/src/ir/transform.rs:Builder::build", "butte-build/src/ir/transform.rs:new_union"]}
{"id": "C41", "title": "Declarations stay in their namespace", "statement": "Every declaration of a resolved schema is defined in the namespace in force where it was written.", "quantifier": "every schema with any namespaces", "why_tests_cant": "depends on which declarations get deferred", "anchors": ["butte-build/src/ir/transform.rs:Builder::build", "butte-build/src/ir/transform.rs:new_namespace"]}
{"id": "C42", "title": "Resolution loses and invents nothing", "statement": "A resolved schema contains every declared table, struct, enum, union and service exactly once, plus one companion enum per union, each under its namespace.", "quantifier": "every schema", "why_tests_cant": "schemas unbounded", "anchors": ["butte-build/src/ir/transform.rs:Builder::build", "butte-build/src/ir/transform.rs:generate_enum_for_union"]}
{"id": "C43", "title": "No duplicate definitions", "statement": "A schema that declares two types with the same qualified name is rejected, whatever their kinds and order.", "quantifier": "every schema", "why_tests_cant": "order and kinds unbounded", "anchors": ["butte-build/src/ir/transform.rs:new_table", "butte-build/src/ir/transform.rs:new_enum", "butte-build/src/ir/transform.rs:new_struct", "butte-build/src/ir/transform.rs:new_union"]}
{"id": "C44", "title": "No dangling references", "statement": "Every type mentioned in a resolved schema is defined in it, with the same kind.", "quantifier": "every schema", "why_tests_cant": "schemas unbounded", "anchors": ["butte-build/src/ir/transform.rs:try_type", "butte-build/src/ir/transform.rs:find_custom_type"]}
{"id": "C45", "title": "Relative paths lead to the type", "statement": "The module path printed for a type inside a module, followed from that module, arrives at the type's own definition.", "quantifier": "every type name and every namespace", "why_tests_cant": "paths unbounded", "anchors": ["butte-build/src/ir/types.rs:QualifiedIdent::relative", "butte-build/src/codegen.rs:CodeGenerator::node_to_tokens"]}
{"id": "C46", "title": "Identifiers never clash with Rust keywords", "statement": "After keyword substitution no identifier is a Rust keyword, and two different schema identifiers stay different.", "quantifier": "every identifier", "why_tests_cant": "identifiers unbounded", "anchors": ["butte-build/src/ir/keywords.rs:substitute_keyword", "butte-build/src/ir/types.rs:fix_identifier"]}
{"id": "C47", "title": "The parser consumes a prefix", "statement": "Every parser of the grammar either fails or splits its input into what it consumed and the rest; it never loops and never panics.", "quantifier": "every input text", "why_tests_cant": "inputs unbounded", "anchors": ["butte-build/src/ast/parser.rs:schema_decl", "butte-build/src/ast/parser.rs:comment_or_space0"]}
{"id": "C48", "title": "Printed schemas parse back", "statement": "Printing any schema in the documented syntax and parsing it gives the same schema.", "quantifier": "every schema tree", "why_tests_cant": "schemas unbounded", "anchors": ["butte-build/src/ast/parser.rs:schema_decl", "butte-build/src/ast/parser.rs:table_decl", "butte-build/src/ast/parser.rs:enum_decl"]}
{"id": "C49", "title": "User type names may start like built-in ones", "statement": "A field whose type is a user identifier parses as that identifier.", "quantifier": "every identifier that is not itself a built-in type name", "why_tests_cant": "identifiers unbounded", "anchors": ["butte-build/src/ast/parser.rs:type_"]}
{"id": "C50", "title": "Comments and spaces do not change the meaning", "statement": "Replacing blank space between tokens by other blank space or comments does not change the parsed schema.", "quantifier": "every schema, every choice of blanks and comments", "why_tests_cant": "texts unbounded", "anchors": ["butte-build/src/ast/parser.rs:comment_or_space0", "butte-build/src/ast/parser.rs:comment"]}
{"id": "C51", "title": "Integer constants denote their value", "statement": "A decimal or hexadecimal constant with optional sign parses to the integer it denotes.", "quantifier": "every digit string and sign", "why_tests_cant": "digit strings unbounded", "anchors": ["butte-build/src/ast/parser.rs:dec_integer_constant", "butte-build/src/ast/parser.rs:hex_integer_constant"]}
{"id": "C52", "title": "Compilation reports errors instead of panicking", "statement": "Compiling a schema text with a syntax error returns an error.", "quantifier": "every text", "why_tests_cant": "texts unbounded", "anchors": ["butte-build/src/compile.rs:compile_fbs_generic", "butte-build/src/ir/transform.rs:new_element"]}
{"id": "C53", "title": "Generated names are valid Rust names", "statement": "The accessor of every field and the module of every namespace have a name that is a valid Rust identifier and no keyword.", "quantifier": "every identifier the parser reads", "why_tests_cant": "identifiers unbounded", "anchors": ["butte-build/src/ir/types.rs:fix_identifier", "butte-build/src/codegen.rs:impl ToTokens for Table", "butte-build/src/codegen.rs:CodeGenerator::node_to_tokens"]}
{"id": "C54", "title": "Different fields have different accessors", "statement": "Two fields with different names have accessors with different names.", "quantifier": "every pair of identifiers", "why_tests_cant": "identifiers unbounded", "anchors": ["butte-build/src/ir/types.rs:fix_identifier", "butte-build/src/codegen.rs:impl ToTokens for Table"]}
{"id": "C55", "title": "Generated accessors are safe and well-typed on untrusted bytes", "statement": "In a release build no program of reader calls and generated accessors panics on any bytes; what an accessor returns is a value of the field's schema type; an optional accessor never reports a missing field and a required one never returns nothing.", "quantifier": "every byte string, every schema, every sequence of calls", "why_tests_cant": "inputs, schemas and call sequences unbounded", "anchors": ["butte-build/src/codegen.rs:impl ToTokens for Table", "butte/src/table.rs:Table::get"]}
{"id": "C56", "title": "The buffer grows by doubling and only when needed", "statement": "The builder's buffer has its first capacity times a power of two, and apart from that capacity never exceeds twice what was written, up to one vtable.", "quantifier": "every call sequence, every capacity", "why_tests_cant": "sequences unbounded", "anchors": ["butte/src/builder.rs:make_space", "butte/src/builder.rs:ensure_capacity", "butte/src/builder.rs:grow_owned_buf"]}
{"id": "C57", "title": "Code generation completes", "statement": "Generating code for a schema that resolves never panics.", "quantifier": "every resolved schema", "why_tests_cant": "schemas, names and defaults unbounded", "anchors": ["butte-build/src/codegen.rs:CodeGenerator::build_tokens", "butte-build/src/codegen.rs:to_default_value", "butte-build/src/codegen.rs:impl ToTokens for Table"]}
{"id": "C58", "title": "Generated items do not clash", "statement": "No module of the generated code defines two types or modules, or two functions, of the same name.", "quantifier": "every resolved schema", "why_tests_cant": "schemas unbounded", "anchors": ["butte-build/src/codegen.rs:impl ToTokens for Table", "butte-build/src/codegen.rs:impl ToTokens for Enum", "butte-build/src/codegen.rs:CodeGenerator::node_to_tokens"]}
{"id": "C59", "title": "Paths in the generated code lead to generated items", "statement": "Every path to a schema type written in the generated code, followed from the module it stands in through the modules that were generated, arrives at a generated item of the right kind.", "quantifier": "every schema the generator completes on, every path", "why_tests_cant": "schemas unbounded", "anchors": ["butte-build/src/codegen.rs:to_type_token", "butte-build/src/ir/types.rs:QualifiedIdent::relative", "butte-build/src/codegen.rs:CodeGenerator::node_to_tokens"]}
{"id": "C60", "title": "Schemas can grow", "statement": "Adding fields at the end of tables, variants at the end of enums and unions, methods and declarations to a schema, and reordering declarations, is compatible both ways: every definition keeps its place and its parts, every accessor of the old code has its slot and, on any bytes, agrees with the new one except for variants the old code does not know, which it reports as unknown; added fields read as missing from old data.", "quantifier": "every schema and every later version of it, every byte string", "why_tests_cant": "schemas, versions and inputs unbounded", "anchors": ["butte-build/src/ir/transform.rs:Builder::build", "butte-build/src/codegen.rs:impl ToTokens for Table", "butte-build/src/codegen.rs:impl ToTokens for Enum", "butte/src/table.rs:Table::get"]}
{"id": "C61", "title": "Generated tables compile", "statement": "The code generated for every table of a schema that resolves is accepted by the Rust compiler.", "quantifier": "every resolved schema, every table in it", "why_tests_cant": "schemas unbounded; each schema is another program to compile", "anchors": ["butte-build/src/codegen.rs:impl ToTokens for Table", "butte-build/src/codegen.rs:impl ToTokens for Enum", "butte-build/src/codegen.rs:impl ToTokens for Union", "butte-build/src/codegen.rs:to_default_value"]}
{"id": "C62", "title": "Names in the generated code mean what they should", "statement": "No name that the generated code relies on - a crate, a primitive type, a name of the prelude, a type of the schema - is taken for something else where it stands: no type parameter and no type or module of the generated code hides it.", "quantifier": "every schema the generator completes on, every module and every definition in it", "why_tests_cant": "schemas and names unbounded", "anchors": ["butte-build/src/codegen.rs:impl ToTokens for Table", "butte-build/src/codegen.rs:impl ToTokens for Enum", "butte-build/src/codegen.rs:impl ToTokens for Union", "butte-build/src/codegen.rs:to_type_token"]}
{"id": "C63", "title": "A compiler run leaves the complete code or changes nothing", "statement": "Compiling a schema file either succeeds, and then the output file holds the code generated for it, or fails, and then no file has changed; different schema files have different output files.", "quantifier": "every state of the file system, every path, every content, whatever rustfmt writes", "why_tests_cant": "contents, paths and aliases unbounded", "anchors": ["butte-build/src/compile.rs:compile_fbs", "butte-build/src/compile.rs:compile_fbs_generic", "butte-build/src/main.rs:main"]}
{"id": "C64", "title": "Documents in the words of a schema survive", "statement": "A document that names fields, enum variants and union variants as the schema text does, written with the code generated for that schema and finished, reads back through the generated accessors as the same document: given fields with their values, the types of unions following from their variants, left-out fields with their defaults.", "quantifier": "every schema text that compiles, every document that fits it, all builds and hosts, all capacities, identifiers and size prefixes", "why_tests_cant": "schemas and documents unbounded, nested to any depth", "anchors": ["butte-build/src/codegen.rs:impl ToTokens for Table", "butte-build/src/codegen.rs:impl ToTokens for Union", "butte/src/builder.rs:FlatBufferBuilder::finish", "butte/src/table.rs:Table::get"]}
{"id": "C65", "title": "Documents survive the growth of their schema", "statement": "A document written with the code generated for a schema is read by the code generated for a later version of it, with fields, variants, methods and declarations added and declarations moved, as the same document, added fields reading as their defaults; and a document written with the code of the later version is read by the code of the earlier one as the same document without the fields it does not know, where exactly the values whose enum or union variant it does not know are refused, each on its own.", "quantifier": "every schema and later version whose declarations stay where they are written, every document that fits the one it is written with, all builds and hosts, all capacities, identifiers and size prefixes", "why_tests_cant": "pairs of schemas and documents unbounded, nested to any depth", "anchors": ["butte-build/src/codegen.rs:impl ToTokens for Table", "butte-build/src/codegen.rs:impl ToTokens for Union", "butte/src/table.rs:Table::get", "butte-build/src/ir/transform.rs:Builder::build"]}
{"id": "C66", "title": "Reading is exact for every type", "statement": "Whatever bytes a buffer holds, every read returns exactly what stands there: a number, string, slice, enum, identifier, vector, table or vtable at the place that the location, the offsets on the way and the vtable lead to, and otherwise the error naming what is missing. A debug build returns the same or panics.", "quantifier": "every buffer, every location up to usize::MAX, every nesting of types that can be followed, every slot and index", "why_tests_cant": "buffers, locations and types unbounded", "anchors": ["butte/src/primitives.rs:impl Follow", "butte/src/vtable.rs:VTable", "butte/src/table.rs:Table::get", "butte/src/vector.rs:Vector::get", "butte/src/vector.rs:follow_slice_helper"]}
{"id": "C67", "title": "The builder panics exactly when misused", "statement": "A call of the builder panics exactly when it breaks the rules of use, and otherwise returns: in a release build only finish on a builder that nothing was put into, and required for a field that is not there; in a debug build also calls out of order (nested objects, fields or vector ends outside an object, finishing twice or inside an object, asking for finished data before), offsets that point beyond what is written, identifiers not of four bytes, and tables that start after their end, exceed 64 KiB or set a slot twice.", "quantifier": "every call sequence with arguments of their Rust types whose buffer stays within 2 GiB, all builds and hosts, all capacities", "why_tests_cant": "call sequences unbounded", "anchors": ["butte/src/builder.rs:FlatBufferBuilder::assert_nested", "butte/src/builder.rs:FlatBufferBuilder::end_table", "butte/src/builder.rs:FlatBufferBuilder::finish", "butte/src/builder.rs:FlatBufferBuilder::required", "butte/src/builder.rs:write_vtable"]}
{"id": "C68", "title": "Unsafe code stays inside its memory", "statement": "Every access that the reader or the builder makes through a raw pointer lies in the slice it was handed, in the allocation that slice is part of, and touches only memory that was written before it is read.", "quantifier": "every allocation and every slice of it, every chain of reader calls on any bytes; every call sequence on a builder, every capacity, all builds and hosts", "why_tests_cant": "undefined behaviour need not show in a test run; inputs and sequences unbounded", "anchors": ["butte/src/endian_scalar.rs:read_scalar", "butte/src/endian_scalar.rs:emplace_scalar", "butte/src/vector.rs:follow_slice_helper", "butte/src/builder.rs:grow_owned_buf", "butte/src/builder.rs:reset", "butte/src/builder.rs:create_vector_direct", "butte/src/builder.rs:create_vector_of_strings", "butte/src/vtable_writer.rs:VTableWriter"]}
{"id": "C69", "title": "Unsafe code makes aligned accesses to valid values", "statement": "Every access through a raw pointer to a type T is at an address that is a multiple of the alignment of T, and bytes taken for a bool are 0 or 1.", "quantifier": "every allocation address, every chain of reader calls on any bytes; every call sequence on a builder, every capacity", "why_tests_cant": "undefined behaviour need not show in a test run; x86 carries out misaligned accesses", "anchors": ["butte/src/endian_scalar.rs:read_scalar", "butte/src/endian_scalar.rs:emplace_scalar", "butte/src/vector.rs:follow_slice_helper", "butte/src/vector.rs:SafeSliceAccess", "butte/src/vtable_writer.rs:VTableWriter"]}
{"id": "C70", "title": "The root tables are those that the schema names", "statement": "A table of a resolved schema is a root exactly if a root_type declaration or a service, read in the namespace it is written in, names it.", "quantifier": "every schema, every table in it", "why_tests_cant": "schemas and orders unbounded", "anchors": ["butte-build/src/ir/transform.rs:new_root", "butte-build/src/ir/transform.rs:new_rpc", "butte-build/src/ir/transform.rs:new_root_ident"]}
{"id": "C71", "title": "Attributes, given numbers and includes have their documented effect", "statement": "A field with the attribute id is at that place in its table, the variants of an enum marked bit_flags have powers of two as numbers, a variant of a union that is given a number has it, and the types of included files can be used.", "quantifier": "every schema text that compiles", "why_tests_cant": "schemas and attributes unbounded", "anchors": ["butte-build/src/ir/transform.rs:new_table", "butte-build/src/ir/transform.rs:new_enum", "butte-build/src/ir/transform.rs:generate_enum_for_union", "butte-build/src/compile.rs:compile_fbs_generic"]}
{"id": "C72", "title": "Exactly the well-formed schemas are accepted", "statement": "A schema is accepted exactly if it declares no name twice in the same place, refers only to declared types, in no circle but through a table, and uses types only where they may be used: tables for roots and in services, scalars, enums and structs in structs, integers below enums; every other schema is rejected with an error.", "quantifier": "every schema whose declarations are all in one namespace or come before their uses, or else stay where they are written", "why_tests_cant": "schemas, and chains of references in them, unbounded", "anchors": ["butte-build/src/ir/transform.rs:Builder::build", "butte-build/src/ir/transform.rs:new_table", "butte-build/src/ir/transform.rs:new_struct", "butte-build/src/ir/transform.rs:new_enum", "butte-build/src/ir/transform.rs:new_union", "butte-build/src/ir/transform.rs:new_rpc"]}
{"id": "C73", "title": "A document has one file and a file one document", "statement": "The bytes of a document written with the generated code and finished do not depend on the build, the byte order of the host or the start capacity; the documents that a file reads as are exactly those that say the same as the one it was written for: field by field, a field with its default being as good as left out, in any order; documents that say the same have the same file.", "quantifier": "every schema that compiles, every pair of documents of one of its tables, all builds, hosts, capacities, identifiers and size prefixes", "why_tests_cant": "schemas and documents unbounded, nested to any depth; needs hosts of both byte orders", "anchors": ["butte-build/src/codegen.rs:impl ToTokens for Table", "butte/src/builder.rs:FlatBufferBuilder::finish_with_opts", "butte/src/builder.rs:push_slot", "butte/src/table.rs:Table::get"]}
