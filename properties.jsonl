{"id": "C01", "title": "Parsing never reads outside the input buffer", "statement": "json::parse and json::parsec, on any byte buffer, never dereference or advance the cursor at or past the end of the buffer and never load a vector block that extends past it.", "quantifier": "every byte string, both modes (JSON, JSONC), every block-scan backend (none, 4-byte, 8-byte, SSE, AVX2, NEON; either endianness)", "why_tests_cant": "An out-of-bounds read shows only on particular truncations of particular inputs; there are infinitely many.", "anchors": ["include/parser/parser_impl.hpp: parse, parse_value, parse_number, parse_stdstring, skip_unicode_escape, skip_string_literal_with_accel, skip_whitespace, skip_comment, skip_digit"]}
{"id": "C02", "title": "Parsing always terminates, with call depth bounded by the input length", "statement": "Every call of json::parse / json::parsec returns after finitely many loop iterations, and the nesting depth of parser calls never exceeds the number of bytes of the input.", "quantifier": "every byte string, both modes, every backend", "why_tests_cant": "Non-termination or unbounded recursion can hide in any input; testing samples finitely many.", "anchors": ["include/parser/parser_impl.hpp: parse, parse_array, parse_object, skip_whitespace"]}
{"id": "C03", "title": "Every RFC 8259 text with an array or object root is accepted and denotes the right value", "statement": "If a text is an RFC 8259 JSON text whose root is an array or object, with no duplicate member names within an object and no unpaired surrogate escapes, json::parse returns the value it denotes: numbers keep their exact spelling, strings are decoded to UTF-8, arrays keep order, objects map each name to its value.", "quantifier": "every RFC 8259 text (any length, any nesting)", "why_tests_cant": "The language is infinite and recursive.", "anchors": ["include/parser/parser_impl.hpp: parse, parse_value, parse_array, parse_object, parse_number, parse_stdstring"]}
{"id": "C04", "title": "Only JSON texts are accepted", "statement": "If json::parse returns a value then the text is an RFC 8259 JSON text (and the value is the one it denotes). The exact accepted language is established; where it is larger than RFC 8259 that is shown by a concrete text.", "quantifier": "every byte string", "why_tests_cant": "Rejecting every one of infinitely many malformed inputs cannot be tested exhaustively.", "anchors": ["include/parser/parser_impl.hpp: parse (line 41), skip_whitespace, parse_stdstring"]}
{"id": "C05", "title": "Objects with a repeated member name are rejected", "statement": "A text in which some object (at any depth) has two members whose decoded names are equal is never accepted.", "quantifier": "every byte string, both modes, every backend", "why_tests_cant": "Depends on name equality after escape decoding, at any depth.", "anchors": ["include/parser/parser_impl.hpp: parse_object (line 280)"]}
{"id": "C06", "title": "JSONC: comments and one trailing comma are accepted wherever white space is, and do not change the value", "statement": "json::parsec accepts every text of the JSONC grammar (RFC 8259 plus // and /* */ comments as white space plus one trailing comma before ] or }) with array/object root and returns the value of the text with comments and trailing commas ignored.", "quantifier": "every text of the JSONC grammar", "why_tests_cant": "Infinite recursive language.", "anchors": ["include/parser/parser_impl.hpp: skip_whitespace, skip_comment, parse_array, parse_object"]}
{"id": "C07", "title": "Only JSONC texts are accepted by parsec", "statement": "If json::parsec returns a value then the text is a JSONC text up to the trailing-garbage behaviour stated exactly; the exact accepted language is established.", "quantifier": "every byte string", "why_tests_cant": "Infinite input space.", "anchors": ["include/parser/parser_impl.hpp: parse, skip_whitespace, skip_comment"]}
{"id": "C08", "title": "parsec is a conservative extension of parse", "statement": "Every text json::parse accepts is accepted by json::parsec with the same value.", "quantifier": "every byte string", "why_tests_cant": "Infinite input space.", "anchors": ["include/parser/parser_impl.hpp: parse, skip_whitespace"]}
{"id": "C09", "title": "Unicode escapes decode to the UTF-8 of the denoted code point, and unpaired surrogates are rejected", "statement": "In an accepted string literal every \\uXXXX outside the surrogate range yields the UTF-8 encoding of that code point, a high surrogate escape immediately followed by a low surrogate escape yields the UTF-8 encoding of the combined code point, and a literal with any other surrogate escape is rejected.", "quantifier": "every string literal", "why_tests_cant": "2^16 escapes, 2^20 pairs, in arbitrary contexts.", "anchors": ["include/parser/parser_impl.hpp: parse_stdstring, skip_unicode_escape"]}
{"id": "C10", "title": "The result of parsing does not depend on the block-scan backend", "statement": "For every input, json::parse and json::parsec return the same result whichever vector/word backend (none, 32-bit, 64-bit, SSE, AVX2, NEON, either endianness) the library was compiled with.", "quantifier": "every byte string, every pair of backends", "why_tests_cant": "A test binary contains one backend; divergences depend on block alignment.", "anchors": ["include/parser/parser_impl.hpp: parse_stdstring (318-322), skip_string_literal_with_accel", "include/parser/packed_bytes.hpp", "include/parser/packed_bytes_x86.hpp", "include/parser/packed_bytes_arm.hpp"]}
{"id": "C11", "title": "Block scans never skip a byte that needs attention", "statement": "Each backend, given a block, reports \"nothing special\" only if the block has no byte < 0x20, no quote and no backslash; otherwise the index it reports is within the block and no special byte lies before it. On little-endian words and on SIMD backends the index is exactly that of the first special byte.", "quantifier": "every block content (2^32 .. 2^256 blocks), each backend", "why_tests_cant": "Block space too large to enumerate.", "anchors": ["include/parser/packed_bytes.hpp: packed_bytes_trait_uint64, packed_bytes_trait_uint32", "include/parser/packed_bytes_x86.hpp: packed_bytes_trait_sse, packed_bytes_trait_avx2", "include/parser/packed_bytes_arm.hpp", "include/parser/bitops.hpp"]}
{"id": "C12", "title": "Raw control characters inside string literals are rejected", "statement": "No accepted text contains a byte below 0x20 inside a string literal.", "quantifier": "every byte string, both modes, every backend", "why_tests_cant": "Position and alignment dependent.", "anchors": ["include/parser/parser_impl.hpp: parse_stdstring"]}
{"id": "C13", "title": "Parsing preserves UTF-8 validity", "statement": "If the input is valid UTF-8 then every string and member name in the parsed value is valid UTF-8.", "quantifier": "every valid UTF-8 text", "why_tests_cant": "Infinite input space; interaction of escapes with multi-byte sequences.", "anchors": ["include/parser/parser_impl.hpp: parse_stdstring, skip_unicode_escape"]}
{"id": "C14", "title": "Serialization output is clean UTF-8", "statement": "If every string in a value is valid UTF-8 then dumps() and format() output is valid UTF-8; dumps() output contains no byte below 0x20, and format() none except newlines.", "quantifier": "every value", "why_tests_cant": "Unbounded values.", "anchors": ["include/common/utils.hpp: append_escaped_string", "include/common/value_impl.hpp: dump_to, format_to", "include/common/array_impl.hpp", "include/common/object_impl.hpp"]}
{"id": "C15", "title": "Compact round trip", "statement": "For every array or object value v built from well-formed parts, json::parse(v.dumps()) returns a value equal to v (also parsec, and every backend).", "quantifier": "every array/object value (any depth, any byte strings, any number spellings)", "why_tests_cant": "Unbounded values.", "anchors": ["include/common/value_impl.hpp: to_string, dump_to", "include/common/array_impl.hpp: dump_to", "include/common/object_impl.hpp: dump_to", "include/common/utils.hpp: append_escaped_string", "include/parser/parser_impl.hpp"]}
{"id": "C16", "title": "Pretty-printed round trip", "statement": "For every array or object value v and every indent n, json::parse(v.format(n)) returns a value equal to v.", "quantifier": "every array/object value and every indent", "why_tests_cant": "Unbounded values.", "anchors": ["include/common/value_impl.hpp: format_to", "include/common/array_impl.hpp: format_to", "include/common/object_impl.hpp: format_to", "include/parser/parser_impl.hpp"]}
{"id": "C17", "title": "Pretty and compact output differ only in insignificant white space", "statement": "Removing the white space outside string literals from v.format(n) gives exactly v.dumps().", "quantifier": "every value and indent", "why_tests_cant": "Unbounded values.", "anchors": ["include/common/value_impl.hpp: dump_to, format_to", "include/common/array_impl.hpp", "include/common/object_impl.hpp"]}
{"id": "C18", "title": "Serialization is canonical", "statement": "Two well-formed values are equal exactly when their dumps() texts are equal; in particular the text of an object does not depend on the order in which its members were inserted.", "quantifier": "every pair of values", "why_tests_cant": "Unbounded values.", "anchors": ["include/common/value_impl.hpp: dump_to, operator==", "include/common/object_impl.hpp: dump_to, operator==, emplace"]}
{"id": "C19", "title": "Truncated documents are rejected", "statement": "Every proper prefix of v.dumps() or v.format(n), for an array or object v, is rejected by parse and parsec (so a write cut short at any byte is detected on reading).", "quantifier": "every value, every truncation point (crash point)", "why_tests_cant": "Every crash point of every document.", "anchors": ["include/parser/parser_impl.hpp: parse", "include/common/value_impl.hpp: dump_to"]}
{"id": "C20", "title": "Numbers: exactly the RFC 8259 number grammar, kept verbatim", "statement": "A number token inside an accepted text matches the RFC 8259 number grammar (no leading zeros, digits after point and exponent) and the value keeps its spelling byte for byte; every such spelling is accepted.", "quantifier": "every number spelling", "why_tests_cant": "Infinite language.", "anchors": ["include/parser/parser_impl.hpp: parse_number, skip_digit"]}
{"id": "C21", "title": "Serialized output is always JSON", "statement": "dumps() of every value reachable through the public constructors is an RFC 8259 text (as a value; as a document if array/object).", "quantifier": "every value built by any sequence of constructors and mutators", "why_tests_cant": "Unbounded values.", "anchors": ["include/common/value_impl.hpp: constructors, dump_to", "include/common/value.hpp: value(value_type, args...)", "include/common/utils.hpp: to_basic_string"]}
{"id": "C22", "title": "String escaping is lossless for all byte strings", "statement": "Escaping a byte string and parsing the quoted result gives back the byte string; distinct strings have distinct escapes; the escaped text contains no raw quote, backslash (except as escape introducer) or control byte.", "quantifier": "every byte string", "why_tests_cant": "Infinite input space.", "anchors": ["include/common/utils.hpp: append_escaped_string, escape_string, hex_digit"]}
{"id": "C23", "title": "object behaves as a finite map with sorted iteration", "statement": "Under any sequence of emplace/insert/operator[]/erase/clear/merge, an object answers contains/find/at/size/empty like a mathematical finite map and iterates its keys in strictly increasing byte order.", "quantifier": "every operation sequence", "why_tests_cant": "All histories.", "anchors": ["include/common/object_impl.hpp: emplace, insert, erase(key), erase(iterator), clear, operator[], contains, find_value, at"]}
{"id": "C24", "title": "array behaves as a sequence", "statement": "Under any sequence of push_back/emplace_back/erase/clear/concatenation an array answers size/contains/at/find/iteration like a mathematical sequence; erase out of range returns false and changes nothing.", "quantifier": "every operation sequence", "why_tests_cant": "All histories.", "anchors": ["include/common/array_impl.hpp: emplace_back, erase, clear, contains, at, find_value, operator+="]}
{"id": "C25", "title": "Merge and concatenation laws", "statement": "a|b maps each key to b's value if b has it, else a's; | is associative and has {} as identity; |= and every overload agree with |; array + is concatenation and all overloads agree.", "quantifier": "all objects / arrays", "why_tests_cant": "Unbounded.", "anchors": ["include/common/object_impl.hpp: operator|, operator|=, merge_object, merge_object_move", "include/common/array_impl.hpp: operator+, operator+=", "include/common/value_impl.hpp: operator|, operator+"]}
{"id": "C26", "title": "No public operation sequence breaks the type tag / payload agreement", "statement": "Starting from constructed values, any sequence of public mutators (assignment, copy, as_array/as_object, [] , emplace, erase, clear, |=, +=, |, +) leaves every value whose contents were not moved away with a payload that matches its type tag, and no such operation has undefined behaviour except out-of-range operator[](size_t).", "quantifier": "every history of operations on any set of values", "why_tests_cant": "All histories.", "anchors": ["include/common/value_impl.hpp: as_array, as_object, operator=, emplace, erase, clear, operator[], operator|=, operator+=, operator|, operator+, deep_copy"]}
{"id": "C27", "title": "Lookups agree and never modify", "statement": "contains(k), find(k), find_value(k), exists(k) and at(k) agree on presence for objects and arrays and on wrong types (false / nullopt / throw), for every value.", "quantifier": "every value and key", "why_tests_cant": "Unbounded.", "anchors": ["include/common/value_impl.hpp: contains, exists, find_value, find, at", "include/common/array_impl.hpp", "include/common/object_impl.hpp"]}
{"id": "C28", "title": "get(path..., default) returns the value at the path or the default, and never throws", "statement": "For every value, path and default of type T: get returns as<T>() of the value at that path if the path exists and is<T>() holds there; otherwise the default. It never throws and never has undefined behaviour.", "quantifier": "every value, path, default and target type", "why_tests_cant": "Unbounded.", "anchors": ["include/common/value_impl.hpp: get, get_helper", "include/common/array_impl.hpp: get_helper", "include/common/object_impl.hpp: get_helper", "include/common/utils.hpp: json_value_or_default, default_or_string"]}
{"id": "C29", "title": "is<T>() is an exact test for as<T>()", "statement": "For every supported target type T and every value v: v.is<T>() holds exactly when v.as<T>() returns normally.", "quantifier": "every value and every type built from the supported type constructors", "why_tests_cant": "Types and values are both unbounded.", "anchors": ["include/common/value_impl.hpp: is, as, to_variant_helper", "include/common/value.hpp: conversion operators", "include/common/array_impl.hpp: as", "include/common/object_impl.hpp: as"]}
{"id": "C30", "title": "Integer conversions never wrap or round", "statement": "as_integer/as_unsigned/as_long/... return the mathematical value of the number exactly when its spelling is an optionally signed (sign only for signed types) digit string whose value fits the type; otherwise they throw.", "quantifier": "every number spelling, every integer type", "why_tests_cant": "2^64 values and infinite spellings.", "anchors": ["include/common/value_impl.hpp: try_parse_integer, parse_integer, as_integer ... as_unsigned_long_long"]}
{"id": "C31", "title": "Integers survive a round trip", "statement": "For every integer n of every supported integer type, value(n) converts back to n, also after dumps and parse.", "quantifier": "every integer of every supported type", "why_tests_cant": "2^64 values.", "anchors": ["include/common/value_impl.hpp: value(int) ... value(unsigned long long)", "include/common/utils.hpp: to_basic_string"]}
{"id": "C32", "title": "Native C++ data survives conversion to JSON and back", "statement": "For data of types built from bool, integers, strings, vectors, fixed arrays, tuples, string-keyed maps and optionals of non-null-able types: is<T>(value(x)) holds and as<T>(value(x)) == x.", "quantifier": "every type in the universe and every datum of it", "why_tests_cant": "Unbounded types and data.", "anchors": ["include/common/value.hpp: constructors, conversion operators", "include/common/array_impl.hpp", "include/common/object_impl.hpp"]}
{"id": "C33", "title": "MEO_JSONIZATION round trip and field rules", "statement": "For a struct with distinct effective keys: from_json(to_json(x)) succeeds and yields x; a missing required field or a field of the wrong type fails and error_key names the first such field; a missing MEO_OPT field keeps its default; MEO_KEY renames the key in all three functions.", "quantifier": "every field list, every struct datum, every JSON value", "why_tests_cant": "Unbounded.", "anchors": ["include/reflection/jsonization.hpp: dumper, checker, loader, MEO_JSONIZATION, MEO_OPT, MEO_KEY"]}
{"id": "C34", "title": "A failed from_json leaves the target unchanged", "statement": "If from_json returns false the struct still has the value it had before the call.", "quantifier": "every struct and JSON value", "why_tests_cant": "Unbounded.", "anchors": ["include/reflection/jsonization.hpp: loader::_from_json"]}
{"id": "C35", "title": "Enum names round trip", "statement": "For every enumerator in the reflection range, converting it to a value and back gives the same enumerator; string conversion is case-insensitive (ASCII) and picks an enumerator exactly when some name matches.", "quantifier": "every enum declaration and enumerator", "why_tests_cant": "Unbounded declarations.", "anchors": ["include/common/enum_reflection.hpp: enum_to_string, string_to_enum, iequals, enum_range, get_enum_names", "include/common/value.hpp: value(enum_t), operator enum_t"]}
{"id": "C36", "title": "Equality is structural", "statement": "On valid values operator== is an equivalence relation that holds exactly when type and contents agree; operator!= is its negation; it never throws on values without invalid parts.", "quantifier": "all pairs/triples of values", "why_tests_cant": "Unbounded.", "anchors": ["include/common/value_impl.hpp: operator==, operator!=", "include/common/array_impl.hpp: operator==", "include/common/object_impl.hpp: operator=="]}
{"id": "C37", "title": "Copies are deep", "statement": "After copying a value, no mutation performed through one copy (at any depth) is observable through the other, and the copy equals the original.", "quantifier": "every value and every mutation history", "why_tests_cant": "All histories.", "anchors": ["include/common/value_impl.hpp: value(const value&), deep_copy, operator=(const value&)"]}
{"id": "C38", "title": "Assigning a value from a part of itself is safe", "statement": "v = v[k] and v = std::move(v[k]) both leave v equal to the former child and have no undefined behaviour.", "quantifier": "every value and path", "why_tests_cant": "Aliasing depends on heap shape.", "anchors": ["include/common/value_impl.hpp: operator=(const value&), operator=(value&&)"]}
{"id": "C39", "title": "Allocation failure leaves values usable", "statement": "If an allocation fails at any point during copy-assignment, as_array(), as_object() or operator[], the value remains in a state whose type tag matches its payload.", "quantifier": "every allocation-failure point", "why_tests_cant": "All crash points.", "anchors": ["include/common/value_impl.hpp: operator=(const value&), as_array, as_object, operator[]"]}
{"id": "C40", "title": "Byte-order mark handling", "statement": "parse(stream, check_bom=true) on a BOM followed by text s gives parse(s); text without BOM is unaffected; exactly one BOM is removed; with check_bom=false a text starting with a BOM is rejected.", "quantifier": "every stream content", "why_tests_cant": "Infinite input space.", "anchors": ["include/parser/parser_impl.hpp: parse(std::istream&, bool, bool)"]}
{"id": "C41", "title": "Floating-point values serialize to JSON numbers", "statement": "value(x) for a floating-point x serializes to an RFC 8259 number, for every x.", "quantifier": "all floating-point values", "why_tests_cant": "2^64 values (and 80/128-bit).", "anchors": ["include/common/utils.hpp: to_basic_string", "include/common/value_impl.hpp: value(float), value(double), value(long double)"]}
{"id": "C42", "title": "Parsing uses bounded stack", "statement": "There is a stack depth that suffices to parse every input.", "quantifier": "every input", "why_tests_cant": "Needs arbitrarily deep inputs.", "anchors": ["include/parser/parser_impl.hpp: parse_value, parse_array, parse_object"]}
{"id": "C43", "title": "Conversion does not depend on value category", "statement": "(T)v and (T)std::move(v) give the same result (value or exception) for every value v and container type T.", "quantifier": "every value and type", "why_tests_cant": "Unbounded.", "anchors": ["include/common/value.hpp: operator T() const&, operator T() &&", "include/common/value_impl.hpp: as_array(), as_object()"]}
{"id": "C44", "title": "Variants convert to the first matching alternative", "statement": "as<std::variant<Ts...>> yields the first alternative whose is<Ti>() holds, and throws if none does; converting a variant to JSON and back yields the original when no earlier alternative accepts its JSON.", "quantifier": "every alternative list and value", "why_tests_cant": "Unbounded.", "anchors": ["include/common/value_impl.hpp: to_variant_helper, is_variant_helper, value(std::variant)"]}
{"id": "C45", "title": "An operation that reports failure changes nothing", "statement": "erase(k) returning false leaves the value unchanged; a throwing as_array()/as_object()/operator[] leaves the value unchanged.", "quantifier": "every value and key", "why_tests_cant": "Unbounded.", "anchors": ["include/common/value_impl.hpp: erase, as_array, as_object, operator[]"]}
{"id": "C46", "title": "Parsing a C string equals parsing the bytes before its terminator; literals", "statement": "parse(const char*) equals parse of the bytes before the first NUL; the _json/_jvalue/_jarray/_jobject literals return the parsed value, or null/empty array/empty object on failure or type mismatch.", "quantifier": "every C string / literal", "why_tests_cant": "Infinite input space.", "anchors": ["include/parser/parser_impl.hpp: parse(const char*), parsec(const char*), literals"]}
{"id": "C47", "title": "The parser only produces well-formed values", "statement": "Every value returned by parse/parsec has, at every depth, a type tag matching its payload, strictly sorted distinct keys, no invalid part, and number texts matching the RFC grammar.", "quantifier": "every byte string", "why_tests_cant": "Infinite input space.", "anchors": ["include/parser/parser_impl.hpp: parse"]}
{"id": "C48", "title": "Reading a stream never throws", "statement": "parse(std::istream&) and open(path) report every failure (unopenable file, unreadable stream, malformed text) by nullopt, without throwing.", "quantifier": "every stream, both modes, both BOM options", "why_tests_cant": "Depends on stream states a test has to construct deliberately.", "anchors": ["include/parser/parser_impl.hpp: parse(std::istream&, bool, bool) (610-632), open (634-644)"]}
{"id": "C49", "title": "Building a value from a variable leaves the variable unchanged", "statement": "Constructing a json::value from an lvalue of a supported C++ type (directly or inside a container or struct) does not modify the source object.", "quantifier": "every type built from the supported type constructors and every object of it", "why_tests_cant": "Needs every nesting of wrappers, containers and value categories.", "anchors": ["include/common/value.hpp: value(const wrapper_t&), value(wrapper_t&&) (118-148)", "include/common/value_impl.hpp: value(std::variant)", "include/common/array_impl.hpp: constructors", "include/reflection/jsonization.hpp: dumper"]}
{"id": "C50", "title": "Converting an enumeration to JSON gives its own name or an exception", "statement": "value(e) for an enumeration object e is the name declared for that value, or throws json::exception; it is never the name of another value and never undefined behaviour.", "quantifier": "every enum declaration and every value of its underlying type", "why_tests_cant": "2^64 values and unboundedly many declarations.", "anchors": ["include/common/value.hpp: value(enum_t)", "include/common/enum_reflection.hpp: enum_to_string, enum_name_storage"]}
{"id": "C51", "title": "Floating-point numbers survive a round trip", "statement": "as_float/as_double/as_long_double of value(x) is x for every finite floating-point x.", "quantifier": "all finite values of float, double and long double", "why_tests_cant": "2^64 doubles; more for long double.", "anchors": ["include/common/utils.hpp: to_basic_string (477-491)", "include/common/value_impl.hpp: value(float), value(double), value(long double) (130-152), parse_floating (31-56), as_float, as_double, as_long_double (572-600)"]}
{"id": "C52", "title": "Reading a number gives the nearest floating-point number", "statement": "as_float/as_double/as_long_double of an RFC 8259 number text gives a floating-point number nearest to the number it denotes, and throws only if that number is too large for the type.", "quantifier": "every RFC 8259 number text", "why_tests_cant": "Infinitely many texts, of any length.", "anchors": ["include/common/value_impl.hpp: parse_floating (31-56), as_float, as_double, as_long_double (572-600)"]}
{"id": "C53", "title": "No use after free, double free or leak", "statement": "No sequence of operations on values (constructors, copies, moves, assignments, insertions, removals, merges, conversions to containers), in which every reference names an existing value, uses freed memory, frees memory twice or loses memory; when all variables are destroyed, all memory has been freed, also if allocations fail on the way.", "quantifier": "every finite history of operations, every heap, every pattern of allocation failures", "why_tests_cant": "All histories and all aliasing patterns; leaks and dangling pointers are invisible to assertions.", "anchors": ["include/common/value_impl.hpp: value(const value&), operator=, deep_copy, as_array, as_object, operator[], emplace, erase, clear, operator|=, operator+=", "include/common/object_impl.hpp: merge_object, merge_object_move", "include/common/array_impl.hpp: append_array, append_array_move"]}
{"id": "C54", "title": "Pretty printing lays the compact text out line by line", "statement": "The text of dumps(n) is the text of dumps() with a line break after every opening bracket and comma, a line break before the closing bracket of a container that is not empty, a blank after every colon, and n blanks per open container at the start of every line; nothing inside string literals is touched.", "quantifier": "every well-formed value, every indentation n with n times the nesting depth below 2^64", "why_tests_cant": "Layout of unboundedly many nested values.", "anchors": ["include/common/value_impl.hpp: dumps, format, to_string", "include/common/array_impl.hpp: format, dumps", "include/common/object_impl.hpp: format, dumps"]}
{"id": "C55", "title": "Calls that need a container turn an empty value into one, act on its contents, and throw on every other value without changing it", "statement": "as_array, as_object, emplace, erase, operator[], operator|=, operator+= and the rvalue overloads of | and +, on a value: null, the empty string and the empty container of the other kind act as an empty container of the kind needed; on a container of the kind the call has exactly the effect of the operation on its sequence or map and returns what it should; on any other value json::exception is thrown and the value is unchanged. clear() leaves null.", "quantifier": "every value (nothing moved away), every key, position and argument", "why_tests_cant": "All values of unbounded size, combined with all operations.", "anchors": ["include/common/value_impl.hpp: as_array, as_object, emplace, erase, clear, operator[], operator|, operator+, operator|=, operator+=, empty"]}
{"id": "C56", "title": "Each statement changes exactly what it names", "statement": "Construction, assignment, emplace, |=, +=, |, + and the other calls, with temporaries, lvalues or rvalues as arguments: the named value gets exactly the described new content, a value moved from is left empty with its type tag, elements are appended at the end, members are set or overwritten, and everything else in the program state keeps its value. The operands may overlap where the library supports it (v = v[k], v.emplace(v[0]), v.emplace(k, v)).", "quantifier": "every program state, every location at any depth, every expression", "why_tests_cant": "All states and all aliasing patterns.", "anchors": ["include/common/value_impl.hpp: value(const value&), value(value&&), operator=, emplace, operator|=, operator+=, operator|, operator+", "include/common/array_impl.hpp: array(std::initializer_list), append_array, append_array_move", "include/common/object_impl.hpp: object(std::initializer_list), emplace, merge_object, merge_object_move"]}
{"id": "C57", "title": "Functions declared noexcept do not throw", "statement": "value::empty, is<T>, type_name and value_info, all noexcept or used while an exception is being made, return normally for every value.", "quantifier": "every value, every type T, every compiler the enumeration reflection supports", "why_tests_cant": "An exception leaving a noexcept function ends the program, and needs values in states that no test constructs.", "anchors": ["include/common/value_impl.hpp: empty, is, type_name, value_info (367-405)", "include/common/value.hpp: value (33-52, 313-346)"]}
{"id": "C58", "title": "Descriptions of values in error messages are accurate", "statement": "type_name is the name of the type tag; value_info is type= and that name, followed by the serialised scalar (at most 100 bytes, then three dots) or by the number of elements of a container; it never throws and is valid UTF-8 when the strings are.", "quantifier": "every value", "why_tests_cant": "Unbounded.", "anchors": ["include/common/value_impl.hpp: type_name (367-371), value_info (373-405)", "include/common/enum_reflection.hpp: name, enum_to_string"]}
{"id": "C59", "title": "Native data written as text is read back unchanged", "statement": "For every supported C++ type T and object x of it: the text of value(x), compact or indented, parses (by parse or parsec, on any backend) to a value for which is<T>() holds and as<T>() gives x.", "quantifier": "every type of the universe (nested containers, structs, enumerations, numbers), every object of it", "why_tests_cant": "The composition of reflection, number formatting, escaping, layout, parsing and conversion, over unboundedly many types.", "anchors": ["include/common/value_impl.hpp: value constructors, dumps, format, is, as", "include/parser/parser_impl.hpp: parse, parsec", "include/reflection/jsonization.hpp: dumper, checker, loader"]}
{"id": "C60", "title": "Reading an array into a set keeps one of each kind of element, into a multiset all of them", "statement": "as<C>() for a set C succeeds exactly when as<std::vector<T>>() does. std::set is sorted and holds, of each class of equivalent elements, the first one, and nothing else. std::multiset is sorted and holds all elements, equivalent ones in the order of the array. std::unordered_set holds the first of each class of equal elements, std::unordered_multiset all elements, in some order.", "quantifier": "every value, every element type, every comparison that is a strict weak order on the elements, every equality and hash function", "why_tests_cant": "All arrays, all orders, all hash functions.", "anchors": ["include/common/value.hpp: operator T() const& (603-630)", "include/common/array.hpp: conversion operator", "include/common/array_impl.hpp: as"]}
{"id": "C61", "title": "Wide strings are parsed like the same text in UTF-8", "statement": "json::parse and json::parsec on std::wstring or std::u32string have a defined outcome for every content, and it is the outcome for the UTF-8 encoding of the text in a std::string.", "quantifier": "every sequence of code units, both grammars", "why_tests_cant": "Code points outside the ones tried; casts to unsigned char that act differently per code unit.", "anchors": ["include/parser/parser_impl.hpp: parse_stdstring, parse_number, skip_digit, skip_unicode_escape", "include/parser/parser.hpp:19-22"]}
{"id": "C62", "title": "A std::deque<char> is parsed like the same text in a std::string", "statement": "json::parse on a std::deque<char> has a defined outcome, the one for the same characters in a std::string.", "quantifier": "every content, position of the first character in its node, and backend", "why_tests_cant": "The block scan reads past the end of a node only for long texts at particular positions, and usually without a visible fault.", "anchors": ["include/parser/parser_impl.hpp: skip_string_literal_with_accel (464-488), parse_stdstring (318-322)"]}
{"id": "C63", "title": "MEO_JSONIZATION treats every member once, in order, with its own tags", "statement": "A call of MEO_JSONIZATION (MEO_TOJSON, MEO_CHECKJSON, MEO_FROMJSON) compiles exactly when it lists members, each preceded by any MEO_OPT and MEO_KEY, with at most 64 members and tags in all; the to_json, check_json and from_json it writes act on the listed members in order, a tag affects the member it precedes and no other, and other members are left alone.", "quantifier": "every sequence of macro arguments, every struct, every JSON value", "why_tests_cant": "64 nested macros and recursive overload sets over argument packs of any length and mix of tags.", "anchors": ["include/reflection/jsonization.hpp: _MEOJSON_FOR_EACH, _MEOJSON_ARG_COUNT, _MEOJSON_KEY_VALUE (206-425), MEO_TOJSON ... MEO_KEY (428-472), dumper, checker, loader (47-196)"]}
{"id": "C64", "title": "Construction, is<T>() and as<T>() take a C++ type for the same thing", "statement": "For every C++ type T: json::value(x) is not ambiguous; the constructor that overload resolution selects, the branch is<T>() takes and the conversion as<T>() or a cast selects treat T as the same kind of thing (null, boolean, number, text, enumeration, wrapper, variant, sequence, fixed array, tuple, map, class with functions of the user), and the value made, or accepted, has the JSON type of that kind.", "quantifier": "every description of a C++ type by the traits and members the library looks at, every value category", "why_tests_cant": "Users write any number of types, each with any mix of features; overload resolution among some thirty constrained constructors and operators decides at compile time.", "anchors": ["include/common/value.hpp: constructors (45-306), conversion operators (451-648)", "include/common/value_impl.hpp: is, as, emplace", "include/common/utils.hpp: traits (23-217)"]}
{"id": "C65", "title": "What value hands to array and object is taken by the matching constructor or conversion", "statement": "When a constructor of value for sequences, fixed arrays, tuples or maps is selected for x, the constructor of array or object it delegates to is the one for the same kind and the same copy or move form; when a conversion of value goes through as_array() or as_object(), array::as or object::as has a branch for T, so no static_assert fails inside the library.", "quantifier": "every description of a C++ type, every value category", "why_tests_cant": "Two overload sets have to agree on every type and category.", "anchors": ["include/common/value.hpp: constructors (160-296), conversion operators (560-648)", "include/common/array.hpp: constructors", "include/common/object.hpp: constructors", "include/common/array_impl.hpp: as", "include/common/object_impl.hpp: as"]}
{"id": "C66", "title": "Parsing takes time in proportion to the text, serialization in proportion to the value, and nothing read or written is much larger than its source", "statement": "Parsing n bytes does O(n log n) work (linear but for the insertions of member names into std::map), whatever the text; writing a value does work linear in its size, plus indentation; the value read has no more nodes, members and string bytes together than the text has bytes; the text written for a value is at most eight times its size, plus indentation.", "quantifier": "every byte string, both grammars, every backend; every value", "why_tests_cant": "A bad case for a parser (repeated scanning, copying of partial results) is a family of inputs; timing a few of them shows nothing about the others.", "anchors": ["include/parser/parser_impl.hpp: all functions", "include/common/utils.hpp: append_escaped_string", "include/common/value_impl.hpp: dump_to, format_to", "include/common/array_impl.hpp: dump_to, format_to", "include/common/object_impl.hpp: dump_to, format_to"]}
{"id": "C67", "title": "Converting an rvalue leaves its source usable", "statement": "After (T)std::move(v), whether it returns or throws, v can still be read, compared, copied and destroyed; a conversion that throws leaves v as it was, or, if elements are moved out, has stopped at the first element that cannot be converted, with those behind it untouched and none lost; after a conversion to a sequence, set, fixed array or tuple v is an empty array.", "quantifier": "every type T, every value, every behaviour of move_from_json functions", "why_tests_cant": "Which elements were moved when an exception stops the loop depends on the type, the position and the content; moved-from containers are null pointers that show only when the source is used again.", "anchors": ["include/common/value.hpp: operator T() && (522-648)", "include/common/value_impl.hpp: as && (706-729), move_to_variant_helper (1161-1168)", "include/common/array_impl.hpp: as && (475-550)", "include/common/object_impl.hpp: as && (355-370)"]}
{"id": "C68", "title": "Parsing leaks nothing, also when memory runs out", "statement": "Whatever allocations fail while parse, parsec, open or a literal runs: either the value of the document is built and everything else is freed, or the text is rejected or std::bad_alloc (std::length_error for a stream without positions) is thrown and everything that had been built is freed; no other value is changed.", "quantifier": "every input, every backend, both modes, every heap of values, every pattern of failing allocations", "why_tests_cant": "A test would have to fail every single allocation of every input in turn and count the live blocks.", "anchors": ["include/parser/parser_impl.hpp: parse (17-46), parse_value (48-78), parse_array (173-228), parse_object (230-301), parse(istream) (610-632), open (634-644), literals (657-680)", "include/common/array_impl.hpp: array(collection_t&&) (89-102)", "include/common/object_impl.hpp: object(map_t&&) (50-62)"]}
{"id": "C69", "title": "A value inserted into a stream is its formatted text, and can be read back", "statement": "out << v appends exactly v.format(), padded to the field width of the stream, and resets the width; the stream stays good if and only if its buffer took all of it; an exception of format() leaves the stream alone; the content of a stream on which one well-formed array or object was written is read back as that value, and if the write was cut short it is rejected.", "quantifier": "every value, every state, width, fill, adjustment and capacity of the stream", "why_tests_cant": "Field width and fill are sticky properties of the stream set elsewhere; a full buffer can cut the text at any byte.", "anchors": ["include/common/value_impl.hpp: operator<< (1122-1126)", "include/common/array_impl.hpp: operator<< (424-428)", "include/common/object_impl.hpp: operator<< (334-338)", "include/common/value.hpp: format (413)"]}
{"id": "C70", "title": "Reading a stream depends on nothing but the text it delivers", "statement": "parse(istream&) reads a stream that can be sought from start to end wherever it stands, leaves it usable, and gives the same outcome when called again; bytes that the stream announces but does not deliver (text mode, a file cut meanwhile) do not change the outcome; CR LF and LF are the same; a file written in text or binary mode is read back in either mode.", "quantifier": "every text, every position and state of the stream, every size announced, every backend", "why_tests_cant": "The buffer is sized by tellg and filled by read, which may deliver less; what is left in it is NUL bytes, seen only on platforms with text mode or when files change.", "anchors": ["include/parser/parser_impl.hpp: parse(istream) (610-632), open (634-644), skip_whitespace (490-519), parse (17-46)"]}
{"id": "C71", "title": "Every recursive function goes exactly as deep as the value is nested", "statement": "dump, format, the copy, the comparison of equal values, the destructor and the parser need as many nested activations as the value has levels, no more and no fewer; so a value read within a given stack can be serialized, copied, compared and destroyed within the same number of levels, a text written can be read within the height of the value, and a value made of C++ data without json types inside is nested no deeper than its type. No stack is enough for all values.", "quantifier": "every value, every text, every number of levels, every indentation, backend and C++ type", "why_tests_cant": "How deep a stack goes is a matter of the build; a test shows that one nesting on one platform works or crashes, not that one function needs more than another.", "anchors": ["include/parser/parser_impl.hpp: parse_value (48-78), parse_array (173-228), parse_object (230-301)", "include/common/value_impl.hpp: dump_to, format_to (769-820), copy (80-84, 1102-1120), operator== (856-876), ~value (206)", "include/common/array_impl.hpp: dump_to, format_to", "include/common/object_impl.hpp: dump_to, format_to"]}
{"id": "C72", "title": "Making a value of C++ data leaks nothing, also when memory runs out", "statement": "Whatever allocations fail while a value is made of C++ data, by a constructor, x = data, x.emplace(data), x.emplace(key, data) or x[key] = data: either the value of the data is made and put where it belongs, or what the conversion throws or std::bad_alloc is thrown, everything that had been built is freed, no member or element has been added, and no other value is changed.", "quantifier": "every C++ type of the conversions and its data, every heap of values, every target, every pattern of failing allocations and every exception of the conversions", "why_tests_cant": "A test would have to fail every single allocation of every conversion in turn and count the live blocks.", "anchors": ["include/common/value_impl.hpp: value constructors (72-204), operator=, emplace (741-755), operator[]", "include/common/array_impl.hpp: array constructors (45-102), construct_from_tuple_helper (523-528), emplace_back", "include/common/object_impl.hpp: object constructors (41-62), emplace (108-119)", "include/reflection/jsonization.hpp: dumper (47-82)"]}
{"id": "C73", "title": "Programs that use different variables do not influence each other", "statement": "What a statement does, and whether it throws, depends on nothing but the contents of the variables it names, and it changes no other variable; on the heap it touches no node of another variable. Hence threads that share only variables that none of them changes each do, however their statements take turns, what they would do alone.", "quantifier": "for all stores and heaps, all statements, any number of threads running any programs, all ways of taking turns", "why_tests_cant": "Tests run one interleaving on few variables, and an access to another variable rarely shows.", "anchors": ["include/common/value_impl.hpp: copy and move (80-86, 846-854, 1102-1120), emplace (741-755), operator| and + (1007-1093), operator[] (980-1005)", "include/common/array_impl.hpp: append_array (9-19)", "include/common/object_impl.hpp: merge_object (9-21), emplace (108-119)", "include/common/value.hpp: _type, _raw_data (671-672)"]}
{"id": "C74", "title": "Serialization and value_info give the whole text or none when memory runs out", "statement": "Whatever requests for memory fail: to_string, format and dumps return the text they return with unlimited memory, or throw std::bad_alloc, and that only if a request failed, or std::length_error, and that only if the text is longer than a std::string can be; operator<< then writes nothing. All of them stop at the first request that fails. value_info, which is noexcept, returns its text or, if memory ran out, the type alone.", "quantifier": "every value, every indentation, every pattern of failing allocations, every maximal size of std::string", "why_tests_cant": "A test would have to fail every single request of every value in turn.", "anchors": ["include/common/value_impl.hpp: dump_to, format_to, dumps (762-831), type_name, value_info (367-405), operator<< (1122-1126)", "include/common/array_impl.hpp: dump_to, format_to, dumps (195-245)", "include/common/object_impl.hpp: dump_to, format_to, dumps (121-182)", "include/common/utils.hpp: append_escaped_string (394-444)"]}
{"id": "C75", "title": "Conversions give the right answer or none when memory runs out", "statement": "Whatever requests for memory fail: is<T>() returns the answer it returns with unlimited memory, as<T>() const&, find<T> and get return or throw what they would or throw std::bad_alloc, and from_json into an object then has given new values to a first part of its members and left the others alone. None of them goes on after a request that failed. No reading function ends the program.", "quantifier": "every type T of the conversions, every value, every pattern of failing allocations, every capacity of a std::string without allocation", "why_tests_cant": "is<T>() is noexcept, so an allocation inside ends the program; whether one takes place depends on the lengths of member names and on the standard library.", "anchors": ["include/common/value_impl.hpp: is (259-340), is_tuple_helper, is_variant_helper (668-679), as (681-705), find, get", "include/common/array_impl.hpp: as (430-473)", "include/common/object_impl.hpp: as (340-353)", "include/reflection/jsonization.hpp: checker (84-138), loader (140-196)", "include/common/utils.hpp: default_or_string, json_value_or_default (147-171)"]}
{"id": "C76", "title": "References held across calls stay valid", "statement": "A reference to a value (a variable, an element, a member, at any depth) taken before a call still refers to the same value in memory after the call returns, unless the call assigns to or moves from a value around it, erases or clears it or an element before it, or makes the vector that holds it longer. In particular operator[] and emplace of other keys, |= with other keys, copies, queries and erasures of other members keep it. After a call that throws, other than std::bad_alloc, every reference is kept, except those to parts of a value that std::move inside the braces of the argument names. Assigning to a value does end the references to its parts.", "quantifier": "every heap whose values have the tags and member names programs give them, every command with any aliasing, every path; every program of commands that return or throw and read nothing moved away", "why_tests_cant": "A dangling reference usually still reads the right bytes; which calls end which references is a statement about all of them.", "anchors": ["include/common/value_impl.hpp: operator= (846-854), operator[] (973-1005), emplace (741-755), erase (417-425), operator|= and += (1039-1093)", "include/common/array_impl.hpp: erase (160-176), emplace_back, operator+= (402-414)", "include/common/object_impl.hpp: erase (94-107), emplace (108-119), operator[] (276-285), operator|= (312-322)", "include/common/value.hpp: move constructor and assignment noexcept (51, 416)"]}
{"id": "C77", "title": "A conversion of an rvalue that runs out of memory loses nothing", "statement": "Whatever requests for memory fail: std::move(v).as<T>() and (T)std::move(v) give the result they give with unlimited memory and leave of the source what they leave then; or they throw std::bad_alloc, and then the source is as it was before the call, and nothing was done after the request that failed.", "quantifier": "every type T of the conversions, every value, every pattern of failing allocations, every move_from_json of the user", "why_tests_cant": "The source of a move is rarely looked at afterwards, and every single request would have to fail in turn.", "anchors": ["include/common/value.hpp: conversion operators && (522-648)", "include/common/value_impl.hpp: as && (706-729), as_array, as_object (640-666), move_to_variant_helper (1161-1169)", "include/common/array_impl.hpp: as && (475-521), move_as_tuple_helper (545-550)", "include/common/object_impl.hpp: as && (355-370)"]}
{"id": "C78", "title": "The text of a failed conversion says what is wrong and where", "statement": "When v.as<T>() throws json::exception, what() names the type that was asked for and describes the part of the source that has not the kind or the form the text says it should have. The text is short, what() shows all of it, and from it one can tell the element, the field and the number. This holds for the source of a move as well.", "quantifier": "every type T of the conversions, every value, every enumeration and every class of the user", "why_tests_cant": "There are as many texts as pairs of a type and a wrong value at any depth, and tests look at the class of the exception only.", "anchors": ["include/common/exception.hpp: exception (13-31)", "include/common/value_impl.hpp: parse_integer, parse_floating (19-54), as_boolean ... as_object (494-666), as (683-729), to_variant_helper (1150-1159)", "include/common/value.hpp: value(enum_t) (82-95), conversion operators (483-531)", "include/common/array_impl.hpp: as (430-521)", "include/reflection/jsonization.hpp: loader (140-196)"]}
{"id": "C79", "title": "Converting a json::array or json::object is converting the value that holds it", "statement": "(T)arr and arr.as<T>() give what they give for json::value(arr), and likewise for json::object; when from_json of the user returns false the text has the size of the container. (T)std::move(arr) for a class with move_from_json takes the container only if it succeeds.", "quantifier": "every array and object, every type T the containers convert to, every class of the user", "why_tests_cant": "The containers have their own copies of the conversions; a difference shows only for particular types.", "anchors": ["include/common/array.hpp: conversion operators (234-278)", "include/common/object.hpp: conversion operators (165-209)", "include/common/array_impl.hpp: as (430-521)", "include/common/object_impl.hpp: as (340-370)"]}
{"id": "C80", "title": "Iterators of json::array and json::object", "statement": "begin(), end() and the reverse iterators visit the elements in order, the members in the order of the keys. An iterator can be used after other calls exactly if none of them ended it: for an array erase at or before its position, an append that moves the elements, clear, and for end() any append; for an object erase of its member and clear. Loops that erase leave exactly the elements to be kept if they step before they erase (object) or go by index (array); over iterators of an array such a loop is undefined once something is erased, and so is appending in a range-for.", "quantifier": "every array and object, every sequence of calls between making and using an iterator, every condition of the loop", "why_tests_cant": "An invalid iterator often still points at memory that holds the old element, so tests pass; whether the elements move depends on the capacity.", "anchors": ["include/common/array_impl.hpp: erase (160-176), emplace_back, push_back (177-188), begin ... crend (306-364)", "include/common/object_impl.hpp: erase (94-106), emplace, insert (108-119), begin ... cend (246-274)"]}
{"id": "C81", "title": "std::swap and reordering through moves", "statement": "std::swap and the algorithms built on it and on moves exchange exactly the values they are given, if none is part of another; swapping a value with itself changes nothing. Elements of an array keep their number and only change places, and every order can be reached. Nothing is allocated, thrown, shared or leaked; references to the places stay valid and references to parts go with the value.", "quantifier": "every store and heap, every set of places none of which is part of another, every sequence of swaps, every pattern of failing allocations", "why_tests_cant": "Self-swaps, swaps of elements of one container and swaps across containers alias in different ways, and a lost or shared part shows only when memory is freed.", "anchors": ["include/common/value_impl.hpp: value(value&&) (86), operator=(value&&) (854)", "include/common/array.hpp: iterator (25), operator[] (210-211)"]}
