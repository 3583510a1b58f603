#!/usr/bin/env python3
# Regenerates properties.jsonl (one JSON object per line).
import json, os
P = []
def p(id, title, statement, quantifier, why, anchors):
    P.append(dict(id=id, title=title, statement=statement, quantifier=quantifier, why_tests_cant=why, anchors=anchors))

PI='include/parser/parser_impl.hpp'; PB='include/parser/packed_bytes.hpp'; PX='include/parser/packed_bytes_x86.hpp'
PA='include/parser/packed_bytes_arm.hpp'; BO='include/parser/bitops.hpp'
VI='include/common/value_impl.hpp'; VH='include/common/value.hpp'; AI='include/common/array_impl.hpp'; OI='include/common/object_impl.hpp'
UT='include/common/utils.hpp'; ER='include/common/enum_reflection.hpp'; JZ='include/reflection/jsonization.hpp'

p('C01','Parsing never reads outside the input buffer',
  'json::parse and json::parsec, on any byte buffer, never dereference or advance the cursor at or past the end of the buffer and never load a vector block that extends past it.',
  'every byte string, both modes (JSON, JSONC), every block-scan backend (none, 4-byte, 8-byte, SSE, AVX2, NEON; either endianness)',
  'An out-of-bounds read shows only on particular truncations of particular inputs; there are infinitely many.',
  [PI+': parse, parse_value, parse_number, parse_stdstring, skip_unicode_escape, skip_string_literal_with_accel, skip_whitespace, skip_comment, skip_digit'])
p('C02','Parsing always terminates, with call depth bounded by the input length',
  'Every call of json::parse / json::parsec returns after finitely many loop iterations, and the nesting depth of parser calls never exceeds the number of bytes of the input.',
  'every byte string, both modes, every backend','Non-termination or unbounded recursion can hide in any input; testing samples finitely many.',
  [PI+': parse, parse_array, parse_object, skip_whitespace'])
p('C03','Every RFC 8259 text with an array or object root is accepted and denotes the right value',
  'If a text is an RFC 8259 JSON text whose root is an array or object, with no duplicate member names within an object and no unpaired surrogate escapes, json::parse returns the value it denotes: numbers keep their exact spelling, strings are decoded to UTF-8, arrays keep order, objects map each name to its value.',
  'every RFC 8259 text (any length, any nesting)','The language is infinite and recursive.',
  [PI+': parse, parse_value, parse_array, parse_object, parse_number, parse_stdstring'])
p('C04','Only JSON texts are accepted',
  'If json::parse returns a value then the text is an RFC 8259 JSON text (and the value is the one it denotes). The exact accepted language is established; where it is larger than RFC 8259 that is shown by a concrete text.',
  'every byte string','Rejecting every one of infinitely many malformed inputs cannot be tested exhaustively.',
  [PI+': parse (line 41), skip_whitespace, parse_stdstring'])
p('C05','Objects with a repeated member name are rejected',
  'A text in which some object (at any depth) has two members whose decoded names are equal is never accepted.',
  'every byte string, both modes, every backend','Depends on name equality after escape decoding, at any depth.',
  [PI+': parse_object (line 280)'])
p('C06','JSONC: comments and one trailing comma are accepted wherever white space is, and do not change the value',
  'json::parsec accepts every text of the JSONC grammar (RFC 8259 plus // and /* */ comments as white space plus one trailing comma before ] or }) with array/object root and returns the value of the text with comments and trailing commas ignored.',
  'every text of the JSONC grammar','Infinite recursive language.',
  [PI+': skip_whitespace, skip_comment, parse_array, parse_object'])
p('C07','Only JSONC texts are accepted by parsec',
  'If json::parsec returns a value then the text is a JSONC text up to the trailing-garbage behaviour stated exactly; the exact accepted language is established.',
  'every byte string','Infinite input space.',[PI+': parse, skip_whitespace, skip_comment'])
p('C08','parsec is a conservative extension of parse',
  'Every text json::parse accepts is accepted by json::parsec with the same value.',
  'every byte string','Infinite input space.',[PI+': parse, skip_whitespace'])
p('C09','Unicode escapes decode to the UTF-8 of the denoted code point, and unpaired surrogates are rejected',
  'In an accepted string literal every \\uXXXX outside the surrogate range yields the UTF-8 encoding of that code point, a high surrogate escape immediately followed by a low surrogate escape yields the UTF-8 encoding of the combined code point, and a literal with any other surrogate escape is rejected.',
  'every string literal','2^16 escapes, 2^20 pairs, in arbitrary contexts.',
  [PI+': parse_stdstring, skip_unicode_escape'])
p('C10','The result of parsing does not depend on the block-scan backend',
  'For every input, json::parse and json::parsec return the same result whichever vector/word backend (none, 32-bit, 64-bit, SSE, AVX2, NEON, either endianness) the library was compiled with.',
  'every byte string, every pair of backends','A test binary contains one backend; divergences depend on block alignment.',
  [PI+': parse_stdstring (318-322), skip_string_literal_with_accel', PB, PX, PA])
p('C11','Block scans never skip a byte that needs attention',
  'Each backend, given a block, reports "nothing special" only if the block has no byte < 0x20, no quote and no backslash; otherwise the index it reports is within the block and no special byte lies before it. On little-endian words and on SIMD backends the index is exactly that of the first special byte.',
  'every block content (2^32 .. 2^256 blocks), each backend','Block space too large to enumerate.',
  [PB+': packed_bytes_trait_uint64, packed_bytes_trait_uint32', PX+': packed_bytes_trait_sse, packed_bytes_trait_avx2', PA, BO])
p('C12','Raw control characters inside string literals are rejected',
  'No accepted text contains a byte below 0x20 inside a string literal.',
  'every byte string, both modes, every backend','Position and alignment dependent.',[PI+': parse_stdstring'])
p('C13','Parsing preserves UTF-8 validity',
  'If the input is valid UTF-8 then every string and member name in the parsed value is valid UTF-8.',
  'every valid UTF-8 text','Infinite input space; interaction of escapes with multi-byte sequences.',[PI+': parse_stdstring, skip_unicode_escape'])
p('C14','Serialization output is clean UTF-8',
  'If every string in a value is valid UTF-8 then dumps() and format() output is valid UTF-8; dumps() output contains no byte below 0x20, and format() none except newlines.',
  'every value','Unbounded values.',[UT+': append_escaped_string', VI+': dump_to, format_to', AI, OI])
p('C15','Compact round trip','For every array or object value v built from well-formed parts, json::parse(v.dumps()) returns a value equal to v (also parsec, and every backend).',
  'every array/object value (any depth, any byte strings, any number spellings)','Unbounded values.',
  [VI+': to_string, dump_to', AI+': dump_to', OI+': dump_to', UT+': append_escaped_string', PI])
p('C16','Pretty-printed round trip','For every array or object value v and every indent n, json::parse(v.format(n)) returns a value equal to v.',
  'every array/object value and every indent','Unbounded values.',[VI+': format_to', AI+': format_to', OI+': format_to', PI])
p('C17','Pretty and compact output differ only in insignificant white space',
  'Removing the white space outside string literals from v.format(n) gives exactly v.dumps().','every value and indent','Unbounded values.',
  [VI+': dump_to, format_to', AI, OI])
p('C18','Serialization is canonical','Two well-formed values are equal exactly when their dumps() texts are equal; in particular the text of an object does not depend on the order in which its members were inserted.',
  'every pair of values','Unbounded values.',[VI+': dump_to, operator==', OI+': dump_to, operator==, emplace'])
p('C19','Truncated documents are rejected','Every proper prefix of v.dumps() or v.format(n), for an array or object v, is rejected by parse and parsec (so a write cut short at any byte is detected on reading).',
  'every value, every truncation point (crash point)','Every crash point of every document.',[PI+': parse', VI+': dump_to'])
p('C20','Numbers: exactly the RFC 8259 number grammar, kept verbatim',
  'A number token inside an accepted text matches the RFC 8259 number grammar (no leading zeros, digits after point and exponent) and the value keeps its spelling byte for byte; every such spelling is accepted.',
  'every number spelling','Infinite language.',[PI+': parse_number, skip_digit'])
p('C21','Serialized output is always JSON','dumps() of every value reachable through the public constructors is an RFC 8259 text (as a value; as a document if array/object).',
  'every value built by any sequence of constructors and mutators','Unbounded values.',[VI+': constructors, dump_to', VH+': value(value_type, args...)', UT+': to_basic_string'])
p('C22','String escaping is lossless for all byte strings','Escaping a byte string and parsing the quoted result gives back the byte string; distinct strings have distinct escapes; the escaped text contains no raw quote, backslash (except as escape introducer) or control byte.',
  'every byte string','Infinite input space.',[UT+': append_escaped_string, escape_string, hex_digit'])
p('C23','object behaves as a finite map with sorted iteration','Under any sequence of emplace/insert/operator[]/erase/clear/merge, an object answers contains/find/at/size/empty like a mathematical finite map and iterates its keys in strictly increasing byte order.',
  'every operation sequence','All histories.',[OI+': emplace, insert, erase(key), erase(iterator), clear, operator[], contains, find_value, at'])
p('C24','array behaves as a sequence','Under any sequence of push_back/emplace_back/erase/clear/concatenation an array answers size/contains/at/find/iteration like a mathematical sequence; erase out of range returns false and changes nothing.',
  'every operation sequence','All histories.',[AI+': emplace_back, erase, clear, contains, at, find_value, operator+='])
p('C25','Merge and concatenation laws','a|b maps each key to b\'s value if b has it, else a\'s; | is associative and has {} as identity; |= and every overload agree with |; array + is concatenation and all overloads agree.',
  'all objects / arrays','Unbounded.',[OI+': operator|, operator|=, merge_object, merge_object_move', AI+': operator+, operator+=', VI+': operator|, operator+'])
p('C26','No public operation sequence breaks the type tag / payload agreement','Starting from constructed values, any sequence of public mutators (assignment, copy, as_array/as_object, [] , emplace, erase, clear, |=, +=, |, +) leaves every value whose contents were not moved away with a payload that matches its type tag, and no such operation has undefined behaviour except out-of-range operator[](size_t).',
  'every history of operations on any set of values','All histories.',[VI+': as_array, as_object, operator=, emplace, erase, clear, operator[], operator|=, operator+=, operator|, operator+, deep_copy'])
p('C27','Lookups agree and never modify','contains(k), find(k), find_value(k), exists(k) and at(k) agree on presence for objects and arrays and on wrong types (false / nullopt / throw), for every value.',
  'every value and key','Unbounded.',[VI+': contains, exists, find_value, find, at', AI, OI])
p('C28','get(path..., default) returns the value at the path or the default, and never throws','For every value, path and default of type T: get returns as<T>() of the value at that path if the path exists and is<T>() holds there; otherwise the default. It never throws and never has undefined behaviour.',
  'every value, path, default and target type','Unbounded.',[VI+': get, get_helper', AI+': get_helper', OI+': get_helper', UT+': json_value_or_default, default_or_string'])
p('C29','is<T>() is an exact test for as<T>()','For every supported target type T and every value v: v.is<T>() holds exactly when v.as<T>() returns normally.',
  'every value and every type built from the supported type constructors','Types and values are both unbounded.',[VI+': is, as, to_variant_helper', VH+': conversion operators', AI+': as', OI+': as'])
p('C30','Integer conversions never wrap or round','as_integer/as_unsigned/as_long/... return the mathematical value of the number exactly when its spelling is an optionally signed (sign only for signed types) digit string whose value fits the type; otherwise they throw.',
  'every number spelling, every integer type','2^64 values and infinite spellings.',[VI+': try_parse_integer, parse_integer, as_integer ... as_unsigned_long_long'])
p('C31','Integers survive a round trip','For every integer n of every supported integer type, value(n) converts back to n, also after dumps and parse.',
  'every integer of every supported type','2^64 values.',[VI+': value(int) ... value(unsigned long long)', UT+': to_basic_string'])
p('C32','Native C++ data survives conversion to JSON and back','For data of types built from bool, integers, strings, vectors, fixed arrays, tuples, string-keyed maps and optionals of non-null-able types: is<T>(value(x)) holds and as<T>(value(x)) == x.',
  'every type in the universe and every datum of it','Unbounded types and data.',[VH+': constructors, conversion operators', AI, OI])
p('C33','MEO_JSONIZATION round trip and field rules','For a struct with distinct effective keys: from_json(to_json(x)) succeeds and yields x; a missing required field or a field of the wrong type fails and error_key names the first such field; a missing MEO_OPT field keeps its default; MEO_KEY renames the key in all three functions.',
  'every field list, every struct datum, every JSON value','Unbounded.',[JZ+': dumper, checker, loader, MEO_JSONIZATION, MEO_OPT, MEO_KEY'])
p('C34','A failed from_json leaves the target unchanged','If from_json returns false the struct still has the value it had before the call.',
  'every struct and JSON value','Unbounded.',[JZ+': loader::_from_json'])
p('C35','Enum names round trip','For every enumerator in the reflection range, converting it to a value and back gives the same enumerator; string conversion is case-insensitive (ASCII) and picks an enumerator exactly when some name matches.',
  'every enum declaration and enumerator','Unbounded declarations.',[ER+': enum_to_string, string_to_enum, iequals, enum_range, get_enum_names', VH+': value(enum_t), operator enum_t'])
p('C36','Equality is structural','On valid values operator== is an equivalence relation that holds exactly when type and contents agree; operator!= is its negation; it never throws on values without invalid parts.',
  'all pairs/triples of values','Unbounded.',[VI+': operator==, operator!=', AI+': operator==', OI+': operator=='])
p('C37','Copies are deep','After copying a value, no mutation performed through one copy (at any depth) is observable through the other, and the copy equals the original.',
  'every value and every mutation history','All histories.',[VI+': value(const value&), deep_copy, operator=(const value&)'])
p('C38','Assigning a value from a part of itself is safe','v = v[k] and v = std::move(v[k]) both leave v equal to the former child and have no undefined behaviour.',
  'every value and path','Aliasing depends on heap shape.',[VI+': operator=(const value&), operator=(value&&)'])
p('C39','Allocation failure leaves values usable','If an allocation fails at any point during copy-assignment, as_array(), as_object() or operator[], the value remains in a state whose type tag matches its payload.',
  'every allocation-failure point','All crash points.',[VI+': operator=(const value&), as_array, as_object, operator[]'])
p('C40','Byte-order mark handling','parse(stream, check_bom=true) on a BOM followed by text s gives parse(s); text without BOM is unaffected; exactly one BOM is removed; with check_bom=false a text starting with a BOM is rejected.',
  'every stream content','Infinite input space.',[PI+': parse(std::istream&, bool, bool)'])
p('C41','Floating-point values serialize to JSON numbers','value(x) for a floating-point x serializes to an RFC 8259 number, for every x.',
  'all floating-point values','2^64 values (and 80/128-bit).',[UT+': to_basic_string', VI+': value(float), value(double), value(long double)'])
p('C42','Parsing uses bounded stack','There is a stack depth that suffices to parse every input.',
  'every input','Needs arbitrarily deep inputs.',[PI+': parse_value, parse_array, parse_object'])
p('C43','Conversion does not depend on value category','(T)v and (T)std::move(v) give the same result (value or exception) for every value v and container type T.',
  'every value and type','Unbounded.',[VH+': operator T() const&, operator T() &&', VI+': as_array(), as_object()'])
p('C44','Variants convert to the first matching alternative','as<std::variant<Ts...>> yields the first alternative whose is<Ti>() holds, and throws if none does; converting a variant to JSON and back yields the original when no earlier alternative accepts its JSON.',
  'every alternative list and value','Unbounded.',[VI+': to_variant_helper, is_variant_helper, value(std::variant)'])
p('C45','An operation that reports failure changes nothing','erase(k) returning false leaves the value unchanged; a throwing as_array()/as_object()/operator[] leaves the value unchanged.',
  'every value and key','Unbounded.',[VI+': erase, as_array, as_object, operator[]'])
p('C46','Parsing a C string equals parsing the bytes before its terminator; literals','parse(const char*) equals parse of the bytes before the first NUL; the _json/_jvalue/_jarray/_jobject literals return the parsed value, or null/empty array/empty object on failure or type mismatch.',
  'every C string / literal','Infinite input space.',[PI+': parse(const char*), parsec(const char*), literals'])
p('C47','The parser only produces well-formed values','Every value returned by parse/parsec has, at every depth, a type tag matching its payload, strictly sorted distinct keys, no invalid part, and number texts matching the RFC grammar.',
  'every byte string','Infinite input space.',[PI+': parse'])
p('C48','Reading a stream never throws',
  'parse(std::istream&) and open(path) report every failure (unopenable file, unreadable stream, malformed text) by nullopt, without throwing.',
  'every stream, both modes, both BOM options','Depends on stream states a test has to construct deliberately.',
  [PI+': parse(std::istream&, bool, bool) (610-632), open (634-644)'])
p('C49','Building a value from a variable leaves the variable unchanged',
  'Constructing a json::value from an lvalue of a supported C++ type (directly or inside a container or struct) does not modify the source object.',
  'every type built from the supported type constructors and every object of it','Needs every nesting of wrappers, containers and value categories.',
  [VH+': value(const wrapper_t&), value(wrapper_t&&) (118-148)', VI+': value(std::variant)', AI+': constructors', JZ+': dumper'])
p('C50','Converting an enumeration to JSON gives its own name or an exception',
  'value(e) for an enumeration object e is the name declared for that value, or throws json::exception; it is never the name of another value and never undefined behaviour.',
  'every enum declaration and every value of its underlying type','2^64 values and unboundedly many declarations.',
  [VH+': value(enum_t)', ER+': enum_to_string, enum_name_storage'])
p('C51','Floating-point numbers survive a round trip',
  'as_float/as_double/as_long_double of value(x) is x for every finite floating-point x.',
  'all finite values of float, double and long double','2^64 doubles; more for long double.',
  [UT+': to_basic_string (477-491)', VI+': value(float), value(double), value(long double) (130-152), parse_floating (31-56), as_float, as_double, as_long_double (572-600)'])
p('C52','Reading a number gives the nearest floating-point number',
  'as_float/as_double/as_long_double of an RFC 8259 number text gives a floating-point number nearest to the number it denotes, and throws only if that number is too large for the type.',
  'every RFC 8259 number text','Infinitely many texts, of any length.',
  [VI+': parse_floating (31-56), as_float, as_double, as_long_double (572-600)'])
p('C53','No use after free, double free or leak',
  'No sequence of operations on values (constructors, copies, moves, assignments, insertions, removals, merges, conversions to containers), in which every reference names an existing value, uses freed memory, frees memory twice or loses memory; when all variables are destroyed, all memory has been freed, also if allocations fail on the way.',
  'every finite history of operations, every heap, every pattern of allocation failures','All histories and all aliasing patterns; leaks and dangling pointers are invisible to assertions.',
  [VI+': value(const value&), operator=, deep_copy, as_array, as_object, operator[], emplace, erase, clear, operator|=, operator+=', OI+': merge_object, merge_object_move', AI+': append_array, append_array_move'])
p('C54','Pretty printing lays the compact text out line by line',
  'The text of dumps(n) is the text of dumps() with a line break after every opening bracket and comma, a line break before the closing bracket of a container that is not empty, a blank after every colon, and n blanks per open container at the start of every line; nothing inside string literals is touched.',
  'every well-formed value, every indentation n with n times the nesting depth below 2^64','Layout of unboundedly many nested values.',
  [VI+': dumps, format, to_string', AI+': format, dumps', OI+': format, dumps'])
p('C55','Calls that need a container turn an empty value into one, act on its contents, and throw on every other value without changing it',
  'as_array, as_object, emplace, erase, operator[], operator|=, operator+= and the rvalue overloads of | and +, on a value: null, the empty string and the empty container of the other kind act as an empty container of the kind needed; on a container of the kind the call has exactly the effect of the operation on its sequence or map and returns what it should; on any other value json::exception is thrown and the value is unchanged. clear() leaves null.',
  'every value (nothing moved away), every key, position and argument','All values of unbounded size, combined with all operations.',
  [VI+': as_array, as_object, emplace, erase, clear, operator[], operator|, operator+, operator|=, operator+=, empty'])
p('C56','Each statement changes exactly what it names',
  'Construction, assignment, emplace, |=, +=, |, + and the other calls, with temporaries, lvalues or rvalues as arguments: the named value gets exactly the described new content, a value moved from is left empty with its type tag, elements are appended at the end, members are set or overwritten, and everything else in the program state keeps its value. The operands may overlap where the library supports it (v = v[k], v.emplace(v[0]), v.emplace(k, v)).',
  'every program state, every location at any depth, every expression','All states and all aliasing patterns.',
  [VI+': value(const value&), value(value&&), operator=, emplace, operator|=, operator+=, operator|, operator+', AI+': array(std::initializer_list), append_array, append_array_move', OI+': object(std::initializer_list), emplace, merge_object, merge_object_move'])
p('C57','Functions declared noexcept do not throw',
  'value::empty, is<T>, type_name and value_info, all noexcept or used while an exception is being made, return normally for every value.',
  'every value, every type T, every compiler the enumeration reflection supports','An exception leaving a noexcept function ends the program, and needs values in states that no test constructs.',
  [VI+': empty, is, type_name, value_info (367-405)', VH+': value (33-52, 313-346)'])
p('C58','Descriptions of values in error messages are accurate',
  'type_name is the name of the type tag; value_info is type= and that name, followed by the serialised scalar (at most 100 bytes, then three dots) or by the number of elements of a container; it never throws and is valid UTF-8 when the strings are.',
  'every value','Unbounded.',[VI+': type_name (367-371), value_info (373-405)', ER+': name, enum_to_string'])
p('C59','Native data written as text is read back unchanged',
  'For every supported C++ type T and object x of it: the text of value(x), compact or indented, parses (by parse or parsec, on any backend) to a value for which is<T>() holds and as<T>() gives x.',
  'every type of the universe (nested containers, structs, enumerations, numbers), every object of it','The composition of reflection, number formatting, escaping, layout, parsing and conversion, over unboundedly many types.',
  [VI+': value constructors, dumps, format, is, as', PI+': parse, parsec', JZ+': dumper, checker, loader'])
p('C60','Reading an array into a set keeps one of each kind of element, into a multiset all of them',
  'as<C>() for a set C succeeds exactly when as<std::vector<T>>() does. std::set is sorted and holds, of each class of equivalent elements, the first one, and nothing else. std::multiset is sorted and holds all elements, equivalent ones in the order of the array. std::unordered_set holds the first of each class of equal elements, std::unordered_multiset all elements, in some order.',
  'every value, every element type, every comparison that is a strict weak order on the elements, every equality and hash function','All arrays, all orders, all hash functions.',
  [VH+': operator T() const& (603-630)', 'include/common/array.hpp: conversion operator', AI+': as'])
p('C61','Wide strings are parsed like the same text in UTF-8',
  'json::parse and json::parsec on std::wstring or std::u32string have a defined outcome for every content, and it is the outcome for the UTF-8 encoding of the text in a std::string.',
  'every sequence of code units, both grammars','Code points outside the ones tried; casts to unsigned char that act differently per code unit.',
  [PI+': parse_stdstring, parse_number, skip_digit, skip_unicode_escape', 'include/parser/parser.hpp:19-22'])
p('C62','A std::deque<char> is parsed like the same text in a std::string',
  'json::parse on a std::deque<char> has a defined outcome, the one for the same characters in a std::string.',
  'every content, position of the first character in its node, and backend','The block scan reads past the end of a node only for long texts at particular positions, and usually without a visible fault.',
  [PI+': skip_string_literal_with_accel (464-488), parse_stdstring (318-322)'])
p('C63','MEO_JSONIZATION treats every member once, in order, with its own tags',
  'A call of MEO_JSONIZATION (MEO_TOJSON, MEO_CHECKJSON, MEO_FROMJSON) compiles exactly when it lists members, each preceded by any MEO_OPT and MEO_KEY, with at most 64 members and tags in all; the to_json, check_json and from_json it writes act on the listed members in order, a tag affects the member it precedes and no other, and other members are left alone.',
  'every sequence of macro arguments, every struct, every JSON value','64 nested macros and recursive overload sets over argument packs of any length and mix of tags.',
  [JZ+': _MEOJSON_FOR_EACH, _MEOJSON_ARG_COUNT, _MEOJSON_KEY_VALUE (206-425), MEO_TOJSON ... MEO_KEY (428-472), dumper, checker, loader (47-196)'])
p('C64','Construction, is<T>() and as<T>() take a C++ type for the same thing',
  'For every C++ type T: json::value(x) is not ambiguous; the constructor that overload resolution selects, the branch is<T>() takes and the conversion as<T>() or a cast selects treat T as the same kind of thing (null, boolean, number, text, enumeration, wrapper, variant, sequence, fixed array, tuple, map, class with functions of the user), and the value made, or accepted, has the JSON type of that kind.',
  'every description of a C++ type by the traits and members the library looks at, every value category','Users write any number of types, each with any mix of features; overload resolution among some thirty constrained constructors and operators decides at compile time.',
  [VH+': constructors (45-306), conversion operators (451-648)', VI+': is, as, emplace', UT+': traits (23-217)'])
p('C65','What value hands to array and object is taken by the matching constructor or conversion',
  'When a constructor of value for sequences, fixed arrays, tuples or maps is selected for x, the constructor of array or object it delegates to is the one for the same kind and the same copy or move form; when a conversion of value goes through as_array() or as_object(), array::as or object::as has a branch for T, so no static_assert fails inside the library.',
  'every description of a C++ type, every value category','Two overload sets have to agree on every type and category.',
  [VH+': constructors (160-296), conversion operators (560-648)', 'include/common/array.hpp: constructors', 'include/common/object.hpp: constructors', AI+': as', OI+': as'])
p('C66','Parsing takes time in proportion to the text, serialization in proportion to the value, and nothing read or written is much larger than its source',
  'Parsing n bytes does O(n log n) work (linear but for the insertions of member names into std::map), whatever the text; writing a value does work linear in its size, plus indentation; the value read has no more nodes, members and string bytes together than the text has bytes; the text written for a value is at most eight times its size, plus indentation.',
  'every byte string, both grammars, every backend; every value','A bad case for a parser (repeated scanning, copying of partial results) is a family of inputs; timing a few of them shows nothing about the others.',
  [PI+': all functions', UT+': append_escaped_string', VI+': dump_to, format_to', AI+': dump_to, format_to', OI+': dump_to, format_to'])
p('C67','Converting an rvalue leaves its source usable',
  'After (T)std::move(v), whether it returns or throws, v can still be read, compared, copied and destroyed; a conversion that throws leaves v as it was, or, if elements are moved out, has stopped at the first element that cannot be converted, with those behind it untouched and none lost; after a conversion to a sequence, set, fixed array or tuple v is an empty array.',
  'every type T, every value, every behaviour of move_from_json functions','Which elements were moved when an exception stops the loop depends on the type, the position and the content; moved-from containers are null pointers that show only when the source is used again.',
  [VH+': operator T() && (522-648)', VI+': as && (706-729), move_to_variant_helper (1161-1168)', AI+': as && (475-550)', OI+': as && (355-370)'])
p('C68','Parsing leaks nothing, also when memory runs out',
  'Whatever allocations fail while parse, parsec, open or a literal runs: either the value of the document is built and everything else is freed, or the text is rejected or std::bad_alloc (std::length_error for a stream without positions) is thrown and everything that had been built is freed; no other value is changed.',
  'every input, every backend, both modes, every heap of values, every pattern of failing allocations','A test would have to fail every single allocation of every input in turn and count the live blocks.',
  [PI+': parse (17-46), parse_value (48-78), parse_array (173-228), parse_object (230-301), parse(istream) (610-632), open (634-644), literals (657-680)', AI+': array(collection_t&&) (89-102)', OI+': object(map_t&&) (50-62)'])
p('C69','A value inserted into a stream is its formatted text, and can be read back',
  'out << v appends exactly v.format(), padded to the field width of the stream, and resets the width; the stream stays good if and only if its buffer took all of it; an exception of format() leaves the stream alone; the content of a stream on which one well-formed array or object was written is read back as that value, and if the write was cut short it is rejected.',
  'every value, every state, width, fill, adjustment and capacity of the stream','Field width and fill are sticky properties of the stream set elsewhere; a full buffer can cut the text at any byte.',
  [VI+': operator<< (1122-1126)', AI+': operator<< (424-428)', OI+': operator<< (334-338)', VH+': format (413)'])
p('C70','Reading a stream depends on nothing but the text it delivers',
  'parse(istream&) reads a stream that can be sought from start to end wherever it stands, leaves it usable, and gives the same outcome when called again; bytes that the stream announces but does not deliver (text mode, a file cut meanwhile) do not change the outcome; CR LF and LF are the same; a file written in text or binary mode is read back in either mode.',
  'every text, every position and state of the stream, every size announced, every backend','The buffer is sized by tellg and filled by read, which may deliver less; what is left in it is NUL bytes, seen only on platforms with text mode or when files change.',
  [PI+': parse(istream) (610-632), open (634-644), skip_whitespace (490-519), parse (17-46)'])
p('C71','Every recursive function goes exactly as deep as the value is nested',
  'dump, format, the copy, the comparison of equal values, the destructor and the parser need as many nested activations as the value has levels, no more and no fewer; so a value read within a given stack can be serialized, copied, compared and destroyed within the same number of levels, a text written can be read within the height of the value, and a value made of C++ data without json types inside is nested no deeper than its type. No stack is enough for all values.',
  'every value, every text, every number of levels, every indentation, backend and C++ type','How deep a stack goes is a matter of the build; a test shows that one nesting on one platform works or crashes, not that one function needs more than another.',
  [PI+': parse_value (48-78), parse_array (173-228), parse_object (230-301)', VI+': dump_to, format_to (769-820), copy (80-84, 1102-1120), operator== (856-876), ~value (206)', AI+': dump_to, format_to', OI+': dump_to, format_to'])
p('C72','Making a value of C++ data leaks nothing, also when memory runs out',
  'Whatever allocations fail while a value is made of C++ data, by a constructor, x = data, x.emplace(data), x.emplace(key, data) or x[key] = data: either the value of the data is made and put where it belongs, or what the conversion throws or std::bad_alloc is thrown, everything that had been built is freed, no member or element has been added, and no other value is changed.',
  'every C++ type of the conversions and its data, every heap of values, every target, every pattern of failing allocations and every exception of the conversions','A test would have to fail every single allocation of every conversion in turn and count the live blocks.',
  [VI+': value constructors (72-204), operator=, emplace (741-755), operator[]', AI+': array constructors (45-102), construct_from_tuple_helper (523-528), emplace_back', OI+': object constructors (41-62), emplace (108-119)', JZ+': dumper (47-82)'])
p('C73','Programs that use different variables do not influence each other',
 'What a statement does, and whether it throws, depends on nothing but the contents of the variables it names, and it changes no other variable; on the heap it touches no node of another variable. Hence threads that share only variables that none of them changes each do, however their statements take turns, what they would do alone.',
 'for all stores and heaps, all statements, any number of threads running any programs, all ways of taking turns',
 'Tests run one interleaving on few variables, and an access to another variable rarely shows.',
 [VI+': copy and move (80-86, 846-854, 1102-1120), emplace (741-755), operator| and + (1007-1093), operator[] (980-1005)', AI+': append_array (9-19)', OI+': merge_object (9-21), emplace (108-119)', VH+': _type, _raw_data (671-672)'])
p('C74','Serialization and value_info give the whole text or none when memory runs out',
 'Whatever requests for memory fail: to_string, format and dumps return the text they return with unlimited memory, or throw std::bad_alloc, and that only if a request failed, or std::length_error, and that only if the text is longer than a std::string can be; operator<< then writes nothing. All of them stop at the first request that fails. value_info, which is noexcept, returns its text or, if memory ran out, the type alone.',
 'every value, every indentation, every pattern of failing allocations, every maximal size of std::string',
 'A test would have to fail every single request of every value in turn.',
 [VI+': dump_to, format_to, dumps (762-831), type_name, value_info (367-405), operator<< (1122-1126)', AI+': dump_to, format_to, dumps (195-245)', OI+': dump_to, format_to, dumps (121-182)', UT+': append_escaped_string (394-444)'])
p('C75','Conversions give the right answer or none when memory runs out',
 'Whatever requests for memory fail: is<T>() returns the answer it returns with unlimited memory, as<T>() const&, find<T> and get return or throw what they would or throw std::bad_alloc, and from_json into an object then has given new values to a first part of its members and left the others alone. None of them goes on after a request that failed. No reading function ends the program.',
 'every type T of the conversions, every value, every pattern of failing allocations, every capacity of a std::string without allocation',
 'is<T>() is noexcept, so an allocation inside ends the program; whether one takes place depends on the lengths of member names and on the standard library.',
 [VI+': is (259-340), is_tuple_helper, is_variant_helper (668-679), as (681-705), find, get', AI+': as (430-473)', OI+': as (340-353)', JZ+': checker (84-138), loader (140-196)', UT+': default_or_string, json_value_or_default (147-171)'])
p('C76','References held across calls stay valid',
  'A reference to a value (a variable, an element, a member, at any depth) taken before a call still refers to the same value in memory after the call returns, unless the call assigns to or moves from a value around it, erases or clears it or an element before it, or makes the vector that holds it longer. In particular operator[] and emplace of other keys, |= with other keys, copies, queries and erasures of other members keep it. After a call that throws, other than std::bad_alloc, every reference is kept, except those to parts of a value that std::move inside the braces of the argument names. Assigning to a value does end the references to its parts.',
  'every heap whose values have the tags and member names programs give them, every command with any aliasing, every path; every program of commands that return or throw and read nothing moved away',
  'A dangling reference usually still reads the right bytes; which calls end which references is a statement about all of them.',
  [VI+': operator= (846-854), operator[] (973-1005), emplace (741-755), erase (417-425), operator|= and += (1039-1093)', AI+': erase (160-176), emplace_back, operator+= (402-414)', OI+': erase (94-107), emplace (108-119), operator[] (276-285), operator|= (312-322)', VH+': move constructor and assignment noexcept (51, 416)'])
p('C77','A conversion of an rvalue that runs out of memory loses nothing',
  'Whatever requests for memory fail: std::move(v).as<T>() and (T)std::move(v) give the result they give with unlimited memory and leave of the source what they leave then; or they throw std::bad_alloc, and then the source is as it was before the call, and nothing was done after the request that failed.',
  'every type T of the conversions, every value, every pattern of failing allocations, every move_from_json of the user',
  'The source of a move is rarely looked at afterwards, and every single request would have to fail in turn.',
  [VH+': conversion operators && (522-648)', VI+': as && (706-729), as_array, as_object (640-666), move_to_variant_helper (1161-1169)', AI+': as && (475-521), move_as_tuple_helper (545-550)', OI+': as && (355-370)'])
p('C78','The text of a failed conversion says what is wrong and where',
  'When v.as<T>() throws json::exception, what() names the type that was asked for and describes the part of the source that has not the kind or the form the text says it should have. The text is short, what() shows all of it, and from it one can tell the element, the field and the number. This holds for the source of a move as well.',
  'every type T of the conversions, every value, every enumeration and every class of the user',
  'There are as many texts as pairs of a type and a wrong value at any depth, and tests look at the class of the exception only.',
  ['include/common/exception.hpp: exception (13-31)', VI+': parse_integer, parse_floating (19-54), as_boolean ... as_object (494-666), as (683-729), to_variant_helper (1150-1159)', VH+': value(enum_t) (82-95), conversion operators (483-531)', AI+': as (430-521)', JZ+': loader (140-196)'])
p('C79','Converting a json::array or json::object is converting the value that holds it',
  '(T)arr and arr.as<T>() give what they give for json::value(arr), and likewise for json::object; when from_json of the user returns false the text has the size of the container. (T)std::move(arr) for a class with move_from_json takes the container only if it succeeds.',
  'every array and object, every type T the containers convert to, every class of the user',
  'The containers have their own copies of the conversions; a difference shows only for particular types.',
  ['include/common/array.hpp: conversion operators (234-278)', 'include/common/object.hpp: conversion operators (165-209)', AI+': as (430-521)', OI+': as (340-370)'])
p('C80','Iterators of json::array and json::object',
  'begin(), end() and the reverse iterators visit the elements in order, the members in the order of the keys. An iterator can be used after other calls exactly if none of them ended it: for an array erase at or before its position, an append that moves the elements, clear, and for end() any append; for an object erase of its member and clear. Loops that erase leave exactly the elements to be kept if they step before they erase (object) or go by index (array); over iterators of an array such a loop is undefined once something is erased, and so is appending in a range-for.',
  'every array and object, every sequence of calls between making and using an iterator, every condition of the loop',
  'An invalid iterator often still points at memory that holds the old element, so tests pass; whether the elements move depends on the capacity.',
  [AI+': erase (160-176), emplace_back, push_back (177-188), begin ... crend (306-364)', OI+': erase (94-106), emplace, insert (108-119), begin ... cend (246-274)'])
p('C81','std::swap and reordering through moves',
  'std::swap and the algorithms built on it and on moves exchange exactly the values they are given, if none is part of another; swapping a value with itself changes nothing. Elements of an array keep their number and only change places, and every order can be reached. Nothing is allocated, thrown, shared or leaked; references to the places stay valid and references to parts go with the value.',
  'every store and heap, every set of places none of which is part of another, every sequence of swaps, every pattern of failing allocations',
  'Self-swaps, swaps of elements of one container and swaps across containers alias in different ways, and a lost or shared part shows only when memory is freed.',
  [VI+': value(value&&) (86), operator=(value&&) (854)', 'include/common/array.hpp: iterator (25), operator[] (210-211)'])
with open(os.path.join(os.path.dirname(__file__),'..','properties.jsonl'),'w') as f:
    for x in P: f.write(json.dumps(x, ensure_ascii=False)+'\n')
print(len(P))
