NOTES = {
'C02': 'Call depth counts recursive parse_value calls; termination of every loop is the absence of Fuel.',
'C04': 'Refuted as stated: [] followed by /x is accepted (skip_whitespace stops at a slash in strict mode and parse only checks that it stopped). Proved: the exact accepted language of every build (scalar, words of either byte order, vectors), and RFC 8259 up to text after a NUL or slash when surrogate escapes are adjacent.',
'C07': 'Refuted as stated: a malformed or unterminated comment after the root is accepted. Proved: the exact accepted language of every build (scalar, words of either byte order, vectors).',
'C08': 'Refuted as stated: strict mode stops at a slash behind the root, so a comment with more text behind it is accepted there and rejected when comments are allowed. Proved for every text without that, and exactly which texts differ (C08_exactly): those with something other than white space and comments behind the value, before the parser stops reading.',
'C09': 'Refuted as stated: a low surrogate may be separated from its high surrogate by other unicode escapes. Decoding of RFC literals, rejection of a lone low surrogate and of a high one never followed by a low one are proved in full.',
'C10': 'Refuted as stated for every vector/word backend against the scalar build. Proved when high surrogate escapes are directly followed by low ones, and which builds agree on every text: those of the same class (scalar, little-endian words, big-endian words of one size, vectors of one size).',
'C42': 'Refuted: recursion depth is unbounded; every stack budget d is exhausted by d+2 opening brackets. Proved: a budget of as many levels as the text opens brackets gives the result of the parser, for accepted and rejected texts, and one less is not always enough.',
'C48': 'Refuted: a stream on which seekg/tellg fail makes parse(istream&) throw std::length_error. Proved: no exception on seekable streams; a stream that cannot be sought is the only one that throws.',
'C21': 'Proved for every value reachable by a history of constructors and mutators whose number and raw literals are JSON texts, without assigning a value to a part of itself; if the history moves, for the values no part of which was moved from (no null pointer, no number or boolean without a text). Refuted for a number that was moved from (its text is empty) and for the public constructor value(value_type, args...), which accepts any text for any type.',
'C25': 'Proved for json::object and json::array and for value operands that hold an object or array. Refuted for value operators on an empty left operand that is not a container: the lvalue overloads throw, the rvalue overloads convert it.',
'C26': 'Refuted: v[k] = v (copy assignment from an enclosing value) leaves a value whose tag and payload disagree, exactly when v[k] had another type than v (C26_copy_into_part_exactly), and later operations throw bad_variant_access; v |= v[k].as_object(), exactly if that object has a member k (C26_merge_part_exactly), v |= v.as_object() for an empty v, and v += v.as_array() have undefined behaviour, always. Proved for all other histories: tags match (moves allowed), no bad_variant_access, and no undefined behaviour except the listed misuses: for programs without moves, and, after any history with moves, for a command that reads nothing that has been moved from (C26_moves_safe_partial).',
'C45': 'Refuted for erase on an empty value (null, empty string, the other empty container): it returns false and converts the value; C45_erase_false_exactly: these and no others. Proved otherwise.',
'C28': 'Proved for value::get, object::get, array::get and find<T>, any path depth, for every type whose is<T>() is exact, other than nullptr_t and (value::get) string_view. Refuted for: an optional default with null at the path (throws), a string_view default (the returned view refers to a dead temporary), a nullptr default (std::string(nullptr)); for these two exactly when (C28_view_dangles, C28_nullptr_never: a call with nullptr never returns). Integer keys are any 64-bit integers, signed or not; negative ones name nothing (arrays have fewer than 2^63 elements).',
'C29': 'Proved for all types built from json types, bool, integers, floating-point, strings, nullptr_t, monostate, pointers, vectors, arrays, tuples (not of one element), variants, maps, sets, enumerations with fixed underlying type other than bool, structs, and classes whose own from_json takes exactly what their check_json accepts. (as<T>() with a T of 8 or 16 bits, or an enumeration over one, does not compile; the theorem covers it all the same.) Refuted for std::optional (null), std::tuple<T>, enumerations over bool, enumerations without fixed underlying type. For std::optional and std::tuple<T> the values for which the two disagree are given exactly (C29_optional_exactly, C29_one_tuple_exactly). Floating-point parsing is an arbitrary function of the text.',
'C32': 'Proved for the stated universe except data with an empty std::optional inside and one-element tuples, both refuted: the converting constructors of std::optional and std::tuple win over the conversion operator of value. Both exactly: with an empty optional anywhere inside is<T>() says yes and the conversion throws (C32_native_exactly, also for structs); no one-element tuple ever comes back (C32_one_tuple_never). Also proved for pointers, variants, enumerations, structs, sets, json types and classes with their own conversion functions under their side conditions (faithful). Maps in any order of traversal give the same value; unordered sets come back with the same elements.',
'C33': 'Proved for members of types with exact is<T>() and data that survives conversion. Refuted for a std::optional member without value: to_json writes null, check_json accepts it, from_json throws; C33_native_exactly: that happens for every such object and for no other.',
'C34': 'Refuted: fields before the bad one are already assigned. The exact final state is C33_from_json_partial. Proved: unchanged if the first field is bad; from_json succeeds exactly when check_json does; a failing load leaves the target unchanged exactly if every field before the bad one is absent or already had what is loaded into it.',
'C35': 'Proved for enumerations with ASCII identifiers and an int reflection range, as GCC, Clang and MSVC print them (the shape of the printed text is assumed), whose main names do not differ by case only; aliases (MEOJSON_ENUM_RANGE at the end) are allowed and convert to the main name. Refuted for names that differ by case only (another enumerator comes back), for an alias declared after the main name (not recognised), and for a narrow enumeration whose enumerator lies outside the range (recognised by is<T>() and string_to_enum because the cast wraps, but not converted to text).',
'C43': 'Proved, for classes whose move_from_json does as their from_json, unless the value is empty and the conversion of the lvalue throws. Which types and values those are is proved exactly: a null, empty string or empty object where an array is wanted, a null, empty string or empty array where an object is, inside optionals, non-null pointers and one-element tuples. Refuted there: (std::vector<int>)std::move(null) is an empty vector, (std::vector<int>)null throws; the same for json::array and json::object.',
'C44': 'Proved for alternatives with exact is<T>() none of which json::value converts to implicitly, or several of which it does (json::value itself not being among them). Refuted otherwise: std::variant<int, json::value> from 5 holds a json::value (with json::value among the alternatives that is always so), std::variant<int, std::optional<json::value>> an optional (with exactly one alternative that is json::value inside optionals and one-element tuples, that one is always chosen).',
'C49': 'Refuted: value(wrapper_t&&) is a forwarding reference, so an lvalue std::optional<std::string>, shared_ptr or unique_ptr is moved from. Proved for types without wrappers (except const optional inside containers), and for const sources without a pointer to a wrapper. Which parts of an object of any type, named in any of the four ways, are moved from is characterised exactly (C49_moved_exactly, C49_rest_kept, C49_kept_iff).',
'C50': 'Refuted: signed overflow in enum_to_string for values near INT_MAX; 64-bit values are truncated to int and get the name of another enumerator. Proved when the value belongs to the type and it and its distance from the range minimum fit an int. With MEOJSON_ENUM_AS_NUMBER (C50_enum_numbers): the number, which comes back, except for enumerations over bool, which become a boolean that is<T>() accepts and as<T>() rejects.',
'C41': 'Proved for zeros, subnormal and normal numbers of every precision, in both builds, when the locales use a decimal point and do not group digits. Refuted for infinities and NaNs (text inf, nan: never a JSON number) and for a locale with a decimal comma (the array [1.5, 2] is written with 1,500000 and read back with three elements). Refuted with MEOJSON_KEEP_FLOATING_PRECISION for a global C++ locale that separates thousands: 1234.5 becomes 1,234.5, two elements of an array; proved for these locales: the digits before the point come in groups of the sizes of the locale, nothing else changes, and the text without its separators is a JSON number.',
'C51': 'Proved with MEOJSON_KEEP_FLOATING_PRECISION for zeros and normal numbers; proved for the default build up to 10^-6 (six digits after the point). Refuted: the default build turns 10^-7 into 0; subnormal numbers throw in the other build because std::stod reports underflow (C51_exactly: every one of them, and no other number); a C++ locale with a decimal comma. All with locales that use a decimal point otherwise.',
'C52': 'Proved for the C locale up to one exception: numbers below all normal numbers that are not exactly representable throw instead (std::stod reports ERANGE). Refuted for these and for a locale with a decimal comma. C52_any_text gives the result for every text and every decimal point: what C17 says strtod reads (white space, signs, hexadecimal numbers, infinities, NaNs), rounded to nearest with ties to even, and an exception exactly for the rest; C52_bits its bit pattern.',
'C37': 'Proved on the heap model: copy construction and copy assignment give equal values that share nothing; later programs (any moves, any allocation failures) leave other variables, and at any depth other parts, unchanged. Partial: copy assignment to a part of the source is refuted (v[k] = v copies a half-assigned v, see C26).',
'C38': 'Proved: v = v[k]; v = std::move(v[k]) when both hold the same variant alternative. Refuted: with different alternatives (an object assigned from an array inside it) the variant destroys the object before moving from the array, a use after free; C38_move_from_part_undefined: so whenever the alternatives differ.',
'C39': 'Refuted for as_array(), as_object(), operator[] and copy assignment: the type tag is assigned before the allocation, so std::bad_alloc leaves the new tag with the old payload. Proved: the exact state after the failure, nothing leaks, no other variable changes, construction changes nothing.',
'C53': 'Proved for all programs without moves that do not assign a value to a part of itself and respect the listed misuses, and for programs with moves none of whose commands reads what has been moved from or moves a value into a part of itself (C53_careful_safe_partial); allocation failures anywhere. Refuted: v[k] = std::move(v) makes the object its own member and leaks it. C53_copy_exactly: a copy is defined exactly if no container in the value has been moved away; C53_calls_exactly, C53_queries_exactly: methods and queries on any value, moved from or not, have undefined behaviour exactly where the values say so.',
'C56': 'Operands of |= and += must not overlap here (C26 has the overlapping cases), nor those of | and + if the left one is an rvalue; copy assignment to a part of the source is excluded (C26, refuted); a container argument moved from must not contain the destination (C53).',
'C57': 'Proved for values whose tags match their contents and whose pointers are not null, hence for parsed values and for those of programs, for programs that move as long as no pointer in the value is null; is<T>() with a check_json of the user only if that returns normally. Refuted for the public constructor value(value_type): empty() and is<T>() of value(value_type::array) throw, which ends the program. For empty() the values on which it does, and those on which it is undefined, are given exactly (C57_empty_exactly).',
'C58': 'The text is proved for sound values; no exception for any value, and undefined exactly for arrays and objects without a pointer. Refuted: the text is cut after 100 bytes, so the message of an exception need not be valid UTF-8 although all strings are.',
'C59': 'Proved for types whose values are arrays or objects, for data that survives conversion to a value (C32, C33, C51 say which), with strings of bytes; compact or indented, both parsers, every backend. Refuted for scalars: the parser accepts only arrays and objects as documents.',
'C61': 'Defined outcome proved for every wide string; the same outcome proved for ASCII text (escapes included). Refuted for every other character: in a string it is rejected or cut to its low eight bits; in a number a character whose low eight bits are a digit counts as one, so text that is not JSON is accepted and the number is not a JSON number.',
'C62': 'Proved for deques whose characters lie in one node (libstdc++: 512 bytes) and for builds without block scan; for every deque and build, a defined outcome is the one of a std::string. Refuted for every backend with block scan: it loads a block across the end of a node.',
'C64': 'Proved for fundamental types, enumerations, json and library types without functions of the user, for classes that look like one thing, and for classes with all functions of the user (members or ext::jsonization); C64_const_rvalue for const rvalues. Refuted: value(e) is ambiguous for an enumeration with ext::jsonization and for a class with both kinds of functions, value(std::optional) in C++26; pointers, C arrays and wide literals become true; a tuple-like sequence is written as a tuple and read as a sequence; a sequence that converts to std::string is asked for text; as<T>() && ignores from_json of ext::jsonization for a wrapper; an rvalue is cast to json::array by the template for sequences; emplace of a pair on a value goes to the array; as<E>() does not compile for an enumeration over char, short or unsigned char, though value(e) and is<E>() do.',
'C66': 'Work is counted by instrumented copies of the parser and the serializer, proved to return the same outcome; what is charged is at the heads of Cost.v and DumpCost.v. Growth of std::string and std::vector is amortised, std::map is charged the height of a red-black tree; handing a finished vector or map to json::array or json::object moves its elements one by one and is charged as such.',
'C68': 'A text counts as one allocation, and so does a growth of a vector. A json::array returned by a literal is represented by a value that holds it.',
'C69': 'Reading back is proved without padding or with white space as fill character; refuted for other fill characters (setw and setfill act on the text). With stream exceptions on, the same bytes are written and std::ios_base::failure tells that some were not.',
'C70': 'For bytes announced but not delivered, and for CR LF against LF, proved without block scan, with four or eight byte words of either byte order, or when high surrogate escapes are directly followed by low ones; refuted for every build with blocks of 16 or 32 bytes otherwise (cf. C10). After a short read the stream has failed, and another call throws std::length_error; with stream exceptions on, std::ios_base::failure comes instead, also for a short read.',
'C67': 'Proved for every type but json::value and json::object themselves, maps to json::value, tuples that mix json::value with other types, and classes with a move_from_json; that arrays are cleared after success, and that a failed conversion has stopped at the first element that cannot be converted, for every type. Refuted: a tuple whose first component is moved out and whose second throws leaves a null pointer; a map to json::value, and json::object, leave all members as null pointers (array::as && clears the array, object::as && does not clear the object).',
'C71': 'A level is one value entered: the activations per level are bounded by the code (dump_to or format_to of value and of its container and the helpers below). The size of a frame is not modelled.',
'C72': 'A text counts as one allocation, and so does a growth of a vector or a node of a map. When as_array or as_object itself cannot allocate, the tag is set already (cf. C37).',
'C74': 'Proved for to_string, format, dumps and operator<<, and for value_info in libraries whose std::string holds twelve characters without allocation. Refuted: an indentation that makes the text longer than std::string::max_size() throws std::length_error; with a std::string that always allocates (the old ABI of libstdc++) value_info ends the program.',
'C76': 'For calls that return normally or throw something other than std::bad_alloc. The vector of an array and its storage are one node of the heap model; that growing a vector may move its elements is part of the statement, not of the model. References after std::bad_alloc, iterators and references to the json::array or json::object inside a value are not covered.',
'C75': 'Proved: is<T>() never answers wrongly, and cannot end the program for types without long keys and without functions of the user; as, find and get likewise. Refuted: is<T>() of a struct with a key longer than the capacity of a std::string without allocation (15 in libstdc++) makes a std::string of the key inside a noexcept function and ends the program when memory runs out, and so does as<T>() of a type that has such a struct as member or alternative. as<T>() && is C77. One consultation of the list of failures stands for all the requests of one step.',
'C77': 'Proved: the result and what is left are those of unlimited memory or memory ran out; then the source is as before for every type whose conversion takes nothing before its last request (scalars, strings, structs, vectors, sets, fixed arrays and tuples of these, vectors and fixed arrays of json::value, maps of these), up to an empty value, which may have been retagged; for all other types a first part of the elements is moved from and the rest is as before. Refuted: std::list<json::value>, json::array and json::object lose elements, a pointer to a vector the whole array, and an empty value keeps a tag that does not match. Same counting of requests as C75.',
'C78': 'Proved: every exception of the library in as<T>() const& has a text; it names a type and describes a part of the source whose conversion to that type is part of the conversion, and what the text says is wrong is wrong; it has at most 250 characters or quotes a number or boolean; for parsed values what() shows all of it. Refuted: a number is quoted whole at any length; the text does not say which element or which field; for an unknown enumerator the number is missing; what() ends at a zero byte; after move_from_json has taken the value and failed, the text describes what is left, and making it is undefined for a moved-from array or object. For rvalues the same is proved if move_from_json of the user leaves values that can be described; the length of the text and what what() shows are proved for lvalues.',
'C79': 'Proved for lvalues and every T the containers convert to, except tuples of one element; for rvalues and classes with functions of the user. Refuted: arr.as<std::tuple<T>>() takes the element while v.as<std::tuple<T>>() converts the whole array (C79_one_tuple_exactly: when the two agree); (T)std::move(arr) empties the container even if move_from_json fails, and its text always says size=0.',
'C81': 'Proved for std::swap and rotations through moves of values none of which is part of another, and for a value with itself. Refuted: std::swap(v, v[k]) makes an object that owns itself, and it is never freed. Algorithms of the standard library are covered as sequences of such steps; their comparisons are not modelled.',
}
