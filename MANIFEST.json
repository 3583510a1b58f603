{
 "claims": [
  {
   "property": "C01",
   "status": "proved",
   "theorems": [
    "C01_no_out_of_bounds"
   ],
   "note": ""
  },
  {
   "property": "C02",
   "status": "proved",
   "theorems": [
    "C02_terminates"
   ],
   "note": "Call depth counts recursive parse_value calls; termination of every loop is the absence of Fuel."
  },
  {
   "property": "C03",
   "status": "proved",
   "theorems": [
    "C03_rfc_accepted",
    "C03_reading_unique",
    "C03_object_members"
   ],
   "note": ""
  },
  {
   "property": "C04",
   "status": "partial",
   "theorems": [
    "C04_accepted_exactly",
    "C04_accepted_exactly_words",
    "C04_accepted_exactly_blocks",
    "C04_rfc_then_stop_partial",
    "C04_rfc_only_partial",
    "C04_rfc_only_refuted"
   ],
   "note": "Refuted as stated: [] followed by /x is accepted (skip_whitespace stops at a slash in strict mode and parse only checks that it stopped). Proved: the exact accepted language of every build (scalar, words of either byte order, vectors), and RFC 8259 up to text after a NUL or slash when surrogate escapes are adjacent."
  },
  {
   "property": "C05",
   "status": "proved",
   "theorems": [
    "C05_repeated_rejected",
    "C05_repeated_rejected_jsonc",
    "C05_repeated_rejected_lenient",
    "C05_accepted_distinct"
   ],
   "note": ""
  },
  {
   "property": "C06",
   "status": "proved",
   "theorems": [
    "C06_jsonc_accepted",
    "C06_reading_unique"
   ],
   "note": ""
  },
  {
   "property": "C07",
   "status": "partial",
   "theorems": [
    "C07_accepted_exactly",
    "C07_accepted_exactly_words",
    "C07_accepted_exactly_blocks",
    "C07_jsonc_then_stop_partial",
    "C07_jsonc_only_refuted"
   ],
   "note": "Refuted as stated: a malformed or unterminated comment after the root is accepted. Proved: the exact accepted language of every build (scalar, words of either byte order, vectors)."
  },
  {
   "property": "C08",
   "status": "partial",
   "theorems": [
    "C08_conservative_partial",
    "C08_rfc_same",
    "C08_no_slash_partial",
    "C08_conservative_refuted",
    "C08_exactly"
   ],
   "note": "Refuted as stated: strict mode stops at a slash behind the root, so a comment with more text behind it is accepted there and rejected when comments are allowed. Proved for every text without that, and exactly which texts differ (C08_exactly): those with something other than white space and comments behind the value, before the parser stops reading."
  },
  {
   "property": "C09",
   "status": "partial",
   "theorems": [
    "C09_decoded",
    "C09_lone_low_rejected",
    "C09_lone_high_rejected_partial",
    "C09_unpaired_rejected_refuted"
   ],
   "note": "Refuted as stated: a low surrogate may be separated from its high surrogate by other unicode escapes. Decoding of RFC literals, rejection of a lone low surrogate and of a high one never followed by a low one are proved in full."
  },
  {
   "property": "C10",
   "status": "partial",
   "theorems": [
    "C10_backend_independent_partial",
    "C10_scalar_accepts_all_accept_partial",
    "C10_words_agree_partial",
    "C10_agree_exactly",
    "C10_backend_independent_refuted"
   ],
   "note": "Refuted as stated for every vector/word backend against the scalar build. Proved when high surrogate escapes are directly followed by low ones, and which builds agree on every text: those of the same class (scalar, little-endian words, big-endian words of one size, vectors of one size)."
  },
  {
   "property": "C11",
   "status": "proved",
   "theorems": [
    "C11_scan_never_skips",
    "C11_scan_exact",
    "C11_scan_big_endian"
   ],
   "note": ""
  },
  {
   "property": "C12",
   "status": "proved",
   "theorems": [
    "C12_no_control_in_literals",
    "C12_control_rejected"
   ],
   "note": ""
  },
  {
   "property": "C13",
   "status": "proved",
   "theorems": [
    "C13_utf8_preserved"
   ],
   "note": ""
  },
  {
   "property": "C14",
   "status": "proved",
   "theorems": [
    "C14_utf8_out",
    "C14_no_control",
    "C14_no_control_pretty"
   ],
   "note": ""
  },
  {
   "property": "C15",
   "status": "proved",
   "theorems": [
    "C15_compact_round_trip",
    "C15_array_object_dumps"
   ],
   "note": ""
  },
  {
   "property": "C16",
   "status": "proved",
   "theorems": [
    "C16_pretty_round_trip"
   ],
   "note": ""
  },
  {
   "property": "C17",
   "status": "proved",
   "theorems": [
    "C17_pretty_compact"
   ],
   "note": ""
  },
  {
   "property": "C18",
   "status": "proved",
   "theorems": [
    "C18_emplace_order_independent",
    "C18_canonical",
    "C18_order_independent"
   ],
   "note": ""
  },
  {
   "property": "C19",
   "status": "proved",
   "theorems": [
    "C19_truncation_detected"
   ],
   "note": ""
  },
  {
   "property": "C20",
   "status": "proved",
   "theorems": [
    "C20_number_grammar"
   ],
   "note": ""
  },
  {
   "property": "C21",
   "status": "partial",
   "theorems": [
    "C21_reachable_is_json",
    "C21_reachable_is_json_refuted",
    "C21_well_formed_is_json",
    "C21_moves",
    "C21_moved_number_refuted"
   ],
   "note": "Proved for every value reachable by a history of constructors and mutators whose number and raw literals are JSON texts, without assigning a value to a part of itself; if the history moves, for the values no part of which was moved from (no null pointer, no number or boolean without a text). Refuted for a number that was moved from (its text is empty) and for the public constructor value(value_type, args...), which accepts any text for any type."
  },
  {
   "property": "C22",
   "status": "proved",
   "theorems": [
    "C22_escape_denotes",
    "C22_escape_parses",
    "C22_escape_injective",
    "C22_escape_clean",
    "C22_escape_bytewise",
    "C22_escape_identity"
   ],
   "note": ""
  },
  {
   "property": "C23",
   "status": "proved",
   "theorems": [
    "C23_object_is_map",
    "C23_from_any",
    "C23_object_of_list"
   ],
   "note": ""
  },
  {
   "property": "C24",
   "status": "proved",
   "theorems": [
    "C24_array_is_sequence",
    "C24_from_any",
    "C24_of_size",
    "C24_erase_out_of_range"
   ],
   "note": ""
  },
  {
   "property": "C25",
   "status": "partial",
   "theorems": [
    "C25_merge_lookup",
    "C25_merge_associative",
    "C25_merge_unit",
    "C25_merge_overloads",
    "C25_concatenation",
    "C25_value_merge",
    "C25_value_concatenation",
    "C25_value_overloads_refuted",
    "C25_value_plus_overloads_refuted"
   ],
   "note": "Proved for json::object and json::array and for value operands that hold an object or array. Refuted for value operators on an empty left operand that is not a container: the lvalue overloads throw, the rvalue overloads convert it."
  },
  {
   "property": "C26",
   "status": "partial",
   "theorems": [
    "C26_tags_match_partial",
    "C26_no_bad_variant_partial",
    "C26_no_ub_partial",
    "C26_tags_match_refuted",
    "C26_no_bad_variant_refuted",
    "C26_merge_part_refuted",
    "C26_merge_empty_self_refuted",
    "C26_append_self_refuted",
    "C26_copy_into_part",
    "C26_copy_into_part_exactly",
    "C26_merge_part_exactly",
    "C26_append_self_undefined",
    "C26_merge_empty_self_undefined",
    "C26_append_overlapping",
    "C26_merge_self",
    "C26_moves_safe_partial",
    "C26_moves_step_partial"
   ],
   "note": "Refuted: v[k] = v (copy assignment from an enclosing value) leaves a value whose tag and payload disagree, exactly when v[k] had another type than v (C26_copy_into_part_exactly), and later operations throw bad_variant_access; v |= v[k].as_object(), exactly if that object has a member k (C26_merge_part_exactly), v |= v.as_object() for an empty v, and v += v.as_array() have undefined behaviour, always. Proved for all other histories: tags match (moves allowed), no bad_variant_access, and no undefined behaviour except the listed misuses: for programs without moves, and, after any history with moves, for a command that reads nothing that has been moved from (C26_moves_safe_partial)."
  },
  {
   "property": "C27",
   "status": "proved",
   "theorems": [
    "C27_lookup_key",
    "C27_lookup_pos"
   ],
   "note": ""
  },
  {
   "property": "C28",
   "status": "partial",
   "theorems": [
    "C28_value_get_partial",
    "C28_object_get_partial",
    "C28_array_get_partial",
    "C28_find_key_partial",
    "C28_find_pos_partial",
    "C28_object_find_partial",
    "C28_array_find_partial",
    "C28_get_optional_refuted",
    "C28_get_view_refuted",
    "C28_get_nullptr_refuted",
    "C28_object_get_nullptr_refuted",
    "C28_nullptr_never",
    "C28_nullptr_never_containers",
    "C28_view_dangles"
   ],
   "note": "Proved for value::get, object::get, array::get and find<T>, any path depth, for every type whose is<T>() is exact, other than nullptr_t and (value::get) string_view. Refuted for: an optional default with null at the path (throws), a string_view default (the returned view refers to a dead temporary), a nullptr default (std::string(nullptr)); for these two exactly when (C28_view_dangles, C28_nullptr_never: a call with nullptr never returns). Integer keys are any 64-bit integers, signed or not; negative ones name nothing (arrays have fewer than 2^63 elements)."
  },
  {
   "property": "C29",
   "status": "partial",
   "theorems": [
    "C29_is_decides_as_partial",
    "C29_is_total",
    "C29_optional_refuted",
    "C29_one_tuple_refuted",
    "C29_optional_exactly",
    "C29_one_tuple_exactly",
    "C29_enum_refuted",
    "C29_unfixed_enum_refuted"
   ],
   "note": "Proved for all types built from json types, bool, integers, floating-point, strings, nullptr_t, monostate, pointers, vectors, arrays, tuples (not of one element), variants, maps, sets, enumerations with fixed underlying type other than bool, structs, and classes whose own from_json takes exactly what their check_json accepts. (as<T>() with a T of 8 or 16 bits, or an enumeration over one, does not compile; the theorem covers it all the same.) Refuted for std::optional (null), std::tuple<T>, enumerations over bool, enumerations without fixed underlying type. For std::optional and std::tuple<T> the values for which the two disagree are given exactly (C29_optional_exactly, C29_one_tuple_exactly). Floating-point parsing is an arbitrary function of the text."
  },
  {
   "property": "C30",
   "status": "proved",
   "theorems": [
    "C30_integer_value",
    "C30_otherwise_throws",
    "C30_value_unique"
   ],
   "note": ""
  },
  {
   "property": "C31",
   "status": "proved",
   "theorems": [
    "C31_integer_round_trip",
    "C31_text_round_trip"
   ],
   "note": ""
  },
  {
   "property": "C32",
   "status": "partial",
   "theorems": [
    "C32_native_round_trip_partial",
    "C32_round_trip_partial",
    "C32_sets_rebuilt",
    "C32_multisets_rebuilt",
    "C32_unordered_partial",
    "C32_map_order",
    "C32_nullopt_refuted",
    "C32_one_tuple_refuted",
    "C32_native_exactly",
    "C32_one_tuple_never"
   ],
   "note": "Proved for the stated universe except data with an empty std::optional inside and one-element tuples, both refuted: the converting constructors of std::optional and std::tuple win over the conversion operator of value. Both exactly: with an empty optional anywhere inside is<T>() says yes and the conversion throws (C32_native_exactly, also for structs); no one-element tuple ever comes back (C32_one_tuple_never). Also proved for pointers, variants, enumerations, structs, sets, json types and classes with their own conversion functions under their side conditions (faithful). Maps in any order of traversal give the same value; unordered sets come back with the same elements."
  },
  {
   "property": "C33",
   "status": "partial",
   "theorems": [
    "C33_round_trip_partial",
    "C33_to_json_members_partial",
    "C33_from_json_partial",
    "C33_round_trip_refuted",
    "C33_native_exactly"
   ],
   "note": "Proved for members of types with exact is<T>() and data that survives conversion. Refuted for a std::optional member without value: to_json writes null, check_json accepts it, from_json throws; C33_native_exactly: that happens for every such object and for no other."
  },
  {
   "property": "C34",
   "status": "partial",
   "theorems": [
    "C34_target_unchanged_refuted",
    "C34_first_field_partial",
    "C34_checked_partial",
    "C34_unchanged_exactly"
   ],
   "note": "Refuted: fields before the bad one are already assigned. The exact final state is C33_from_json_partial. Proved: unchanged if the first field is bad; from_json succeeds exactly when check_json does; a failing load leaves the target unchanged exactly if every field before the bad one is absent or already had what is loaded into it."
  },
  {
   "property": "C35",
   "status": "partial",
   "theorems": [
    "C35_names_extracted_partial",
    "C35_enum_round_trip_partial",
    "C35_enum_lookup_partial",
    "C35_enum_first_partial",
    "C35_round_trip_refuted",
    "C35_lookup_refuted",
    "C35_one_way_refuted"
   ],
   "note": "Proved for enumerations with ASCII identifiers and an int reflection range, as GCC, Clang and MSVC print them (the shape of the printed text is assumed), whose main names do not differ by case only; aliases (MEOJSON_ENUM_RANGE at the end) are allowed and convert to the main name. Refuted for names that differ by case only (another enumerator comes back), for an alias declared after the main name (not recognised), and for a narrow enumeration whose enumerator lies outside the range (recognised by is<T>() and string_to_enum because the cast wraps, but not converted to text)."
  },
  {
   "property": "C36",
   "status": "proved",
   "theorems": [
    "C36_equality_structural",
    "C36_equivalence",
    "C36_inequality",
    "C36_equality_wf"
   ],
   "note": ""
  },
  {
   "property": "C37",
   "status": "partial",
   "theorems": [
    "C37_copy_constructor",
    "C37_copy_assignment_partial",
    "C37_copy_into_part_refuted",
    "C37_other_variables_kept",
    "C37_other_parts_kept"
   ],
   "note": "Proved on the heap model: copy construction and copy assignment give equal values that share nothing; later programs (any moves, any allocation failures) leave other variables, and at any depth other parts, unchanged. Partial: copy assignment to a part of the source is refuted (v[k] = v copies a half-assigned v, see C26)."
  },
  {
   "property": "C38",
   "status": "partial",
   "theorems": [
    "C38_copy_from_part",
    "C38_move_from_part_partial",
    "C38_move_from_part_refuted",
    "C38_move_from_part_undefined"
   ],
   "note": "Proved: v = v[k]; v = std::move(v[k]) when both hold the same variant alternative. Refuted: with different alternatives (an object assigned from an array inside it) the variant destroys the object before moving from the array, a use after free; C38_move_from_part_undefined: so whenever the alternatives differ."
  },
  {
   "property": "C39",
   "status": "partial",
   "theorems": [
    "C39_as_array_refuted",
    "C39_as_object_refuted",
    "C39_index_refuted",
    "C39_copy_assignment_refuted",
    "C39_as_array_partial",
    "C39_as_object_partial",
    "C39_copy_assignment_partial",
    "C39_construction_partial",
    "C39_failure_contained_partial"
   ],
   "note": "Refuted for as_array(), as_object(), operator[] and copy assignment: the type tag is assigned before the allocation, so std::bad_alloc leaves the new tag with the old payload. Proved: the exact state after the failure, nothing leaks, no other variable changes, construction changes nothing."
  },
  {
   "property": "C40",
   "status": "proved",
   "theorems": [
    "C40_bom_removed_once",
    "C40_no_bom_unaffected",
    "C40_bom_rejected_unchecked"
   ],
   "note": ""
  },
  {
   "property": "C41",
   "status": "partial",
   "theorems": [
    "C41_finite_is_number_partial",
    "C41_bits_partial",
    "C41_exceptional_never",
    "C41_infinity_refuted",
    "C41_locale_refuted",
    "C41_locale_elements_refuted",
    "C41_grouping_refuted",
    "C41_groups",
    "C41_without_separators"
   ],
   "note": "Proved for zeros, subnormal and normal numbers of every precision, in both builds, when the locales use a decimal point and do not group digits. Refuted for infinities and NaNs (text inf, nan: never a JSON number) and for a locale with a decimal comma (the array [1.5, 2] is written with 1,500000 and read back with three elements). Refuted with MEOJSON_KEEP_FLOATING_PRECISION for a global C++ locale that separates thousands: 1234.5 becomes 1,234.5, two elements of an array; proved for these locales: the digits before the point come in groups of the sizes of the locale, nothing else changes, and the text without its separators is a JSON number."
  },
  {
   "property": "C42",
   "status": "partial",
   "theorems": [
    "C42_openers",
    "C42_openers_needed",
    "C42_bounded_stack_refuted",
    "C42_nesting_overflows_refuted"
   ],
   "note": "Refuted: recursion depth is unbounded; every stack budget d is exhausted by d+2 opening brackets. Proved: a budget of as many levels as the text opens brackets gives the result of the parser, for accepted and rejected texts, and one less is not always enough."
  },
  {
   "property": "C43",
   "status": "partial",
   "theorems": [
    "C43_category_irrelevant_partial",
    "C43_category_refuted",
    "C43_container_refuted",
    "C43_exactly",
    "C43_blank"
   ],
   "note": "Proved, for classes whose move_from_json does as their from_json, unless the value is empty and the conversion of the lvalue throws. Which types and values those are is proved exactly: a null, empty string or empty object where an array is wanted, a null, empty string or empty array where an object is, inside optionals, non-null pointers and one-element tuples. Refuted there: (std::vector<int>)std::move(null) is an empty vector, (std::vector<int>)null throws; the same for json::array and json::object."
  },
  {
   "property": "C44",
   "status": "partial",
   "theorems": [
    "C44_first_alternative_partial",
    "C44_round_trip_partial",
    "C44_value_alternative",
    "C44_one_alternative",
    "C44_first_alternative_refuted",
    "C44_optional_value_refuted"
   ],
   "note": "Proved for alternatives with exact is<T>() none of which json::value converts to implicitly, or several of which it does (json::value itself not being among them). Refuted otherwise: std::variant<int, json::value> from 5 holds a json::value (with json::value among the alternatives that is always so), std::variant<int, std::optional<json::value>> an optional (with exactly one alternative that is json::value inside optionals and one-element tuples, that one is always chosen)."
  },
  {
   "property": "C45",
   "status": "partial",
   "theorems": [
    "C45_throw_keeps",
    "C45_erase_throw_keeps",
    "C45_erase_false_partial",
    "C45_erase_false_refuted",
    "C45_erase_false_exactly"
   ],
   "note": "Refuted for erase on an empty value (null, empty string, the other empty container): it returns false and converts the value; C45_erase_false_exactly: these and no others. Proved otherwise."
  },
  {
   "property": "C46",
   "status": "proved",
   "theorems": [
    "C46_c_string",
    "C46_literals"
   ],
   "note": ""
  },
  {
   "property": "C47",
   "status": "proved",
   "theorems": [
    "C47_parsed_well_formed"
   ],
   "note": ""
  },
  {
   "property": "C48",
   "status": "partial",
   "theorems": [
    "C48_throws_exactly",
    "C48_stream_no_throw_partial",
    "C48_stream_no_throw_refuted"
   ],
   "note": "Refuted: a stream on which seekg/tellg fail makes parse(istream&) throw std::length_error. Proved: no exception on seekable streams; a stream that cannot be sought is the only one that throws."
  },
  {
   "property": "C49",
   "status": "partial",
   "theorems": [
    "C49_source_kept_partial",
    "C49_const_source_kept_partial",
    "C49_source_kept_refuted",
    "C49_const_source_kept_refuted",
    "C49_moved_exactly",
    "C49_rest_kept",
    "C49_kept_iff"
   ],
   "note": "Refuted: value(wrapper_t&&) is a forwarding reference, so an lvalue std::optional<std::string>, shared_ptr or unique_ptr is moved from. Proved for types without wrappers (except const optional inside containers), and for const sources without a pointer to a wrapper. Which parts of an object of any type, named in any of the four ways, are moved from is characterised exactly (C49_moved_exactly, C49_rest_kept, C49_kept_iff)."
  },
  {
   "property": "C50",
   "status": "partial",
   "theorems": [
    "C50_enum_safe_partial",
    "C50_enum_numbers",
    "C50_enum_overflow_refuted",
    "C50_enum_name_refuted"
   ],
   "note": "Refuted: signed overflow in enum_to_string for values near INT_MAX; 64-bit values are truncated to int and get the name of another enumerator. Proved when the value belongs to the type and it and its distance from the range minimum fit an int. With MEOJSON_ENUM_AS_NUMBER (C50_enum_numbers): the number, which comes back, except for enumerations over bool, which become a boolean that is<T>() accepts and as<T>() rejects."
  },
  {
   "property": "C51",
   "status": "partial",
   "theorems": [
    "C51_exact_partial",
    "C51_exactly",
    "C51_faithful_partial",
    "C51_exceptional",
    "C51_default_partial",
    "C51_default_refuted",
    "C51_subnormal_refuted",
    "C51_locale_refuted"
   ],
   "note": "Proved with MEOJSON_KEEP_FLOATING_PRECISION for zeros and normal numbers; proved for the default build up to 10^-6 (six digits after the point). Refuted: the default build turns 10^-7 into 0; subnormal numbers throw in the other build because std::stod reports underflow (C51_exactly: every one of them, and no other number); a C++ locale with a decimal comma. All with locales that use a decimal point otherwise."
  },
  {
   "property": "C52",
   "status": "partial",
   "theorems": [
    "C52_nearest_partial",
    "C52_nearest_denoted_partial",
    "C52_too_large_throws",
    "C52_subnormal_refuted",
    "C52_any_text",
    "C52_bits",
    "C52_layout",
    "C52_locale_refuted"
   ],
   "note": "Proved for the C locale up to one exception: numbers below all normal numbers that are not exactly representable throw instead (std::stod reports ERANGE). Refuted for these and for a locale with a decimal comma. C52_any_text gives the result for every text and every decimal point: what C17 says strtod reads (white space, signs, hexadecimal numbers, infinities, NaNs), rounded to nearest with ties to even, and an exception exactly for the rest; C52_bits its bit pattern."
  },
  {
   "property": "C53",
   "status": "partial",
   "theorems": [
    "C53_program_safe_partial",
    "C53_program_frees_partial",
    "C53_step_safe_partial",
    "C53_moves_defined_partial",
    "C53_moves_tree_partial",
    "C53_moves_free_partial",
    "C53_leak_refuted",
    "C53_careful_step_partial",
    "C53_careful_safe_partial",
    "C53_careful_frees_partial",
    "C53_copy_exactly",
    "C53_calls_exactly",
    "C53_queries_exactly",
    "C53_or_undefined",
    "C53_plus_undefined"
   ],
   "note": "Proved for all programs without moves that do not assign a value to a part of itself and respect the listed misuses, and for programs with moves none of whose commands reads what has been moved from or moves a value into a part of itself (C53_careful_safe_partial); allocation failures anywhere. Refuted: v[k] = std::move(v) makes the object its own member and leaks it. C53_copy_exactly: a copy is defined exactly if no container in the value has been moved away; C53_calls_exactly, C53_queries_exactly: methods and queries on any value, moved from or not, have undefined behaviour exactly where the values say so."
  },
  {
   "property": "C54",
   "status": "proved",
   "theorems": [
    "C54_layout"
   ],
   "note": ""
  },
  {
   "property": "C55",
   "status": "proved",
   "theorems": [
    "C55_array_calls",
    "C55_array_calls_throw",
    "C55_object_calls",
    "C55_object_calls_throw",
    "C55_const_operators",
    "C55_clear"
   ],
   "note": ""
  },
  {
   "property": "C56",
   "status": "proved",
   "theorems": [
    "C56_reading",
    "C56_expressions",
    "C56_new",
    "C56_assign_copy",
    "C56_assign_move",
    "C56_assign_move_part",
    "C56_assign_move_self",
    "C56_assign_temporary",
    "C56_emplace_temporary",
    "C56_emplace_copy",
    "C56_emplace_move",
    "C56_member_temporary",
    "C56_member_copy",
    "C56_member_move",
    "C56_temporary_throws",
    "C56_reference_throws",
    "C56_merge",
    "C56_append",
    "C56_or_new",
    "C56_plus_new",
    "C56_or_new_moved",
    "C56_plus_new_moved",
    "C56_or_new_throws",
    "C56_plus_new_throws",
    "C56_invoke",
    "C56_queries"
   ],
   "note": "Operands of |= and += must not overlap here (C26 has the overlapping cases), nor those of | and + if the left one is an rvalue; copy assignment to a part of the source is excluded (C26, refuted); a container argument moved from must not contain the destination (C53)."
  },
  {
   "property": "C57",
   "status": "partial",
   "theorems": [
    "C57_noexcept_partial",
    "C57_parsed",
    "C57_program_partial",
    "C57_noexcept_refuted",
    "C57_empty_exactly",
    "C57_moves_partial"
   ],
   "note": "Proved for values whose tags match their contents and whose pointers are not null, hence for parsed values and for those of programs, for programs that move as long as no pointer in the value is null; is<T>() with a check_json of the user only if that returns normally. Refuted for the public constructor value(value_type): empty() and is<T>() of value(value_type::array) throw, which ends the program. For empty() the values on which it does, and those on which it is undefined, are given exactly (C57_empty_exactly)."
  },
  {
   "property": "C58",
   "status": "partial",
   "theorems": [
    "C58_type_name",
    "C58_value_info_partial",
    "C58_info_contained",
    "C58_info_exactly",
    "C58_info_utf8_refuted"
   ],
   "note": "The text is proved for sound values; no exception for any value, and undefined exactly for arrays and objects without a pointer. Refuted: the text is cut after 100 bytes, so the message of an exception need not be valid UTF-8 although all strings are."
  },
  {
   "property": "C59",
   "status": "partial",
   "theorems": [
    "C59_saved_and_loaded_partial",
    "C59_scalar_refuted"
   ],
   "note": "Proved for types whose values are arrays or objects, for data that survives conversion to a value (C32, C33, C51 say which), with strings of bytes; compact or indented, both parsers, every backend. Refuted for scalars: the parser accepts only arrays and objects as documents."
  },
  {
   "property": "C60",
   "status": "proved",
   "theorems": [
    "C60_set_elements",
    "C60_set_unique",
    "C60_set_failure",
    "C60_multiset_elements",
    "C60_multiset_unique",
    "C60_unordered_elements",
    "C60_unordered_multi_elements"
   ],
   "note": ""
  },
  {
   "property": "C61",
   "status": "partial",
   "theorems": [
    "C61_wide_defined",
    "C61_wide_partial",
    "C61_wide_refuted",
    "C61_wide_number_refuted"
   ],
   "note": "Defined outcome proved for every wide string; the same outcome proved for ASCII text (escapes included). Refuted for every other character: in a string it is rejected or cut to its low eight bits; in a number a character whose low eight bits are a digit counts as one, so text that is not JSON is accepted and the number is not a JSON number."
  },
  {
   "property": "C62",
   "status": "partial",
   "theorems": [
    "C62_deque_partial",
    "C62_defined_same_partial",
    "C62_deque_refuted"
   ],
   "note": "Proved for deques whose characters lie in one node (libstdc++: 512 bytes) and for builds without block scan; for every deque and build, a defined outcome is the one of a std::string. Refuted for every backend with block scan: it loads a block across the end of a node."
  },
  {
   "property": "C63",
   "status": "proved",
   "theorems": [
    "C63_compiles",
    "C63_to_json",
    "C63_check_json",
    "C63_from_json"
   ],
   "note": ""
  },
  {
   "property": "C64",
   "status": "partial",
   "theorems": [
    "C64_construct_partial",
    "C64_as_partial",
    "C64_as_rvalue_partial",
    "C64_cast_partial",
    "C64_cast_rvalue_partial",
    "C64_universe",
    "C64_universe_construct",
    "C64_const_rvalue",
    "C64_universe_is",
    "C64_universe_as",
    "C64_universe_cast_rvalue",
    "C64_made_type",
    "C64_accepted_type",
    "C64_scalars",
    "C64_scalar_casts",
    "C64_enumerations",
    "C64_enumeration_bodies",
    "C64_enum_small_refuted",
    "C64_paths",
    "C64_emplace_array",
    "C64_emplace_object",
    "C64_enum_extension_refuted",
    "C64_optional_refuted",
    "C64_pointer_refuted",
    "C64_tuple_sequence_refuted",
    "C64_text_sequence_refuted",
    "C64_wrapper_extension_refuted",
    "C64_member_extension_refuted",
    "C64_cast_array_refuted",
    "C64_emplace_pair_refuted"
   ],
   "note": "Proved for fundamental types, enumerations, json and library types without functions of the user, for classes that look like one thing, and for classes with all functions of the user (members or ext::jsonization); C64_const_rvalue for const rvalues. Refuted: value(e) is ambiguous for an enumeration with ext::jsonization and for a class with both kinds of functions, value(std::optional) in C++26; pointers, C arrays and wide literals become true; a tuple-like sequence is written as a tuple and read as a sequence; a sequence that converts to std::string is asked for text; as<T>() && ignores from_json of ext::jsonization for a wrapper; an rvalue is cast to json::array by the template for sequences; emplace of a pair on a value goes to the array; as<E>() does not compile for an enumeration over char, short or unsigned char, though value(e) and is<E>() do."
  },
  {
   "property": "C65",
   "status": "proved",
   "theorems": [
    "C65_array",
    "C65_object",
    "C65_from_array",
    "C65_from_object",
    "C65_user",
    "C65_object_exactly",
    "C65_array_exactly"
   ],
   "note": ""
  },
  {
   "property": "C66",
   "status": "proved",
   "theorems": [
    "C66_parse_time",
    "C66_counter_only_counts",
    "C66_parse_space",
    "C66_text_size",
    "C66_serialize_time"
   ],
   "note": "Work is counted by instrumented copies of the parser and the serializer, proved to return the same outcome; what is charged is at the heads of Cost.v and DumpCost.v. Growth of std::string and std::vector is amortised, std::map is charged the height of a red-black tree; handing a finished vector or map to json::array or json::object moves its elements one by one and is charged as such."
  },
  {
   "property": "C67",
   "status": "partial",
   "theorems": [
    "C67_source_usable_partial",
    "C67_failure_keeps_partial",
    "C67_array_cleared",
    "C67_map_kept",
    "C67_stops_at_failure",
    "C67_map_stops_at_failure",
    "C67_tuple_refuted",
    "C67_map_refuted",
    "C67_object_refuted"
   ],
   "note": "Proved for every type but json::value and json::object themselves, maps to json::value, tuples that mix json::value with other types, and classes with a move_from_json; that arrays are cleared after success, and that a failed conversion has stopped at the first element that cannot be converted, for every type. Refuted: a tuple whose first component is moved out and whose second throws leaves a null pointer; a map to json::value, and json::object, leave all members as null pointers (array::as && clears the array, object::as && does not clear the object)."
  },
  {
   "property": "C68",
   "status": "proved",
   "theorems": [
    "C68_parse",
    "C68_stream",
    "C68_open",
    "C68_literals"
   ],
   "note": "A text counts as one allocation, and so does a growth of a vector. A json::array returned by a literal is represented by a value that holds it."
  },
  {
   "property": "C69",
   "status": "partial",
   "theorems": [
    "C69_inserted",
    "C69_array_object",
    "C69_not_good",
    "C69_throws",
    "C69_chain",
    "C69_read_back_partial",
    "C69_read_back_refuted",
    "C69_cut_detected",
    "C69_exceptions",
    "C69_exceptions_throws"
   ],
   "note": "Reading back is proved without padding or with white space as fill character; refuted for other fill characters (setw and setfill act on the text). With stream exceptions on, the same bytes are written and std::ios_base::failure tells that some were not."
  },
  {
   "property": "C70",
   "status": "partial",
   "theorems": [
    "C70_whole",
    "C70_again",
    "C70_short_partial",
    "C70_short_refuted",
    "C70_broken",
    "C70_text_mode_partial",
    "C70_text_mode_refuted",
    "C70_binary_mode",
    "C70_file_round_trip",
    "C70_exceptions",
    "C70_exceptions_otherwise",
    "C70_exceptions_whole",
    "C70_exceptions_off"
   ],
   "note": "For bytes announced but not delivered, and for CR LF against LF, proved without block scan, with four or eight byte words of either byte order, or when high surrogate escapes are directly followed by low ones; refuted for every build with blocks of 16 or 32 bytes otherwise (cf. C10). After a short read the stream has failed, and another call throws std::length_error; with stream exceptions on, std::ios_base::failure comes instead, also for a short read."
  },
  {
   "property": "C71",
   "status": "proved",
   "theorems": [
    "C71_dumps",
    "C71_copy",
    "C71_equal",
    "C71_unequal",
    "C71_destroy",
    "C71_parse",
    "C71_read_then_use",
    "C71_write_then_read",
    "C71_native",
    "C71_no_bound"
   ],
   "note": "A level is one value entered: the activations per level are bounded by the code (dump_to or format_to of value and of its container and the helpers below). The size of a frame is not modelled."
  },
  {
   "property": "C72",
   "status": "proved",
   "theorems": [
    "C72_construct",
    "C72_assign",
    "C72_emplace",
    "C72_emplace_key",
    "C72_index_assign"
   ],
   "note": "A text counts as one allocation, and so does a growth of a vector or a node of a map. When as_array or as_object itself cannot allocate, the tag is set already (cf. C37)."
  },
  {
   "property": "C73",
   "status": "proved",
   "theorems": [
    "C73_named_only",
    "C73_heap_named_only",
    "C73_threads",
    "C73_threads_go_on"
   ],
   "note": ""
  },
  {
   "property": "C74",
   "status": "partial",
   "theorems": [
    "C74_dumps",
    "C74_array",
    "C74_object",
    "C74_enough",
    "C74_no_other_text",
    "C74_stream",
    "C74_too_long_refuted",
    "C74_value_info",
    "C74_value_info_ends_refuted",
    "C74_noticed",
    "C74_array_noticed",
    "C74_object_noticed",
    "C74_stream_noticed",
    "C74_value_info_once"
   ],
   "note": "Proved for to_string, format, dumps and operator<<, and for value_info in libraries whose std::string holds twelve characters without allocation. Refuted: an indentation that makes the text longer than std::string::max_size() throws std::length_error; with a std::string that always allocates (the old ABI of libstdc++) value_info ends the program."
  },
  {
   "property": "C75",
   "status": "partial",
   "theorems": [
    "C75_is_partial",
    "C75_is_quiet",
    "C75_is_ends_refuted",
    "C75_default_ends",
    "C75_long_key_ends",
    "C75_as_partial",
    "C75_find_pos_partial",
    "C75_find_key_partial",
    "C75_get_partial",
    "C75_scalars",
    "C75_as_ends_refuted",
    "C75_from_json",
    "C75_is_noticed",
    "C75_as_noticed",
    "C75_from_json_noticed",
    "C75_find_pos_noticed",
    "C75_find_key_noticed",
    "C75_get_noticed"
   ],
   "note": "Proved: is<T>() never answers wrongly, and cannot end the program for types without long keys and without functions of the user; as, find and get likewise. Refuted: is<T>() of a struct with a key longer than the capacity of a std::string without allocation (15 in libstdc++) makes a std::string of the key inside a noexcept function and ends the program when memory runs out, and so does as<T>() of a type that has such a struct as member or alternative. as<T>() && is C77. One consultation of the list of failures stands for all the requests of one step."
  },
  {
   "property": "C76",
   "status": "proved",
   "theorems": [
    "C76_reference_kept",
    "C76_reference_survives",
    "C76_program"
   ],
   "note": "For calls that return normally or throw something other than std::bad_alloc. The vector of an array and its storage are one node of the heap model; that growing a vector may move its elements is part of the statement, not of the model. References after std::bad_alloc, iterators and references to the json::array or json::object inside a value are not covered."
  },
  {
   "property": "C77",
   "status": "partial",
   "theorems": [
    "C77_cast_partial",
    "C77_enough",
    "C77_keeps_partial",
    "C77_as",
    "C77_array",
    "C77_cast_array",
    "C77_cast_object",
    "C77_values",
    "C77_list_refuted",
    "C77_array_refuted",
    "C77_object_refuted",
    "C77_pointer_refuted",
    "C77_tag_refuted",
    "C77_noticed",
    "C77_as_noticed",
    "C77_array_noticed",
    "C77_object_noticed"
   ],
   "note": "Proved: the result and what is left are those of unlimited memory or memory ran out; then the source is as before for every type whose conversion takes nothing before its last request (scalars, strings, structs, vectors, sets, fixed arrays and tuples of these, vectors and fixed arrays of json::value, maps of these), up to an empty value, which may have been retagged; for all other types a first part of the elements is moved from and the rest is as before. Refuted: std::list<json::value>, json::array and json::object lose elements, a pointer to a vector the whole array, and an empty value keeps a tag that does not match. Same counting of requests as C75."
  },
  {
   "property": "C78",
   "status": "partial",
   "theorems": [
    "C78_same",
    "C78_always",
    "C78_says_partial",
    "C78_length_partial",
    "C78_shown_partial",
    "C78_length_refuted",
    "C78_place_refuted",
    "C78_field_refuted",
    "C78_number_refuted",
    "C78_shown_refuted",
    "C78_moved_partial",
    "C78_moved_refuted",
    "C78_moved_same",
    "C78_moved_says_partial",
    "C78_what",
    "C78_enum",
    "C78_unknown"
   ],
   "note": "Proved: every exception of the library in as<T>() const& has a text; it names a type and describes a part of the source whose conversion to that type is part of the conversion, and what the text says is wrong is wrong; it has at most 250 characters or quotes a number or boolean; for parsed values what() shows all of it. Refuted: a number is quoted whole at any length; the text does not say which element or which field; for an unknown enumerator the number is missing; what() ends at a zero byte; after move_from_json has taken the value and failed, the text describes what is left, and making it is undefined for a moved-from array or object. For rvalues the same is proved if move_from_json of the user leaves values that can be described; the length of the text and what what() shows are proved for lvalues."
  },
  {
   "property": "C79",
   "status": "partial",
   "theorems": [
    "C79_array_partial",
    "C79_object",
    "C79_one_tuple_refuted",
    "C79_one_tuple_takes",
    "C79_one_tuple_exactly",
    "C79_array_text",
    "C79_object_text",
    "C79_moved",
    "C79_size_refuted",
    "C79_kept",
    "C79_moved_text"
   ],
   "note": "Proved for lvalues and every T the containers convert to, except tuples of one element; for rvalues and classes with functions of the user. Refuted: arr.as<std::tuple<T>>() takes the element while v.as<std::tuple<T>>() converts the whole array (C79_one_tuple_exactly: when the two agree); (T)std::move(arr) empties the container even if move_from_json fails, and its text always says size=0."
  },
  {
   "property": "C80",
   "status": "proved",
   "theorems": [
    "C80_array_forward",
    "C80_array_backward",
    "C80_object_forward",
    "C80_array_iterator",
    "C80_array_next",
    "C80_array_iterator_ended",
    "C80_object_iterator",
    "C80_object_next",
    "C80_object_iterator_ended",
    "C80_end",
    "C80_object_sweep",
    "C80_array_sweep",
    "C80_array_index",
    "C80_array_index_down",
    "C80_array_skip",
    "C80_array_append",
    "C80_object_erase",
    "C80_object_grow",
    "C80_same_array",
    "C80_same_index",
    "C80_same_object"
   ],
   "note": ""
  },
  {
   "property": "C81",
   "status": "partial",
   "theorems": [
    "C81_rotate",
    "C81_swap",
    "C81_swap_self",
    "C81_swap_back",
    "C81_array_rotate",
    "C81_array_swap",
    "C81_array_swaps",
    "C81_array_order",
    "C81_array_reverse",
    "C81_heap",
    "C81_heap_self",
    "C81_heap_elsewhere",
    "C81_heap_inside",
    "C81_part_refuted"
   ],
   "note": "Proved for std::swap and rotations through moves of values none of which is part of another, and for a value with itself. Refuted: std::swap(v, v[k]) makes an object that owns itself, and it is never freed. Algorithms of the standard library are covered as sequences of such steps; their comparisons are not modelled."
  }
 ]
}