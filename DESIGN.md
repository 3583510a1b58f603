# Formal model of MistEO/meojson in Rocq (Coq 8.16.1)

The library is header-only C++17 (`/repo/include`, about 4,300 lines). `/repo` is read as text; none of it is
built or run. The model is written in Gallina, function by function, with the cited lines beside every definition.
The properties are in `properties.jsonl`, the theorems that establish them in `MANIFEST.json`.

## 1. Layout (`rocq/theories`)

Model files contain definitions only. Specification files contain the vocabulary of the statements and do not use
the functions under test beyond their types. Property files contain the property theorems (each closed by `exact`),
`Print Assumptions` for each, and a concrete case beside each.

| model | source |
|---|---|
| `Base.v` | bytes, cursor, outcomes `Ok`/`Throw`/`Ub`/`Stack`/`Fuel` |
| `Value.v` | `value.hpp` (tag and payload), `std::map` as sorted association list |
| `Packed.v` | `packed_bytes.hpp`, `packed_bytes_x86.hpp`, `packed_bytes_arm.hpp`, `bitops.hpp`, bit by bit |
| `Parser.v` | `parser.hpp`, `parser_impl.hpp`, all functions |
| `Cost.v` | the functions of `parser_impl.hpp` again, counting the work they do |
| `DumpCost.v` | the functions of `Dump.v` again, counting the work they do |
| `Depth.v` | the recursive functions on values again, with the nesting they may enter |
| `Source.v` | the functions of `parser_impl.hpp` again for wide strings and `std::deque<char>` |
| `Dump.v` | `append_escaped_string`, `dump_to`, `format_to`, `dumps`, `format`, `to_string` of value, array, object |
| `Stream.v` | `operator<<`; `parse(istream&)` and `open` with the state of the stream, short reads and text mode |
| `Containers.v` | `array_impl.hpp`, `object_impl.hpp`, `value_impl.hpp`: members that act on one value; equality; copying |
| `Iter.v` | iterators of `array` and `object`, when they become invalid, loops over them |
| `Api.v` | programs over several values: constructors, copy and move, assignment, `emplace`, `\|=`, `+=`, `operator[]`, `erase`, `clear`, queries |
| `Heap.v` | the same programs on a heap with addresses, destructors and failing allocations |
| `HeapParse.v` | the parser on that heap |
| `HeapConv.v` | making values of C++ data on that heap |
| `Num.v` | integers as text: `from_chars`, `to_string`, `as_integer` ... |
| `Float.v` | floating-point numbers as text: `%f`, `<< setprecision`, `stof`/`stod`/`stold`; rounding, locales |
| `Enum.v` | `enum_reflection.hpp` |
| `Info.v` | `type_name`, `value_info` |
| `Macro.v` | the macros of `jsonization.hpp` on tokens, and the overload sets over their argument packs |
| `Traits.v` | `utils.hpp` (traits), the overload sets of `value.hpp`, `array.hpp`, `object.hpp`, the `if constexpr` chains |
| `Conv.v` | `is<T>`, `as<T>`, conversion operators, converting constructors, `get`, `find<T>`, `jsonization.hpp` |
| `Left.v` | what `as<T>() &&` and the conversion operators `&&` leave of their source |
| `Messages.v` | the texts of the exceptions of conversions; `json::array` and `json::object` as the source |
| `FaultsMove.v` | conversions of rvalues again, with failing allocations: result and what is left |
| `Faults.v` | the functions that only read values again, with failing allocations and `noexcept` |

| specification | content |
|---|---|
| `Spec.v` | RFC 8259 and JSONC grammars as inductive relations, also by position of the literals; UTF-8, escapes, well-formed values |
| `SpecApi.v` | finite maps, sequences, sound values, misuses |
| `SpecConv.v` | the type universe, exactness, faithfulness, effect on sources |
| `SpecBlank.v` | what an empty value converts to as an rvalue only; data without an empty `std::optional` |
| `SpecFloat.v` | rationals denoted by numbers and by texts, nearest representable number |
| `SpecHeap.v` | a heap represents a list of trees (`sim`), programs on heaps |
| `SpecMoves.v` | commands that read nothing that has been moved from; values no part of which was |
| `SpecRefs.v` | references held across calls, and the calls that end them |
| `SpecIter.v` | the calls that end an iterator, the elements a loop should keep |
| `SpecThreads.v` | renaming of variables, threads that take turns |
| `SpecHeapConv.v` | outcomes of a conversion on a heap |
| `SpecLayout.v` | layout of pretty-printed text as a rule on compact text |
| `SpecSource.v` | UTF-8 text of a sequence of code points |
| `SpecMacro.v` | calls of the macros and the fields they declare |
| `SpecTraits.v` | kinds of types, what a class looks like, the universe of `Conv.v` as C++ types |
| `SpecStream.v` | padding |
| `SpecCost.v` | size and nesting depth of values |
| `SpecDepth.v` | nesting of values, and of C++ types |
| `SpecLeft.v` | types whose conversion takes no elements apart |
| `SpecInfo.v` | descriptions of values; native data made of bytes |
| `SpecMessages.v` | which conversions of parts a conversion consists of; what a text may complain about |
| `SpecFaultsMove.v` | types whose conversion from an rvalue takes nothing before its last allocation; arrays partly taken |
| `SpecFaults.v` | what a reading function may do when memory runs out; types whose `is<T>()` allocates |
| `SpecEffects.v` | what a statement does to a set of variables; big-step meaning of expressions |

| properties | theorems |
|---|---|
| `Properties_Parse.v` | C01-C13, C20, C40, C42, C46-C48 |
| `Properties_Source.v` | C61, C62 |
| `Properties_Cost.v` | C66 |
| `Properties_Depth.v` | C42, C71 |
| `Properties_Dump.v`, `Properties_Layout.v` | C14-C19, C21, C22, C54 |
| `Properties_Containers.v`, `Properties_Effects.v` | C18, C21, C23-C27, C36, C45, C55, C56 (operands that overlap, C26, in the second) |
| `Properties_Conv.v` | C28-C35, C43, C44, C49, C50, C60 |
| `Properties_Left.v` | C67 |
| `Properties_Macro.v` | C63 |
| `Properties_Traits.v` | C64, C65 |
| `Properties_Float.v` | C41, C51, C52 |
| `Properties_Heap.v` | C37-C39, C53 |
| `Properties_Moves.v` | C21, C26, C53, C57 for programs that move |
| `Properties_Threads.v` | C73 |
| `Properties_HeapParse.v` | C48, C68 |
| `Properties_HeapConv.v` | C72 |
| `Properties_Info.v` | C57-C59 |
| `Properties_Stream.v` | C69, C70 |
| `Properties_Faults.v` | C74, C75 |
| `Properties_FaultsMove.v` | C77 |
| `Properties_Noticed.v` | C74, C75, C77: no failed request is passed over |
| `Properties_Messages.v` | C78, C79 |
| `Properties_Refs.v` | C76 |
| `Properties_Iter.v` | C80 |
| `Properties_Swap.v` | C81 |
| `Properties_Given.v` | C49, part by part |

The other files (`*Proofs.v`, `*Theorems.v`, `Heap*.v`, `Samples*.v`, ...) are lemmas and concrete cases.
`Conformance.v` and `ConformanceApi.v` transcribe the assertions of `/repo/test` and the outputs recorded in
`/repo/sample/sample.cpp`, and evaluate the model on them: tests of the model's fidelity, not theorems. All agree.
`tools/` generates `properties.jsonl` and `MANIFEST.json` and runs wrong programs (section 7).

## 2. Conventions

* A byte is an `N`; a buffer is a `list N`; the parser cursor is the list of bytes not yet consumed (it only moves
  forward). `*_cur` and `++_cur` at the end are the outcome `Ub`, and so is any other undefined behaviour: null
  pointer dereference, out-of-range `operator[]`, signed overflow, use after free, a dangling view.
* `parse_value` recurses on a stack budget; running out is `Stack`. Loops that are not structural run on fuel;
  running out is `Fuel`, proved unreachable.
* Exceptions are `Throw e`. Exceptions that leave a `noexcept` function (`value::empty` with a tag that does not match
  the payload) would end the program; the model lets them propagate, and C26 shows when none can arise.
* `std::map<std::string, value>` is a key-sorted association list; `std::vector` a list; `std::unique_ptr` an `option`
  (`None`: null, the state after a move).
* A reference `value&` is a location: a variable and a path of keys and positions. In the heap model it is an address.

## 3. What is modelled, with simplifications

* Parser: every function. `std::string` and `std::vector` growth cannot fail here. In `Parser.v` `parsing_t` is a
  contiguous byte buffer (`std::string`, `std::string_view`, `std::vector<char>`). `Source.v` has the functions that depend on
  `parsing_t` for code units of any width and for `std::deque<char>` (nodes of 512 characters, as in libstdc++).
* Work (`Cost.v`, `DumpCost.v`): reads and moves of the cursor, bytes appended, bytes of blocks, calls and turns of loops are counted;
  growth of strings and vectors is amortised, `std::map::emplace` is charged the height of a red-black tree.
* Depth (`Depth.v`): the recursive functions on values with a number of levels they may enter; the frames of one level are not
  counted separately, nor is their size known.
* Backends: SSE2, AVX2, NEON, 32- and 64-bit words of either endianness, and none, with the selection rule. A vector
  register is a list of lanes.
* Streams: in `Parser.v` a stream is its content if it can be sought, or a failing one. `Stream.v` has the state bits, the
  position, the size announced by `tellg` and the bytes delivered by `read`, which may be fewer (C70 shows when the first view is
  justified); output streams with width, fill, adjustment and a buffer of limited room. `StreamExc.v` has
  both for streams on which `exceptions(mask)` was called; failbit and badbit are not told apart there.
* Containers: all members of `array`, `object` and `value` that take or return JSON types, including iterators as
  positions or keys in `erase`. `Iter.v` has iterators as objects with the standard's rules for when they become invalid; an iterator
  belongs to one container there, so comparing iterators of different containers is left out.
* `Swap.v`: `std::swap` and rotations through a temporary, as sequences of move construction and move assignment, on trees and on the
  heap through references. Of the algorithms of the standard library only the swaps they do are there, not how they choose them.
* Programs (`Api.v`, `Heap.v`): construction, copy and move construction, copy and move assignment, `emplace`,
  `insert`, `push_back`, `|=`, `+=`, `operator[]`, `erase`, `clear`, comparisons, queries, with any aliasing between
  operands; `operator|` and `operator+` as statements that make a new variable, with either operand an lvalue or an
  rvalue. If both are rvalues and the left is part of the right, the program is outside the heap theorems (C53).
* Parsing on the heap (`HeapParse.v`): the elements and members parsed so far are temporaries; any growth of a vector and any text
  may need an allocation (one for a text, however often it grows). Only for `std::string` and `string_view` sources.
* Making values of C++ data on the heap (`HeapConv.v`): as for the parser. JSON values inside the data are outside the heap, and so
  is what `as<T>()` returns.
* Heap: the `json::array` (`json::object`) and the storage of its vector (map) are one node, so references to elements
  survive reallocation of the vector (no modelled operation uses one after it; C76 counts the elements of a vector that
  grows among the references that end). Strings are part of the value holding
  them, but allocating one can fail. Addresses are not reused.
* Failing allocations in reading functions (`Faults.v`): a run is given a list that says for each request for memory whether it
  fails. One entry stands for all the requests of one step (growth of a string while one piece is appended, the copy of a
  `json::value`), since one failing request among several has the same effect. Parameters are `std::string::max_size()` and the
  number of characters a `std::string` holds without allocating (15 in libstdc++ and Microsoft's library, 22 in libc++, none in
  the old ABI of libstdc++). Functions of the user may allocate once; assigning a member by move is taken not to throw.
  Empty containers are taken not to allocate (Microsoft's `std::map`, `std::list` and `std::deque` do).
* Failing allocations in conversions of rvalues (`FaultsMove.v`): likewise; what a `move_from_json` of the user leaves when it
  returns and when it runs out of memory are arbitrary functions. Whether adding an element to a sequence allocates is a
  parameter (`std::vector` has reserved room, `std::list` and `std::deque` have not).
* Integers: widths 8-64, both signs. `from_chars` and `to_string` as the standard describes them.
* Floating point: float, double and long double by precision and exponent range; `%f`, `%.Pg`, `strtod` as C describes
  them, correctly rounded (glibc; it reports underflow for an inexact result that is tiny after rounding, as on x86); the decimal points of the C and C++ locales, and the grouping of digits by the C++ locale as
  libstdc++ does it.
* Conversions: the universe is json types, bool, integers, floating-point numbers, `std::string`, `string_view`,
  `nullptr_t`, `monostate`, `optional`, `shared_ptr`/`unique_ptr`, `vector`/`list`/`deque`, `std::set`, `std::multiset` with any
  comparison, `std::unordered_set`, `std::unordered_multiset` (any container given by what its `emplace` does to the list of its elements),
  `std::array`, tuples and pairs, variants with distinct alternatives, `std::map<std::string, T>`, enumerations, structs
  with `MEO_JSONIZATION` (any tags), classes with `to_json`, `check_json`, `from_json` of their own (members or
  `ext::jsonization`; arbitrary functions), nested without bound. `std::unordered_map` differs in the order of traversal
  only (C32_map_order). `std::filesystem::path` does on POSIX what `std::string` does. Not every conversion the model
  defines compiles: `as<T>()` for integers of 8 and 16 bits and for enumerations over them does not, nor does
  `value(std::vector<bool>&&)`.
* Types (`Traits.v`): a C++ type is described by the members, operations and template form the traits look at, and by the
  functions the user has written for it. Overload resolution is for one argument: rank of the conversion, binding of
  references, templates after others, more specialized templates first. Constructors of a class that take a `json::value`
  are not considered in casts to it.
* Macros: the arguments of a call are tokens; the preprocessor expands arguments before it inserts them and splits at the
  commas that result (checked with macros of my own). Members whose names are macros are not modelled.
* Enumerations: names, aliases, underlying type (casts from int wrap to it), reflection range, `MEOJSON_ENUM_AS_NUMBER`.
  The text of the function signature is built as GCC, Clang and MSVC print it and is searched and cut as the code does.
  GCC's form was observed with a program of my own; those of Clang and MSVC could not be checked here and are an
  assumption (`instance_text` in `Enum.v`). The conversions of `Conv.v` are written for every width; which underlying types
  compile is in `Traits.v` (`enum_operator_compiles`).

The texts of exceptions are in `Messages.v`, beside the
functions of `Conv.v`, which have the class only (C78_same says that they are the same functions). The names of the integer types are
a parameter, because which type is meant by a width is the platform's choice; exceptions of the user's functions keep their own text,
which is not modelled; what `move_from_json` of the user leaves of a value is a parameter. Threads
take turns statement by statement (C73); that statements of different threads touch different nodes, so that their order inside
does not matter either, is C73_heap_named_only. The library has no static data.

### Choices the C++ rules make for the library

Where a conversion could select several overloads, the choice was checked against the language rules with small
self-written programs (no project code) compiled with g++ 13:
* `static_cast<std::optional<T>>(v)`: the converting constructor of `std::optional` is preferred to the conversion
  operator of `value`, so null is converted to `T`.
* `static_cast<std::tuple<T>>(v)`: the converting constructor of a one-element tuple is preferred.
* `std::variant` with an alternative into which `json::value` converts implicitly (`json::value`, `optional<value>`,
  `tuple<value>`, a variant that takes one) is constructed through its converting constructor: `json::value` itself
  if there, else the only such alternative; with two of them the conversion operator is used.
* `value(wrapper_t&&)` binds to non-const lvalues.
* `std::string::operator=(std::string&&)` on itself empties the string, a moved-from string is empty (libstdc++).
* `std::variant` move assignment between different alternatives destroys the old one first; `unique_ptr` move
  assignment installs the new pointer before deleting the old one.
* for an rvalue the template conversion operator `&&` is preferred to `operator array() const` and `operator object() const`.
* the outcomes of `Traits.v` for some forty types agree with those of overload sets of the same shape.
* the range constructor of `std::map` keeps the first of equal keys.

## 4. Properties

Status and theorem names are in `MANIFEST.json`; what is missing for a partial one is in its note. How they are proved:

| id | proof |
|---|---|
| C01, C02 | induction on budget and fuel: the outcome is never `Ub`; budget `length + 1` suffices |
| C03, C06 | rule induction on the grammar, generalised over the continuation |
| C04, C07, C12, C20 | induction on executions: the exact accepted language, by position of the literals for block scans, then comparison with the RFC |
| C05, C47 | invariant of executions |
| C08 | from C03, C06 |
| C09, C13 | string scanner against the denotation of escapes; UTF-8 cut at ASCII bytes |
| C10, C11 | borrow analysis of the word tricks, lane lemmas for the vectors, transparency of the block scan; five texts that tell the classes of builds apart |
| C14-C19, C22, C54 | the output is in the grammar; completeness of the parser; prefix-freeness; layout by induction on values |
| C21, C26, C45 | invariant over histories of statements |
| C23-C25, C27, C36 | refinement to finite maps and lists, structural induction |
| C28-C33, C43, C44, C49 | induction on the type universe |
| C49, exactly | one step of the constructors (`passed`), induction on positions; objects alike part by part are equal |
| C61, C62 | equality of the two parsers on suffixes of the input; safety by induction on budget and fuel |
| C63 | splitting, counting and overload resolution by induction on the call; refinement to the fields of `Conv.v` |
| C64, C65 | case analysis on the traits; a class that looks like one thing has at most one of them |
| C60 | invariant of the insertions |
| C34, C35, C50 | lists of fields and enumerators |
| C37-C39, C53 | simulation: a heap represents trees with disjoint footprints; every command preserves it |
| C40, C46, C48 | the wrappers |
| C41, C51, C52 | exact rational arithmetic; decimal and binary rounding; enough digits to separate neighbours |
| C42 | refuted for every stack size; proved: as many levels as the text opens brackets are enough for it, and with one less some text overflows |
| C57 | soundness of values as an invariant |
| C58 | computation on the seven tags, text of scalars from C14 |
| C59 | composition of C32, C15 and the theorems on bytes |
| C66 | an instrumented parser and serializer, proved to return the same outcome; potential argument on the cursor, induction on the value |
| C67 | induction over types: the source is untouched, or emptied; the loops stop at the first element that fails |
| C68 | simulation of the parser of `Parser.v` by the one on the heap |
| C69 | the padded text as one list; C16 and C19 for reading back |
| C70 | accepted documents are closed under removing and adding NULs behind them and CRs before LFs; for words of at most eight bytes of either byte order literals do not depend on what follows them (`WordsProofs.v`); induction on the grammar |
| C71 | induction on the number of levels, for each function and for the parser's loops |
| C72 | simulation of `to_value` by the conversions on the heap, induction over types |
| C73 | two runs of a statement related by a renaming of the variables; induction on the turns |
| C76 | every heap lemma also says which places the paths lead to afterwards; composed per command, then induction on the program |
| C78, C79 | the functions with texts related to those without; induction on the type |
| C80 | induction on the calls between making and using an iterator, and on the rest of the elements for loops |
| C81 | effect of a move assignment between disjoint places, induction on the places; on the heap also which places the paths lead to |
| C77 | as C75, with the state of the source carried along; induction on the type and on the elements |
| C74, C75 | induction on the value or type: the run with failures follows the run without them up to the first failure |
| C55, C56 | each call and statement against a description of its effect |

## 5. Where the code does not have the property (theorems `*_refuted`)

* C04, C07: `[]/x` is accepted: after the root, `skip_whitespace` stops at a slash or NUL and `parse` takes that for the
  end. A malformed comment after the root is accepted by `parsec` too.
* C08: such a text is accepted by `parse` and may be rejected by `parsec`: exactly if something other than white space and comments follows the value before the parser stops reading.
* C09: a low surrogate may be separated from its high surrogate by other escapes.
* C10: with a pending high surrogate the block-scan builds and the scalar build differ; so do blocks of different sizes (how many
  bytes follow in the text matters) and the two byte orders (on big-endian machines a closing bracket in front of the low
  surrogate's backslash stops the scan).
* C42: recursion depth is not bounded; deep nesting exhausts any stack. As many levels as a text opens brackets are always enough for it.
* C48: a stream that cannot be sought makes `parse(istream&)` throw `std::length_error`; no other does.
* C69: after `setw(n)` and `setfill(c)` with another character than white space, what `out << v` writes cannot be read back.
* C70: with blocks of 16 or 32 bytes and a high surrogate separated from its low one, NULs behind the text change the outcome, and so does text mode on Windows.
* C21: `value(value_type, args...)` is public and accepts any text for any type. After `value y = std::move(x)` a number `x`
  has no text left (the string of libstdc++ is empty), and `x.dumps()` is the empty text.
* C25: `null | object` throws for lvalues and converts for rvalues; the same for `+`.
* C26: `v[k] = v` leaves a tag that does not match its payload, exactly when `v[k]` had another type than `v`
  (`C26_copy_into_part_exactly`); `v |= v[k].as_object()` (exactly when that object has
  a member `k`), `v |= v.as_object()` for an empty `v` and `v += v.as_array()` are undefined.
* C45: `erase` on an empty value returns false and converts the value, exactly for null, the empty string and the other empty
  container (`C45_erase_false_exactly`).
* C28: `get(k, std::optional<T>{})` throws on null; `get(k, std::string_view{})` returns a dangling view; `get(k, nullptr)`
  constructs `std::string(nullptr)`.
* C29: `is` and `as` disagree for `std::optional`, `std::tuple<T>`, enumerations over bool and without fixed underlying type; for the first two exactly on null that is not a T, and on values for which being a T and being an array of one T differ.
* C32, C33: `std::nullopt` is written as null and cannot be read back; one-element tuples neither. Both for all data of the types in question (`C32_native_exactly`, `C32_one_tuple_never`, `C33_native_exactly`).
* C34: `from_json` assigns fields before it finds a bad one; the target is unchanged exactly if they already had what is loaded.
* C35: names that differ by case only; second names of a value (`MEOJSON_ENUM_RANGE` before the enumerators hides the names
  of the first and last; at the end, as documented, it is harmless); an enumerator over `uint8_t` above the range is
  found by name, since the cast wraps, but cannot be converted to text.
* C43: an rvalue null converts to an empty vector, an lvalue null throws; the same for `json::array`, `json::object`. `blank` (`SpecBlank.v`) lists every such type and value, and they are the only ones.
* C44: `std::variant<int, json::value>` from `5` holds a `json::value`, `std::variant<int, std::optional<json::value>>` an
  optional.
* C49: constructing a value from an lvalue `optional`, `shared_ptr` or `unique_ptr` moves from it.
* C50: `enum_to_string` overflows for values near `INT_MAX` and truncates 64-bit values. With `MEOJSON_ENUM_AS_NUMBER` an
  enumeration over `bool` is written as a boolean, which `is<E>()` accepts and `as<E>()` rejects, always.
* C41, C51, C52: infinities and NaNs; decimal-comma locales; with `MEOJSON_KEEP_FLOATING_PRECISION` and a global C++
  locale that separates thousands, `[1234.5]` is written as `[1,234.5]`; `1e-7` becomes 0 in the default build; subnormal numbers, all
  of them, throw when read back.
* C57: `value(value_type::array)` is public and has the content of a string; `empty()` and `is<T>()`, both `noexcept`, throw.
* C58: `value_info` cuts the text after 100 bytes and may split a UTF-8 character.
* C59: scalars are written as documents that the parser does not accept.
* C61: in wide strings every character beyond ASCII is rejected or cut to eight bits; `[-İ5]` (U+0130) is accepted and
  gives the number `-05`.
* C62: `std::deque<char>`: the block scan reads across the end of a node.
* C64: `value(e)` is ambiguous for an enumeration with `ext::jsonization`, for a class with functions of both kinds, and for
  `std::optional` once it has `begin()` (C++26); pointers, C arrays, wide and `char8_t` literals become `true`; a tuple-like
  sequence is written as a tuple and read as a sequence; a sequence that converts to `std::string` is written as an array
  and asked for text; `as<T>() &&` ignores `from_json` of a specialization for a wrapper; `v.emplace(std::pair)` on an
  object goes to `as_array()` and throws; `as<E>()` does not compile for an enumeration over `char`, `short` or `unsigned char`
  (the operator converts to the underlying type, for which `value` has no operator), though `value(e)` and `is<E>()` do.
* C37-C39, C53: copy assignment, `as_array`, `as_object` and `operator[]` set the tag before they allocate; a failed
  allocation leaves the new tag with the old payload. `v = std::move(v[k])` with different alternatives is a use after
  free, always (`C38_move_from_part_undefined`). `v[k] = std::move(v)` leaks the object as its own member.
* C67: `(std::map<std::string, json::value>)std::move(v)` and `(json::object)std::move(v)` leave an object whose members have
  been moved out, so that `v.dumps()` is undefined; arrays are cleared. `(std::tuple<json::value, int>)std::move(v)` on
  `[[1],"x"]` throws after moving the first element out.
* C74: `format(n)` with an indentation beyond `std::string::max_size()` throws `std::length_error`. With a `std::string` that always
  allocates, `value_info()` (`noexcept`) ends the program when memory runs out: its handler allocates again.
* C75: `is<T>()` is `noexcept`, but `check_json` makes a `std::string` of every key; for a key of more than 15 characters
  (libstdc++) this allocates, and `std::bad_alloc` ends the program. `as<T>()` and `get` reach this through members and alternatives.
* C77: `(std::list<json::value>)std::move(v)`, `(json::array)std::move(v)` and `(json::object)std::move(v)` move an element out before
  they allocate its place; when that fails the element is gone and the source holds null pointers.
  `(std::unique_ptr<std::vector<int>>)std::move(v)` clears the array before `make_unique`. A null or empty value keeps the tag of the
  container that could not be allocated.
* C78: the text of a failed conversion repeats a number whole, however long; it does not say which element of an array or which field
  of a struct is wrong (`error_key` is not used); for an enumerator without a name it describes the empty string that was just made instead
  of the number; `what()` ends at a zero byte. `std::move(v).as<T>()` with a `move_from_json` that takes the value and returns false
  describes what is left: a null pointer is dereferenced if that is a moved-from array or object.
* C79: `arr.as<std::tuple<T>>()` converts the only element, `v.as<std::tuple<T>>()` the whole array. `(T)std::move(arr)` with
  `move_from_json` empties `arr` in any case, and the text then says `size=0`.
* C80: `array::erase(iterator)` returns `bool`, not the next iterator, so a loop over iterators of an array cannot erase and go on:
  it is undefined as soon as an element is erased (`C80_array_sweep`). The same loop over an object works.
* C81: `std::swap(v, v[k])` leaves `v` with the former `v[k]`, and the former `v` owning itself: it leaks.

Each is a theorem with a concrete witness run by `vm_compute`, next to the theorem for what does hold.

Smaller observations: a struct with only optional fields accepts any JSON; of two fields with the same effective key the
last one wins; the width of the indentation is computed modulo 2^64 (C54 assumes it does not wrap); empty containers are
pretty-printed over two lines. `(std::array<int, 2>)std::move(v)` of null complains about the size 0, `(std::array<int, 2>)v` about the
type. `value::get` with two keys and a `std::string_view` default does not compile.

Not modelled, but seen with small classes of the same shape in g++ 13 (compilers differ here): a one-argument `json::parse(x)` with an
`std::ifstream`, `std::istringstream`, `char*` or `char[N]` selects the template for strings and does not compile, while
`std::istream&` and string literals do; `array b{a}` is `[a]` and no copy; `array{3}` is `[3]`, `array(3)` has three nulls;
`array{{1, 2}}` is `[1, 2]` and `array{{1, 2}, {3, 4}}` does not compile; `value{{}}` is `{"": null}`; `value{{}, x}` selects the
constructor from a type and a raw value, and makes a value of the type invalid. `open()` of a directory asks for as many bytes as
`tellg` says there, which in libstdc++ is more than a string can have: `length_error`.

## 6. Trusted base

* Coq 8.16.1's kernel (`vm_compute` included).
* `Print Assumptions` reports `Closed under the global context` for every property theorem. `coqchk -o` lists the seven
  axioms of `Coq.ssr.ssrunder.Under_rel` (part of the standard library, loaded by `ZArith`; no theorem uses them).
* The reading of the C++ recorded in the comments of the model files, the language choices of section 3, and the
  specification files.

## 7. Wrong programs

`tools/mutate.py` makes one edit to a model file in a scratch copy and rebuilds; a proof that fails is replaced by
`Admitted` there and the build goes on, so `Print Assumptions` lists the property theorems that lost their proof. The edits
are in `seeded/mutants.py`, the results in `seeded/LOG.jsonl`, one line for each attempt, by rounds. `theorems_failed`
includes theorems whose proof uses a lemma that failed, also when they would still be true. Equivalent edits are marked
with a note. `error` is an edit after which a definition of a proof file, not a proof, failed.

What the rounds led to: round 1 to C22_escape_bytewise, C54, C55 and C56 (edits of the layout, of `empty()` on null and of
moves had only broken proofs, not claims) and to C37_copy_constructor; round 4 to C41_groups; round 5 to C64_scalars and
C64_emplace_object; round 6 to C67_stops_at_failure; round 13 to C78_moved_same, C78_moved_says_partial, C78_what and C78_enum.

The lines with round `auto` come from a program that goes through the definitions of all model files and replaces one
operator, constant or outcome in each (`<?` by `<=?`, `&&` by `||`, `true` by `false`, `Ub` by `Throw`, a constant by its
successor, `firstn` by `skipn` and so on). An attempt ends at the first file that does not build. Survivors were looked at one by
one: most behave the same (the line says why); `obj_erase_iter` showed that no theorem gave the result of
`object::erase(iterator)`, which is now part of C23.
