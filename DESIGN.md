# Formal model of davidstone/bounded-integer in Rocq

## 1. Approach

The repository is a header/module-only C++ template library. The model is a set
of total, computable Gallina functions, one per C++ function, over a small
explicit semantics of the part of C++ the library uses:

* `Cxx.v` - C++ built-in integers: types with width and signedness, conversion
  (`static_cast`) as reduction modulo 2^n, integer promotion, usual arithmetic
  conversions, arithmetic with signed overflow / division by zero / oversized
  shift as undefined behaviour.
* Every run-time function returns an `outcome`: `Ok v`, `UB` (undefined
  behaviour, `std::unreachable`, failed `[[assume]]`, failed `BOUNDED_ASSERT`)
  or `Throw`. Theorems that say "returns" therefore also say "without undefined
  behaviour".
* Every compile-time computation (template arguments, `static_assert`,
  `if constexpr`, concept checks) returns an `option`: `None` means the program
  is ill-formed (does not compile). Undefined behaviour during constant
  evaluation is ill-formed, so it maps to `None`.
* A bounded integer *type* is a pair of bounds (`bty`); a bounded integer
  *object* is the raw value of its storage type. `value()` reads it and is `UB`
  if the raw value is outside the bounds, exactly like the `[[assume]]`.

## 2. Platform assumptions

x86-64 clang, LP64, `__int128` available: `int` 32 bits, `long` and `long long`
64 bits, `numeric_traits::max_signed_t` = `__int128`,
`numeric_traits::max_unsigned_t` = `unsigned __int128`. Right shift of negative
values is arithmetic and conversion is modular (C++20).

External libraries that are not in the repository are modelled by their
documented behaviour: `numeric_traits` (`min_value`, `max_value`,
`promoted_unsigned`, `make_unsigned`), `operators` (binary `a - b` is
`a + -b`; `a op= b` is `a = a op b`; postfix `++` copies then increments),
the C++ standard library (`std::string`, `std::swap`, `std::exchange`, ...).

## 3. Plan per property (bounded integers)

| property | modelled | proof |
|---|---|---|
| C01 addition | `safer_add`, `operator+`, result type construction | case analysis, modular arithmetic; exact characterisation of acceptance |
| C02 subtraction | `a + -b` | composition of C01 and C03 |
| C03 negation | `safer_negation`, unary `operator-` | modular arithmetic |
| C04 multiplication | `safer_multiply`, `operator*` | full property is false of the code (mixed-sign products between -2^128 and -2^127 wrap silently at compile time): `_refuted` witness, and a `_partial` theorem for all products that fit; `C04_multiplication_exactly`: it is right for exactly the types none of whose products is below -2^127 |
| C05 division | `safer_divide`, `divides_operator_range`, `operator/` | monotonicity of truncated division per sign region |
| C06 modulus | `modulo_round`, `sign_free_value` loop, `modulus_operator_range`, `operator%` | loop invariant |
| C07 comparison | `safe_compare`, `safe_equal`, `operator<=>`, `operator==` | case analysis over type pairs |
| C08 conversion | `overlapping_integer`, `bounded_by_range`, constructors | |
| C09 check_in_range | `check_in_range` | |
| C10 clamp | `clamp` via `min`/`max` | |
| C11 assignment | `operator=`, compound assignment, `++`/`--` | induction over update sequences |
| C12 min/max | `extreme_value`, variadic fold | induction over the argument list |
| C13 abs | `abs` | |
| C14 storage | `normalize`, `value_fits_in_type`, `determine_type` | case analysis |
| C15 parsing | `to_integer` | induction over the string |
| C16 printing | `to_string` for 128-bit | induction; round trip with C15 |
| C17 pow | `pow_impl`, `pow` | induction on the exponent |
| C18 log | `log_impl`, `log` | induction |
| C19 digits | `digits_impl` | from C18 |
| C20 numeric_limits | `digits` | from C18 |
| C21 tombstones | `tombstone<integer>` | arithmetic |
| C22 shifts, and | `<<`, `>>`, `&` | false in general: refutations, partial theorems for non-negative operands |
| C23 literals | `literal_impl` | induction; false for literals >= 2^128: refutation |
| C24 expressions | all of the above composed | induction over expression trees |
| C25 common type | `std::common_type` | lattice reasoning |
| C26 scope guards | `scope_guard`, `scope_fail` | invariant over histories |
| C27 round_up_divide | composition | false for negative numerators: refutation + partial, and `C27_round_up_exactly`: for which values it is right, with an equivalence |
| C28 mixed operators | `operators_builtin` | composition |
| C29 narrowing | `increase_min`, ... | |

## 4. Containers

`Mem.v` is a small semantics of storage and object lifetimes: blocks of cells
that are raw or hold a living object, and a `script` that says for every
operation that may throw (allocation, copy, predicate) whether it does.
Quantifying over scripts is quantifying over every crash point. A function is a
state transformer with three outcomes: `Ret`, `Exc` (left by an exception),
`Bad fault`. A fault is undefined behaviour (access to a dead object or outside a
block, wrong release, false precondition, exception out of a noexcept function)
or a leak (storage released with a living object in it).

`Vec.v` models the containers function by function, over a record `container`
that plays the role of the template parameter: what the generic algorithms ask
of the container. `bounded_vector` (with `vector` as the case of minimum
capacity 0) and `static_vector` are instances. Proofs use weakest preconditions
(`MemLemmas.v`), an ownership predicate per container (`VecInst.v`) and laws of the record
(`VecLemmas*.v`).

| property | modelled | proof |
|---|---|---|
| C30-C34, C39 | `lazy_push_back`, `pop_back`, `clear`, `erase`, `insert`, `append`, `resize`, `reserve`, `shrink_to_fit`, `assign` | symbolic execution of the loops with invariants over the block |
| C35, C38, C44 | constructors, destructor, assignment, swap | the same; constructors unwind their members |
| C36, C43 | `static_vector` | the same lemmas, other instance |
| C37 | `erase_if` | loop invariant |
| C40 | growth at the capacity limit | refutations; partial: after `reserve`; an empty vector can be filled one by one exactly when the maximum is a power of two |
| C41 | any sequence of calls, exceptions caught | induction over the sequence, from C30-C39 |
| C42 | number of allocations | induction with a doubling invariant |
| C45 | pointers to elements | storage unchanged + C30-C37 |
| C88, C90-C93 | `sbo_vector.cpp`: the buffer as a block of the object, the union and the flag, `reserve`, `replace_empty_allocation`, moves, constructors | a third instance of the laws; new blocks counted |
| C94-C96 | `dynamic_array.cpp`: all constructors from ranges, assignment, moves, `clear` | on the same memory; weakest preconditions, an object that is moved from as a second state |
| C89 | `split_size_bytes`, `recombine_size`, the bit-field of seven bits | arithmetic on bytes, for every size |

### tv

`Variant.v`, `Optional.v` and `Nested.v` model variant, optional and the representation of (nested) optionals; `Tuple.v` the tuples.
They use the memory of `Mem.v`: a variant is an index and a block of one cell whose object is tagged with its
alternative, so reading the wrong alternative is a fault. `optional` is modelled over a record of what it asks of its
storage, with the two storages of the code as instances.

| property | modelled | proof |
|---|---|---|
| C46 | the switch of `visit` in blocks of 16, `get_index` | induction on the recursion |
| C47-C52 | constructors, `emplace`, assignment, destructor, `[]`, `==` | symbolic execution; C51 by induction over the calls |
| C53, C54 | `optional` over its two storages | symbolic execution |
| C55 | `tombstone_traits` of bounded integers, of classes with such a member, of optionals | induction over the depth, from C21 |
| C56, C57 | folds over the index sequence, the index pairs of `tuple_cat` | induction over the lists |

Properties of further containers and algorithms are appended below as the model grows.

### Algorithms

The range is a list of cells of a block of `Mem.v`, an iterator an index; a comparison reads two living objects and may throw.

| property | model | proof |
|---|---|---|
| C58 | `Sort.v`: the nested `if`s of `sort_exactly_1..5` as trees, generated from the source text; swaps, rotations, relocations on memory | a checker decides for each path that its comparisons force its result to be sorted, stably; proved sound for every strict weak order, then run on the trees |
| C59 | `chunk_loop`, `merge_loop` on two blocks | induction over the chunks and the merge; both the cases that sort and the cases that fail |
| C60 | `fixed_merge_loop` | induction over the merge |
| C61 | `is_sorted_loop` | induction |
| C62 | `Algo.v`: the loops of find.cpp on memory, predicates read one object and may throw | induction over the rest of the range |
| C63 | both loops of `partition` | invariant: everything left of `first` fulfils the predicate, everything from `last` on does not; swaps are permutations |
| C64 | `partition_point` with a step counter, binary searches on top | invariant over the halving; calls are counted by the script of throws |
| C65 | `min_element` loop | the chosen index as a function of the number of elements seen |
| C66 | `iterator_partition` with the moving pivot | invariant: the pivot value stays at `middle` |
| C67 | `introsort` by recursion on the depth; `std::make_heap`/`sort_heap` a parameter | induction on the depth from C58 and C66; a selection sort shows that the contract of the parameter can be met |
| C68 | `to_radix_sort_key` on the integer arithmetic of `Cxx.v` and the bounded integers of `Core.v`; enumerations by underlying type and declared limits; IEEE 754 bit patterns as integers with a separate reading of them as numbers | arithmetic; the magnitude of a pattern increases with the pattern |
| C69 | `double_buffered_ska_sort` on lists of values (moves leave `moved v`); keys are booleans, integers of n bytes and nested tuples; ranges as keys are not modelled | counting sort by one byte puts the groups one after the other; a stable sort by a less significant part followed by one by a more significant part is a stable sort by both; induction on bytes and on the kind of key |
| C70 | `inplace_radix_sort` on lists of values, with the permutation loops of `american_flag_sort` and `ska_byte_sort`, `partition`, `common_prefix`, `list_sort` with elements that are again ranges | invariant of the permutation loops: what each group has received and still holds; induction on bytes, recursion limit and parts of the key; the early return of `american_flag_sort` is the reason for the hypotheses on sizes |
| C71, C72 | `unique.cpp` on memory that is a list of arrays of values; `assign` by copy, by move and by move to itself | the result of `unique` is a run-length skeleton (`dedup`) of the input; memory lemmas for reading and writing; `unique_merge_copy` refines a merge on lists |
| C73 | `unique_inplace_merge` with its temporary array and `find_first_to_move` | invariant: the output never overtakes the rest of the second range; equal positions are the self-moves |
| C74, C75 | `flat_map.cpp`: the underlying container is the list of its elements; searches as in `partition.cpp` | `find` is sound for any container, complete for ordered ones |
| C76 | constructors and `insert` of a range, on top of the models of `ska_sort` and `unique_inplace_merge` | C70, C71 and C73; the result has one element of every class |
| C77 | `upsert`, whose lookups run over the elements appended so far | induction on the range, with and without the hypothesis that the container is ordered when a known key is looked up |
| C78, C79 | `linear_map.cpp`: `find`, `lazy_insert`, the removal of duplicates by swapping with the last element | invariant of the removal loop: the checked part is distinct, and what was removed has a key in it |
| C80, C81 | `bidirectional_linked_list.cpp`, `linked_list_helper.cpp`, `insert.cpp`, `algorithms/erase.cpp`, `clear.cpp`, `lazy_push_front.cpp`, `pop_front.cpp` on a memory of named objects (sentinels, nodes); allocations and element constructors may throw as the outside world decides | "the list at s has these nodes and values" as a ring of `next` and `previous`; every operation is a change of at most six links, whose effect on rings is computed with disjointness; loops by induction on the elements |
| C82 | `splice`, `link_range`, `unlink_range` | two rings are cut and joined; within one ring a rotation of two neighbouring parts |
| C83, C84 | `swap`, moves, copies, copy assignment (`assign.cpp`, `copy_truncate`) | the four cases of emptiness; copy assignment by induction on both lists |
| C85, C86 | constructors that throw; the result of `insert` | witnesses; for C86 for every list; `C85_exactly_…`: what each constructor and insert lose when they throw is exactly the nodes that they had made |
| C87 | `forward_linked_list.cpp`, `append_after.cpp`, `erase_after` of one element and of a range, `copy_truncate_after` | chains of `next` that end in null, cut at a place before the change |

### Ranges and views

A range is a record of what its iterators can do (`Range.v`): begin, comparison with the end, dereference, + 1, and, where they exist, ==, <=>, -, - 1, + offset, size, with the largest value of difference_type. Operations return a value, undefined behaviour, an exception or "more steps needed" for loops, which take fuel; the theorems hold for all fuel above the number of elements. A view is a function from ranges to ranges, so views compose. The specification (`SpecRange.v`) says that a range consists of a list of elements: every operation it has is right at every position. Functions and predicates of the user have no effects.

| Property | Modelled | Proved by |
|---|---|---|
| C97 | `transform.cpp`, `reverse_iterator.cpp` on `adapt.cpp`, `adapt_iterator.cpp` | each law of the view from that of the base |
| C98 | `filter.cpp`, `remove_none.cpp` | positions of the kept elements |
| C99, C100 | `take.cpp`, `drop.cpp`, `drop_back.cpp`, both with and without a size, with the types of the counts | the same, offsets and differences within the difference type |
| C101, C102 | `zip.cpp`, `concatenate_view.cpp` for any number of ranges | induction on the ranges |
| C103 | `join_with.cpp`, `join.cpp`, `linear_size.cpp` | what is left to read from a state; strong induction |
| C104, C105 | `split.cpp`, both delimiters, both views | runs of the iterator; positions of the pieces |
| C106, C107, C108 | `chunk_by.cpp`, `adjacent.cpp`, `batched.cpp` | runs; positions |
| C109 | `integer_range.cpp` | arithmetic |
| C110, C111 | `compare.cpp`, `mismatch.cpp`, `starts_with.cpp`, `ends_with.cpp` | what the loops compute on the lists; the definitions of the orders |
| C112 | `accumulate.cpp` on the bounded integers of sections 1 to 3 | sums of the first elements stay in the type of the sum; false where the type of a product is (C04) |
| C113 | `count.cpp`, `distance.cpp`, `at.cpp`, `front.cpp`, `back.cpp`, `is_empty.cpp`, `size.cpp` | positions |
| C114 | `generate.cpp`, `generate_until.cpp`, `repeat_n.cpp`; the functions may have effects | induction on the calls |
| C115 | `set.cpp` | positions of the pairs; classes of equivalent elements |
| C116 | `concatenate.cpp` on the memory of `Mem.v`, any number of arguments | weakest preconditions; invariant over the arguments with one of them under construction |
| C117 | `reverse.cpp`, both loops, on the memory of `Mem.v` | the middle of the range as the loop invariant |
| C118 | `keyed_erase.cpp`, `keyed_equal_range`, `maybe_find.cpp` | elements with one key are next to each other |
| C119 | histories of `keyed_insert`, `keyed_erase`, `lookup`, `size` | simulation by the dictionary of `SpecDict.v` |
| C120, C121 | `std/vector.cpp`, `std/inplace_vector.cpp` on top of `Vec.v`; the temporary copy is a block of its own | the theorems of `VecProofs.v` with the block of the temporary among the other memory |
| C122, C123 | `std/list.cpp`: the bidirectional list of `LinkedList.v` and a 64-bit count per list, operation by operation (`StdList.v`); a client that makes any history of calls and catches exceptions (`SpecStdList.v`) | each operation does to the memory what that of the plain list does, and the count follows; induction over the history |
| C124 | programs over a list of `sbo_vector` objects (`SpecPrograms.v`): creation, destruction, calls on one and on two of them, with elements of other vectors or of the same one as arguments; the client checks preconditions by the sizes and catches exceptions | the theorems on single calls with the other vectors as the rest of the memory; induction over the program |
| C125 | `operator>>` of `string.cpp` over a stream with its characters, width and state bits (`StringIn.v`); the characters are of any type with any test for spaces | induction over the word |
| C126 | types of functions as records with size, alignment, representation and calls; a wrapper is its bytes and a pointer to a function on bytes (`InplaceFunction.v`); programs over any number of objects (`SpecInplaceFunction.v`) | simulation: the bytes represent the state of the function |
| C127 | StreamInt.v: `write`, `intermediate`, `take` (the range check and assignment) and `read` over the streams of StringIn.v; the streams' own operators for built-in integers are modelled as the usual libraries implement them (optional sign, all digits, nearest value and failbit out of range, 0 and failbit without digits) | induction on the text for the digits; induction on the list of values for sequences; the range check from C09 |
| C128 | ToAnyString.v: `to_any_string` with the bounded operations `%`, `/=`, `+`, `abs`, `>` of the model; the string as a list of characters | the loop makes the same steps as the one of C16 |
| C129 | programs over a list of `vector` objects (`SpecVecPrograms.v`), with the client's record of the vectors it moved from; copies, moves, swaps, self-move, arguments from other vectors or the same one | generic lemmas on several objects in one memory (`Several.v`), the theorems on single calls with the other vectors as the rest of the memory; induction over the program |
| C130 | programs over a list of `static_vector` objects (`SpecStaticPrograms.v`), which look at the sizes alone; calls that lack room, vectors used after a move | the theorems on single calls of C36 with the other vectors as the rest of the memory; induction over the program |
| C131 | programs over a list of `stable_vector` objects, which are `bounded_vector` objects whose smallest and largest capacity are the same (`SpecStablePrograms.v`); where `data()` points after each step | the calls with a fixed capacity, the other vectors as the rest of the memory, induction over the program; that the storage is kept, by induction on the operations |
| C132 | `string_view`, `static_string`, `static_null_terminated_string`, their literals, comparisons and hashes over a memory of blocks of characters (`Strings.v`); the comparisons are the models of `lexicographical_compare_3way` and `equal` in `Sequence.v` | the places of characters in blocks; texts are ranges that list their characters; C110's lemmas |
| C133 | adaptive clients of any number of bidirectional lists, which keep iterators and see each reply (`SpecListPrograms.v`: the calls, the lists as elements with addresses and the allowed steps) over the memory of `LinkedList.v` | the theorems on single calls of C80 to C84 with the other lists as the rest of memory; a logic of memories that go from lists to lists without touching other objects; induction over the client |
| C134 | shifts of std::byte over the built-in shifts of `Cxx.v`; span and as_bytes over the memory of `Strings.v`, blocks of bytes with elements of any number of bytes, including writes (`Bytes.v`) | `SpecBytes.v` says which elements are at a place and that one part of memory was replaced and nothing else; arithmetic of places by the length of a concatenation |
| C135 | Programs with any number of dynamic_arrays: steps over a list of objects, each checked against a list of states (`SpecDynPrograms.v`), over the objects of `DynArray.v` | one lemma for each step, for every script of exceptions; induction over the program (`DynPrograms.v`) |
| C136 | Programs with any number of variants: steps over a list of objects, each checked against a list of alternatives and values (`SpecVariantPrograms.v`), over the objects of `Variant.v`; sources are values and elements of the variants, copied or moved | one lemma for each step, for every script of exceptions, with the memory split between the variants; induction over the program (`VariantPrograms.v`) |
| C137 | `array` with one or several sizes (as lists of lists), `to_array` and `make_array_n` on the storage of `Mem.v` with aggregate initialization clause by clause (`Array.v`); also element constructors that throw when they move | a relation of reading expressions in memory, induction over the clauses for every script of exceptions; induction over the number of sizes for the comparison and the subscripts (`ArrayProofs.v`); theorems in `PropsArray.v` against `SpecArray.v` |
| C138 | `common_type_and_value_category` on types with cv and reference; two-argument `extreme_value` (general and for bounded integers) and the variadic `extreme` on operands that carry their object, constness and value category, with the rules of the conditional operator; a new object inside the variadic function is a temporary that ends with the call (`References.v`) | case analysis of the types; induction over the arguments with the invariant that what is at hand is an rvalue or names an lvalue argument; counterexamples by computation |
| C139 | `legacy_iterator` with both kinds of storage and `legacy_range` as a range made from a range (`Legacy.v`, on `Range.v`) | position by position, with the lemma on subranges |
| C140 | `append` through `lazy_push_back` and `legacy_append` to standard containers, given by what the standard promises, and to the linked list (`Append.v`) | induction along the source, one invariant for copied, moved and relocated elements |
| C141, C142 | FlatMemory.v: lower and upper bound, find, insertion, erasure and lookup of a flat map as programs over the memory of Mem.v, on top of the generic container of Vec.v; programs that catch every exception; lives of flat_map, flat_multimap and the static ones | SpecFlatMemory.v: `explained`; an action either is what the list model of FlatMap.v says (C45 and others) or changes nothing; induction over the actions; pigeonhole for the number of keys; powers of two for the capacity |
| C143, C144 | LinearMemory.v (and MapUnsized.v, constructors from ranges of unknown size, also for C146): find, insertion, erasure and lookup of a linear map, and the loop that removes duplicates, as programs over the memory of Mem.v, on top of the generic container of Vec.v; every comparison may throw; lives of linear_map and static_linear_map | `explained` of SpecFlatMemory.v; the loop in memory does what the loop on lists (LinearMap.v) does or throws with a permutation of the elements; ranges without a size in PropsUnsized.v |
| C145, C146 | UniqueMemory.v: unique, unique_inplace_merge with its temporary array, and insertion and construction of a flat map from a range, as programs over the memory of Mem.v; the sort function is a parameter with what it leaves behind when it throws | `remains` of SpecFlatRange.v; the programs in memory do what those on arrays (Unique.v) do or throw with living elements only; ranges without a size in PropsUnsized.v |
| C147 | Programs with any number of optionals: steps over a list of objects, each checked against a list of options (`SpecOptionalPrograms.v` in place, `SpecOptionalVariantPrograms.v` in a variant), over the objects of `Optional.v`; the program asks each optional whether it has a value, sources are values and the values of the optionals, copied or moved | in place: one lemma for each operation in any memory, for every script of exceptions (`OptionalPrograms.v`); in a variant: each step is a step of a program of variants (C136) with the same effect (`OptionalVariantPrograms.v`); induction over the program |
| C148 | the conversions of `Core.v` and `Funcs.v` side by side: implicit, unchecked, assignment, check_in_range and assume_in_range | from the exact descriptions of each conversion (C08, C09, C11, C29) by comparing bounds; every pair of types is in one of three cases |
| C149 | SpecMapPrograms.v: programs over any number of flat maps; the steps of the containers are those of C129, the actions those of C141 | every step keeps a relation between the vectors in memory and a list of dictionaries (or nothing, for a map that is lost), by induction over the program; std::swap is three moves and a destructor |
| C150 | SpecLinearPrograms.v: programs over any number of linear maps; the steps of the containers are those of C129, the actions those of C143 | as C149, with maps without two elements for a key in any order; the program reads the sizes of its maps to stay below the half of C143 |
| C151 | SpecStaticMapPrograms.v: programs over any number of static_flat_maps or static_linear_maps, for any function `act` that works on a static_vector; the steps of the containers are those of C130, the actions those of C141 and C143 | as C149: every step keeps a dictionary for each map that is not recorded as lost; once for both kinds of maps, from what one action does |
| C152 | adaptive clients of any number of forward lists, which keep iterators, before_begin included, and see each reply (`SpecForwardPrograms.v`: the calls, the lists as elements with addresses and the allowed steps) over the memory of `LinkedList.v` | the theorems on single calls of C87 with the other lists as the rest of memory; the logic of C133 again for nodes with one link; induction over the client |
| C153 | `Outside.v`: `explicit operator T`, `hash.cpp`, `format.cpp` and `arithmetic/pointer.cpp`; what the standard library does with built-in integers is a parameter, a pointer is an index in an array | the value of a valid object is the stored one (C14), conversion is reduction modulo a power of two |
| C154 | `ContainerOperators.v`: the operators of compare_container.cpp over the ranges of Range.v, the operators the language derives from them, and the comparison of map_value_type | lists are compared as C110 says; a good order of elements gives one of lists; increasing lists with the same lookups are the same list |
| C155 | `IndexType.v`: `to_index_type` of containers/index_type.cpp and the arithmetic and conversions of containers/at.cpp over the bounded integers of `Core.v`; the access itself is C113's | `convert_spec`, `minus_spec` and `assume_impl_spec` reduce both sides to inequalities between bounds |
| C156 | `SourceSize.v`: `get_source_size` over the integers of `Core.v`, and `append` with its assumption in front for sizes that are built-in integers | C33 and C88 for the rest of append, C38 for the constructor; the assumption decides before anything else |
| C157 | `StoredFunction.v`: `reference_or_value`, `stored_function` and how `adapt::begin` puts a function into an iterator; range objects are places that hold functions, a history is a list of constructions, copies, moves and destructions | induction on the history |
| C158 | `EqualTo.v`: `unary_equal_to` as a reference that is read at each comparison; `remove` of the std-style list over the nodes of `LinkedList.v`, `erase` of the inplace_vector as the compacting loop over its elements | induction over the elements before the one referred to; the compacting loop by an invariant of kept, overwritten and remaining elements |
| C159 | `StdListStubs.v`: the four functions as they are | a memory determines the elements of a list (induction on the links), so what the calls leave is what was there |

## 5. What the code does not do

Properties that are false of the code are stated as `..._refuted` theorems with a concrete witness.

| property | witness |
|---|---|
| C04 | `constant<2^127-1> * constant<-2>` is `constant<2>` |
| C06 | `INT_MIN % -1` is undefined; `C06_remainder_exactly` says that nothing else is wrong |
| C09 | `check_in_range<unsigned>(-1)` does not throw; `check_in_range(5U, -1, 10)` does; `C09_check_exactly` says when this happens |
| C21 | tombstones of `integer<0, 2^128-2>` do not compile |
| C22 | `constant<2^100> << constant<40>` is 0; `constant<100> >> integer<0,50>(40)` is undefined; `integer<-5,5>(-1) & integer<-5,5>(-1)` stores -1 in `integer<0,5>`; the `C22_…_exactly` theorems say for which operands each of the three is right and for which it is undefined |
| C23 | literals are reduced modulo 2^128 |
| C24 | through C04 and C06; `C24_every_remainder_partial` leaves out only products below -2^127 |
| C27 | `round_up_divide(-4, 2)` is -1 |
| C28 | `integer<0,10>(5) - 3u` is too large by 2^32; exactly what happens for each built-in type: C28_minus_exactly, C28_modulus_exactly, C28_multiply_exactly |
| C32 | insert of an empty range before the end constructs over a living element; insert of an element of the vector itself when there is room inserts another value or reads a dead object. `PropsOwnElement.v` says for every vector, position and element which of these happens, and that with reallocation the right value is inserted |
| C36 | `append` compares the number of new elements with the capacity, not the resulting size, and writes past the end of a static_vector; so do `resize` and `assign` |
| C37 | `erase_if` returns the number of elements kept after the first removed one |
| C38 | an exception while constructing a vector from a range of unknown size leaks the elements constructed so far; `C38_from_unsized_exactly` says exactly which |
| C39 | `assign` of a longer trivially copyable range releases the storage before it allocates: if that throws the destructor releases it again; a source longer than the largest size is undefined. `C39_assign_trivial_exactly` says that nothing else can go wrong |
| C40 | growth doubles the capacity beyond the maximum: `push_back` undefined, `append` and `insert` throw although the size would fit. `C40_exactly`: a vector that starts empty can be filled one by one exactly when its maximum is a power of two |
| C43 | `static_vector` from an expiring smaller one reads the size after it was set to 0; `C43_exactly_what_happens` says where every element is afterwards |
| C44 | a moved-from vector keeps its capacity: `push_back` on it is undefined |
| C47 | `emplace` with a construct function that cannot throw and reads the variant: the old value is already destroyed |
| C49 | move assignment of a variant copies: inside `assign` the source is a named `indexed_value` whose `value()` is an lvalue; the source keeps its value, and with noexcept moves a copy that throws terminates |
| C54 | optional with tombstones: `emplace` destroys the old value before it constructs; when a constructor throws there is neither a value nor a tombstone and the destructor reads the wreck |
| C58 | `sort_exactly_4` for cheaply sortable types (documented as stable): `[1, 2a, 2b, 3]` becomes `[1, 2b, 2a, 3]` |
| C59 | `merge_relocate_second_range` (lines 35-37): when the first range is used up, `last2` points to an element, and `[first2, last2)` leaves that element behind. `chunked_insertion_sort` of `[5, 0, 1, 2, 3]` loses an element; it does so for every range of four or more elements without a smallest element in its first chunk |
| C59, C60 | a comparison that throws while merging leaves elements behind in the buffer |
| C68 | `to_radix_sort_key` of a negative `char` or `wchar_t` is greater than that of 0, and exactly the negative characters come last (C68_character_exactly); -0.0 and 0.0 have different keys; an enumeration without `numeric_traits` limits has no key (the constructor of the deduced `bounded::integer` refuses it) |
| C70 | `american_flag_sort` returns as soon as it reaches the last block, without sorting the blocks by the remaining bytes or the next part of the key: `ska_sort` does not sort 129 to 1023 integers of more than one byte |
| C70 | a range of pairs as key: only the first elements of the pairs are compared (`SubKey` of a tuple inside of a range), so even two elements stay unsorted |
| C73, C76 | `unique_inplace_merge` moves an element to itself when the output has caught up with the second range ({2} and {1, 3}); an element that a self-move changes (a vector, C44) is lost; `flat_map::insert` of a range is affected |
| C77 | `flat_map::upsert` searches by bisection while new elements are already appended behind: { 10: 1 } updated with { 5: 2, 10: 3 } keeps 10: 1 |
| C79 | `linear_map` from { 1: 1, 1: 2, 2: 3, 2: 4 } keeps 2: 4, not the first element with this key |
| C82 | `list.splice(it, list, first, it)`: the assertions of `link_range` fail, for every list and nonempty part; `std::list` allows it and does nothing |
| C85 | constructing a `bidirectional_linked_list` or `forward_linked_list` of two elements, where the second allocation throws, leaves the first node; the same for a copy and for `insert` of a range, which makes a temporary list; `C85_exactly_…`: what each constructor and insert lose when they throw is exactly the nodes that they had made |
| C86 | `insert(list, position, value)` returns `position`, which is the element after the inserted one, for every bidirectional list |
| C93 | `sbo_vector` of trivially copyable elements, large: assigning a longer range gives the block back and then allocates; when that throws, the object still points to the old block and its destructor gives it back again (as C39) |
| C95 | `dynamic_array::assign` with another number of elements, zero being a possible size: the old elements are gone when an allocation throws, and also when the new number is refused |
| C96 | `dynamic_array`: `size()` of what a move leaves, so also copying it, breaks the assertion in `uninitialized_dynamic_array::capacity` |
| C104 | `split`: for a range that ends with a delimiter, the iterator to the empty piece after it compares greater than the end (`split.cpp` 165-174 compares `m_empty_trailing_range` the wrong way round) |
| C105 | `split_keep_delimiters`: the iterators to an empty piece and to the delimiter after it compare equal |
| C107 | `adjacent`: difference_type has the largest value of that of the range less the size of a group, one too small; `end - begin` of the pairs of a full array is outside; no other difference is (C107_difference_exactly) |
| C109 | `integer_range` of a type without values, such as `integer_range(0_bi)`: `begin() + 0` is `std::unreachable`; this happens in no other type and to nothing else (C109_integer_range_exactly) |
| C112 | `sum` of a range of `constant<-2>` whose difference_type goes up to 2^127 - 1 has type `integer<0, 2>` (C04); adding one element is undefined |
| C116 | `concatenate` of a range and an expiring vector with room: the elements of the vector are moved up first; when copying the range throws, the vector counts raw cells and its destructor is undefined |
| C120 | std-style `insert(position, 0, value)` before the end is undefined (C32). `inplace_vector::resize` above the capacity writes behind the array: `append` compares the number of new elements with the whole capacity |
| C121 | std-style `rbegin()` is made from `begin()` and `rend()` from `end()`: reading any vector with elements in reverse reads before the begin |
| C123 | The move operations of the std-style list are defaulted member by member, so that the moved-from list keeps its count: `size()` is wrong, and `resize(0)` after a move is undefined. A copy assignment that throws after it appended leaves a count that is too small. `sort`, `reverse`, `merge` and `unique` are empty. `*rbegin()` reads the sentinel. By reading only: `list::splice` passes a `list` where `sized_list &` is needed and does not compile when used |
| C125 | After a word that ends at the end of the text `stream.eof()` is false: the loop uses an iterator over the buffer of the stream, which does not tell the stream about the end. Also an exception while characters are stored leaves the function, where the standard string sets badbit (this is part of `C125_word`) |
| C126 | The constraint of the constructor of `trivial_inplace_function` admits what does not compile: function pointers that do not fit, classes when the capacity is not a multiple of their alignment (`bit_cast` from `padded`), functions without a const `operator()` for a const signature, and without storage closures like `[=]{}`. Without storage a null function pointer is the tombstone, and a const signature calls the `operator()` that is not const |
| C127 | `in >> x` declares `intermediate temp;` without initializing it. When the sentry fails (end of the text, or a stream that has already failed) it is read: undefined behavior, in every loop `while (in >> x)` (`C127_end_refuted`, for every type). A text without a number assigns 0, or throws when 0 is not a value of the type (`C127_no_number_refuted`). -1 read into integer<0, 4294967295> gives 4294967295, and -4294967295 into integer<0, 100000> gives 1, silently (`C127_minus_refuted`). |
| C128 | to_string of integer<-2^127, 1> or of a signed 128-bit integer does not compile, because abs needs the negation of the range (`C128_every_type_refuted`). |
| C132 | `char` is signed where the library is used: <=> of texts orders "\x80" before "a", std::string_view and ska_sort order it after (`C132_std_order_refuted`, `C132_ska_sort_refuted`). |
* C134 (`C134_shift_refuted`): `std::byte << n` and `std::byte >> n` with a bounded n of 32 or more are undefined although the type of n says how large it may be; the comments at byte.cpp 18 and 24 know it. Shifts from 8 to 31 give a byte 0.
- **C136** `std::swap` of two variants moves the first into a temporary and then copies twice, because move assignment of a variant copies its source (C49). If a copy throws, the first variant is left as moved from, or both are copies of the second: the value of the first is lost. Witness: `C136_swap_keeps_values_refuted`.
- **C137** `array<T, 0>` declares a conversion to `std::span<T, 0>` for arrays that are not const, but its body returns a `std::span<T const, 0>` (array.cpp 91-93), which does not convert: the conversion does not compile. Witness: `C137_span_refuted`. `to_array` of a container given as an rvalue moves the elements one by one; if one throws, the first ones are lost (`C137_strong_guarantee_refuted`).
- **C138, C12, C101** For two bounded integers of one type, `extreme_value` returns `compare(rhs, lhs) ? OPERATORS_FORWARD(rhs) : OPERATORS_FORWARD(lhs)` with decltype(auto) (minmax.cpp 72-75): two rvalues give an rvalue reference to an argument, not the new object that the general version gives (`C138_two_rvalues_refuted`), and a const lvalue and an rvalue give a const lvalue reference that may refer to the rvalue (`C138_const_lvalue_refuted`). If the types do not overlap it returns `lhs` or `rhs`, also a reference (76-79). With three or more arguments the result of the first two is passed on inside the return statement of `extreme` (112-118); if it is a new object and the next step returns a reference to it, the result of the call refers to an object that has ended: `min` of lvalues of types <0, 10>, <0, 20>, <100, 200> (`C138_three_lvalues_refuted`), or of rvalues of types <0, 10>, <0, 20>, <0, 10> (`C138_three_rvalues_refuted`). zip_smallest calls `bounded::min(containers::size(ranges)...)` (zip.cpp 160), so three sized ranges whose sizes have such types read that object. C12 and C101 describe the values that are computed.
- **C139** `legacy_iterator` declares `legacy_iterator() = default` (legacy_iterator.cpp 91), but for iterators that have a default constructor its member is a `non_optional`, which declares other constructors and no default one (52-61): the default constructor is deleted, although forward iterators of the standard library need it. Witness: `C139_default_constructor_refuted`. Converting a legacy_iterator without a value to one with a `non_optional` calls `std::unreachable` (53-55, 97). Witness: `C139_convert_refuted`.
- **C140** `copy_or_relocate_from` relocates each element of an expiring container and sets the size to zero only after the loop (copy_or_relocate_from.cpp 39-43). When the function it calls throws in between (a node of a list cannot be allocated), the container still counts the elements that are already destroyed and its destructor destroys them again (`C140_survives_refuted`: `append(list, std::move(vector))`). A container appended to itself: `append_range` and `insert` of the standard containers do not allow it, the iterators of a `std::deque` are invalid after `push_back`, a list never reaches its end (`C140_itself_refuted`; the TODOs in append.cpp 75 and legacy_append.cpp 79 mention aliasing).
- C142: a flat_map whose key type has finitely many values limits its vector to that number (flat_map.cpp 408-419), but a full vector asks for twice its capacity, and check_in_range throws when this is more than the maximum. So a flat_map for a key type with three values cannot be given three entries one by one (`C142_refuted`); it works exactly when the number of values is a power of two (`C142_exactly`), or when reserve was called with the number of values first. Proved with these conditions. Constructing such a map from a range with more entries than the key type has values is undefined behaviour, even when few of the keys differ, because the container is made from the whole range first (`C142_construct_refuted`); inserting such a range throws.
- C144: `linear_map::insert` of a range appends the whole range before it removes duplicates (linear_map.cpp 158-193). When comparing keys throws in between, the map is left with several elements for one key: erasing the key once and looking it up again finds it (`C144_insert_range_refuted`).
- C145: `unique_inplace_merge` moves elements into a temporary array (unique.cpp). When a comparison throws during the merge, the elements there are destroyed with the array and lost (`C145_lost_refuted`).
- C146: `flat_map::insert` of a range appends the whole range before it is sorted and merged (flat_map.cpp 80-102, 266-273). When the temporary array cannot be allocated, the map is left unsorted and an element that was in it is not found (`C146_insert_refuted`).
- **C147** Programs of optionals: an assignment of a value to an empty optional with spare representations that throws during construction leaves an optional whose destructor is undefined (as C54); `std::swap` of two optionals that is left by an exception can lose a value. Witnesses: `C147_any_construction_refuted`, `C147_swap_keeps_values_refuted`, `C147_variant_swap_keeps_values_refuted`.
- **C148** bounded-readme.md says that `check_in_range<integer<0, 10>>(integer<-5, 5>(0_bi))` evaluates to `integer<0, 5>(0_bi)`; the code converts the result to the target type and returns `integer<0, 10>` (check_in_range.cpp 56-63, `C148_check_in_range_type_refuted`). assume_in_range<Target> returns the documented type.
- C149: copy assignment of a flat_map (the implicit one, flat_map.cpp 112-406, so that of bounded_vector) assigns element by element. When a copy throws, the target has some elements of the source followed by some of its own: its elements are not sorted any more, and lookups give answers that depend on which other keys were inserted. `C149_assignment_refuted` is such a program.
- C150: a copy assignment of a linear_map (the implicit one, linear_map.cpp 42-202) that throws leaves some elements of the source followed by some of the target, and so may leave two elements for one key: the key is found after it was erased. `C150_assignment_refuted` is such a program.
| C151 | after `a = std::move(b)` a static map `b` still has as many elements, moved from, so that two may have the same key |
- C154: `linear_map` has the lexicographical comparison of its elements, which are in the order of insertion and erasure. Two linear maps that no lookup tells apart compare unequal, and one is less than the other (C154_linear_maps_refuted). Flat maps do not have this problem (C154_flat_maps).
- C156: `get_source_size` assumes that a size of built-in type is a size of the target, so appending a `std::vector` that is longer than the largest size is undefined, where the same elements from a container of the library throw (C156_append_refuted, C156_append_builtin). The constructor of a vector assumes it for every range with a size (C156_construct). `dynamic_array` checks instead.
- C157: `stored_function<Function const>` (transform.cpp 81, generate.cpp 203-204) asks whether the const type is trivially assignable, which no type is, so `value_wrapper` is never chosen and iterators of `transform_non_idempotent` and `generate_n_idempotent` always refer to the function inside the range object (C157_non_idempotent_refuted). Lambdas with captures have no assignment operator, so iterators of `transform` also refer to the range object for these.
- C158: `list::remove` and `erase(inplace_vector, value)` keep a reference to the argument. `l.remove(l.front())` reads a destroyed node as soon as an element follows the one referred to (C158_list_own_exactly, C158_list_own_refuted). `erase(v, v[0])` of 1, 2, 1, 2 leaves 2, 1, since v[0] is overwritten while the loop still compares with it (C158_vector_own_exactly, C158_vector_own_refuted).
- C159: `merge`, `reverse`, `unique` and `sort` of the std-style list compile, can be called and do nothing (std/list.cpp 369-380, 408-426; C159_sort_refuted, C159_reverse_refuted, C159_merge_refuted, C159_unique_refuted).

## 6. Trusted base

* The kernel of Coq 8.16.1 and `coqc`.
* Axioms: none. `Print Assumptions` stands below every property theorem and answers "Closed under the global
  context". The seven axioms `Coq.ssr.ssrunder.Under_rel.*` of the standard library are loaded with `Lia`
  and used by no theorem.
* The specifications: `Spec.v`, `SpecFuncs.v`, `SpecNum.v` (numbers), `SpecText.v` (texts), `SpecGuard.v` (guards), `SpecVec.v`, `SpecHistory.v` (containers), `SpecVariant.v`, `SpecOptional.v`, `SpecNested.v` (tv), `SpecSort.v`, `SpecAlgo.v`, `SpecRadix.v`, `SpecRange.v`, `SpecSequence.v` (ranges), `SpecConcat.v` (concatenate), `SpecUnique.v` (algorithms), `SpecMap.v`, `SpecDict.v` (maps), `SpecList.v`, `SpecStdList.v` (linked lists), `SpecSbo.v`, `SpecPrograms.v` (sbo_vector), `SpecStringIn.v` (strings from streams), `SpecContainerOperators.v` (orders), `SpecForwardPrograms.v` (programs with forward lists), `SpecStaticMapPrograms.v` (programs with static maps), `SpecOptionalPrograms.v`, `SpecOptionalVariantPrograms.v` (programs of optionals), `SpecFlatRange.v` (what is left of elements), - SpecFlatMemory.v: what a program may see of a map whose operations throw; how many different keys there are., `SpecAppend.v` (append to other containers), `SpecReferences.v` (references that can be kept), `SpecArray.v` (arrays), `SpecDynPrograms.v` (programs with dynamic_arrays), `SpecBytes.v` (bytes), `SpecListPrograms.v` (C133): clients, the lists a program has, and which step each call makes., `SpecStrings.v` (texts in memory), `SpecStablePrograms.v` (programs with stable_vectors), `SpecStaticPrograms.v` (programs with any number of static_vectors), `SpecSeveral.v` (several objects in one memory), `SpecVecPrograms.v` (programs with several vectors), `SpecStreamInt.v` (numbers on streams), `SpecInplaceFunction.v` (trivial_inplace_function), `SpecDyn.v` (dynamic_array) and
  the statements in `Props*.v`.
* The model itself, that is, that the definitions say what the cited lines of C++ say; the
  simplifications are noted at each definition.

## 7. Modelled and not modelled

Modelled: `bounded`: arithmetic operators, comparison, construction, conversion, casts, `check_in_range`, `clamp`,
`min`/`max`, `abs`, storage selection, `to_integer`, `to_string`, literals, `pow`, `log`, digits, `numeric_limits`,
tombstones, `common_type`, scope guards, `relocate`, `construct_at`, `destroy`. `containers`:
`uninitialized_dynamic_array`, `bounded_vector`, `vector`, `stable_vector` (the case of equal minimum and maximum capacity), `static_vector`, `sbo_vector`, `dynamic_array` and the functions of section 4. `tv`: `visit`, `variant`, `optional`, tombstones of both,
`tuple` comparison, `tuple_cat`, `transform`. `containers/algorithms/sort`: `sort_exactly_n`, `small_size_optimized_sort`,
`chunked_insertion_sort`, `merge_relocate_second_range`, `fixed_size_merge_sort`, `is_sorted`, `new_sort`,
`to_radix_sort_key`, `double_buffered_ska_sort`, `common_prefix`, `inplace_radix_sort`, `ska_sort`. `containers/algorithms`:
`find` and relatives, `all`, `any`, `none`, `partition`, `partition_point`, `is_partitioned`, `iterator_partition`, binary searches, `min_element`,
`max_element`, `unique` and relatives. `flat_map`, `flat_multimap`, `linear_map`, `bidirectional_linked_list`, `forward_linked_list`. Views: `transform`, `reversed`, `filter`, `remove_none`,
`take`, `check_size_not_greater_than`, `drop`, `drop_exactly`, `drop_back_exactly`, `zip`, `zip_smallest` (with random access or without sizes), `concatenate_view`, `join_with`, `join`,
`split`, `split_keep_delimiters`, `chunk_by`, `adjacent`, `batched`, `integer_range`, `inclusive_integer_range`, `set_intersection_pair`, `generate`, `generate_n`, `generate_until`, `generate_n_idempotent`, `indexed_generate_n`, `repeat_n`. Comparison of
ranges, `mismatch`, `starts_with`, `ends_with`, `count`, `distance`, `accumulate`, `sum`, `product`, `at`, `front`, `back`, `is_empty`, `size`. `concatenate` into a `bounded_vector`, `reverse`, `keyed_erase`, `keyed_insert`, `lookup`, `maybe_find`. `std/vector`, `std/inplace_vector`: what they add to the vectors (`emplace` excepted). `std/list`: everything but `assign` and the comparison. `string`: `operator>>`. `trivial_inplace_function`. `bounded/stream.cpp`. `to_string` of containers.
 `string_view.cpp` and `static_string.cpp` (all). bounded/arithmetic/byte.cpp, containers/span.cpp and containers/as_bytes.cpp: all; the bytes of an element are its object representation, and the strict aliasing rule allows bytes (C134). containers/array.cpp and containers/to_array.cpp: all but the deduction guides and the implicit copies (C137). bounded/minmax.cpp and bounded/common_type_and_value_category.cpp: all, the values in `Funcs.v` and what the results refer to in `References.v` (C138); volatile arguments only in the types. containers/legacy_iterator.cpp and containers/legacy_range.cpp: all (C139). containers/append.cpp and containers/legacy_append.cpp for targets without `set_size`: std::vector, std::deque and std::list as the standard describes them (reserve gives exactly the capacity asked for, what a throwing range insertion leaves is unspecified), and the linked list (C140). flat_map.cpp 100-330 once more, in memory (FlatMemory.v): the searches, lazy_insert, erase and lookup over the containers of Vec.v, with exceptions, for flat_map, flat_multimap and the static ones. Not in memory: insertion and construction from a range, which only exist as list functions (FlatMap.v).  linear_map.cpp also in memory with exceptions (LinearMemory.v). UniqueMemory.v repeats unique, unique_inplace_merge and the flat map insertion and construction from ranges over memory, with exceptions. bounded/hash.cpp, bounded/format.cpp and bounded/arithmetic/pointer.cpp: all (C153). containers/compare_container.cpp: all; containers/map_value_type.cpp: the comparison (C154). `containers/index_type.cpp` and the index arithmetic of `containers/at.cpp` (`IndexType.v`); at does not compile for a range that is always empty, and for a size whose smallest value minus 1 and largest value minus 1 fit no 128 bit type. `containers/get_source_size.cpp` (`SourceSize.v`). `containers/reference_or_value.cpp`, `stored_function.cpp`, `value_wrapper.cpp` and what adapt.cpp and transform.cpp do with them (`StoredFunction.v`).  bounded/comparison_function_object.cpp: `equal_to` of an lvalue, as `list::remove` and `erase` of inplace_vector use it; the one that holds a value is not modelled.  containers/std/list.cpp: `merge`, `reverse`, `unique`, `sort`.

Not modelled: `character`; the iterator adaptor and concept machinery (its effect
on the vectors is that iterators are indices); constant evaluation branches; the optimisation for trivially relocatable elements
(`memcpy` instead of a loop; same effect on cells); throwing moves, except where noted (relocation is required to be noexcept by the library).
