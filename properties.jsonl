{"id": "C01", "title": "Addition is exact and its bounds are optimal", "statement": "For bounded integers a and b, whenever `a + b` compiles, its run-time value is the mathematical sum, no overflow or undefined behaviour happens, and the result type's minimum and maximum are exactly the sums of the operands' minimums and maximums (so every bound is attained). It fails to compile exactly when no built-in integer type can hold that range.", "quantifier": "every pair of bounded integer types the library accepts and every pair of values in their ranges", "why_tests_cant": "There are about 2^512 pairs of types and each has up to 2^256 pairs of values; tests sample a handful.", "anchors": ["source/bounded/arithmetic/plus.cpp: safer_add, operator+"]}
{"id": "C02", "title": "Subtraction is exact and its bounds are optimal", "statement": "Whenever `a - b` compiles, its value is the mathematical difference computed without overflow, and the result type is exactly [min a - max b, max a - min b]. It compiles exactly when the ranges of -b and of a - b can each be held by some built-in integer type.", "quantifier": "every pair of bounded integer types the library accepts and every pair of values in their ranges", "why_tests_cant": "Same space of types and values as addition; negation of the extreme values is where wraparound hides.", "anchors": ["source/bounded/arithmetic/increment_decrement.cpp: operators::binary::operator-", "source/bounded/arithmetic/unary_minus.cpp"]}
{"id": "C03", "title": "Unary minus is exact, including the most negative values", "statement": "Whenever `-a` compiles, its value is the mathematical negation and the result type is exactly [-max a, -min a]; no signed overflow occurs even for the minimum of the widest types.", "quantifier": "every bounded integer type and every value in its range", "why_tests_cant": "Every value of every width, including the asymmetric minimum, must work.", "anchors": ["source/bounded/arithmetic/unary_minus.cpp: safer_negation, operator-"]}
{"id": "C04", "title": "Multiplication is exact and its bounds are optimal", "statement": "Whenever `a * b` compiles, its value is the mathematical product computed without overflow and the result type is the smallest interval containing all products.", "quantifier": "every pair of bounded integer types the library accepts and every pair of values in their ranges", "why_tests_cant": "Four sign combinations times all magnitudes; overflow checks at compile time are only exercised at the few bounds a test names.", "anchors": ["source/bounded/arithmetic/multiplies.cpp: safer_multiply, operator*"]}
{"id": "C05", "title": "Division is exact truncating division with optimal bounds", "statement": "Whenever `a / b` compiles, then for every divisor value other than zero the result is the mathematical quotient truncated toward zero, no overflow occurs (even for min / -1), and the result type is the smallest interval containing every quotient. A divisor range that has zero as an endpoint is rejected at compile time.", "quantifier": "every pair of bounded integer types the library accepts and every pair of values in their ranges, with a non-zero divisor value", "why_tests_cant": "The bounds come from a case analysis over signs and over the divisor values closest to zero; it must be right for all intervals.", "anchors": ["source/bounded/arithmetic/divides.cpp: operator/"]}
{"id": "C06", "title": "Remainder is exact and its bounds contain every remainder", "statement": "Whenever `a % b` compiles, then for every non-zero divisor value the result is the C++ remainder (sign of the dividend), it lies in the bounds of the result type, and both bounds of the result type are attained by some dividend and divisor.", "quantifier": "every pair of bounded integer types the library accepts and every pair of values in their ranges, with a non-zero divisor value", "why_tests_cant": "The bound is computed by a loop over divisors whose early exits must be right for every interval.", "anchors": ["source/bounded/arithmetic/modulus.cpp: sign_free_value, operator%"]}
{"id": "C07", "title": "Comparison of any two integer types is mathematical comparison", "statement": "For any mix of bounded and built-in signed and unsigned integers with at least one bounded operand, `==` and `<=>` (and the operators derived from them) give the order of the mathematical values, never the order after the usual arithmetic conversions.", "quantifier": "every pair of integer types (bounded or built-in, up to 128 bits) and every pair of values", "why_tests_cant": "Signed/unsigned conversions misbehave only on particular value ranges; all pairs of widths and values must be covered.", "anchors": ["source/bounded/comparison.cpp", "source/bounded/safe_compare.cpp", "source/bounded/safe_equal.cpp"]}
{"id": "C08", "title": "Implicit conversion between bounded integers never changes the value", "statement": "If a value of one integer type converts implicitly to a bounded integer type then every value of the source type is in the destination's range and the stored value equals the source value. Conversions that could lose a value need the explicit unchecked or checked form.", "quantifier": "every source type, every destination type, every source value", "why_tests_cant": "Requires for-all reasoning over values for each of infinitely many type pairs.", "anchors": ["source/bounded/integer.cpp: integer constructors", "source/bounded/bounded_by_range.cpp: bounded_by_range, overlapping_integer"]}
{"id": "C09", "title": "Checked construction throws exactly for out-of-range values", "statement": "`check_in_range` returns a value equal to its argument when minimum <= value <= maximum and throws otherwise; it never returns a different value and never has undefined behaviour, whatever the types of the three arguments.", "quantifier": "every value, every minimum and maximum, of any integer types", "why_tests_cant": "The comparison is between mixed types; every combination must be right.", "anchors": ["source/bounded/check_in_range.cpp: check_in_range"]}
{"id": "C10", "title": "clamp returns the nearest value in the range", "statement": "`clamp(value, minimum, maximum)` with minimum <= maximum returns minimum when value is below it, maximum when above it, and value otherwise; the result lies in the result type's bounds.", "quantifier": "every value, minimum, maximum and their types", "why_tests_cant": "Result type and comparison are computed from three different types.", "anchors": ["source/bounded/clamp.cpp: clamp", "source/bounded/minmax.cpp"]}
{"id": "C11", "title": "Assignment and compound assignment never leave an object out of range silently", "statement": "Assigning or compound-assigning a bounded integer stores exactly the mathematical result when it is in the target's range; if it is out of range the operation is an undefined-behaviour assertion, never a silently wrapped value. ++ and -- behave as adding or subtracting one, and postfix forms return the old value. A chain of in-range updates keeps the object's invariant.", "quantifier": "every object type, every starting value and every sequence of assignments", "why_tests_cant": "Histories of updates are unbounded.", "anchors": ["source/bounded/integer.cpp: operator=", "source/bounded/arithmetic/operators.cpp", "source/bounded/arithmetic/increment_decrement.cpp"]}
{"id": "C12", "title": "min and max of any number of arguments are exact", "statement": "`min(a, b, ...)`/`max(a, b, ...)` of one or more integers of any mix of bounded types returns the least/greatest of the values, and the result type's bounds are the min/max of the operand bounds; with equal keys under a custom comparison the first argument wins.", "quantifier": "every number of arguments, every mix of types, every values", "why_tests_cant": "Arity and types are unbounded.", "anchors": ["source/bounded/minmax.cpp: extreme_value, min, max"]}
{"id": "C13", "title": "abs is exact, including the most negative value", "statement": "`abs(x)` is the mathematical absolute value, without overflow, and its type's bounds are exactly the smallest and largest absolute value in the range.", "quantifier": "every bounded type and every value", "why_tests_cant": "Classic overflow at the minimum of each width; all types must be covered.", "anchors": ["source/bounded/abs.cpp: abs"]}
{"id": "C14", "title": "The storage type is the smallest that can hold the range", "statement": "Every accepted range fits in the built-in type chosen to store it, so that storing and reading back any value in the range is lossless, and no built-in type with fewer bits could hold the range.", "quantifier": "every accepted range", "why_tests_cant": "All 2^256 ranges.", "anchors": ["source/bounded/underlying_type_t.cpp: underlying_type_t", "source/bounded/value_fits_in_type.cpp"]}
{"id": "C15", "title": "Parsing accepts exactly the decimal numerals in range", "statement": "`to_integer<min, max>(s)` returns v if and only if s is a non-empty digit string, optionally preceded by '-' where negatives are allowed, whose mathematical value is v with min <= v <= max. Every other string throws; no string of any length overflows.", "quantifier": "every string, every length, every min and max", "why_tests_cant": "Strings are unbounded; overflow happens only near the limits of each type.", "anchors": ["source/bounded/to_integer.cpp: as_digit, to_integer_positive_impl, to_integer"]}
{"id": "C16", "title": "Formatting and parsing round-trip", "statement": "The decimal text the library produces for an integer (including 128-bit values) is the canonical decimal numeral of the value, and parsing it back with bounds containing the value returns the same value.", "quantifier": "every integer up to 128 bits", "why_tests_cant": "2^128 values.", "anchors": ["source/bounded/check_in_range.cpp: to_string", "source/bounded/to_integer.cpp"]}
{"id": "C17", "title": "pow is exact with sound bounds", "statement": "Whenever `pow(base, exponent)` compiles, its value is the mathematical power and it lies within the result type's bounds, with no overflow.", "quantifier": "every base and exponent type and value", "why_tests_cant": "Squaring overflow must be excluded for all bases and exponents.", "anchors": ["source/bounded/pow.cpp: pow_impl, pow"]}
{"id": "C18", "title": "log is the floor of the logarithm", "statement": "`log(value, base)` returns the largest k with base^k <= value (0 for value 0), and lies in the result type's bounds.", "quantifier": "every value >= 0 and every base > 1", "why_tests_cant": "Boundary values base^k and base^k - 1 for all k and base.", "anchors": ["source/bounded/log.cpp: log_impl, log"]}
{"id": "C19", "title": "representation_digits/bits bound the text and bit length of every value", "statement": "For every value in the range, the number of characters of its decimal text is at most the reported digit count and some value attains it; the reported bits suffice to hold every value.", "quantifier": "every range and every value", "why_tests_cant": "All ranges.", "anchors": ["source/bounded/representation_digits.cpp"]}
{"id": "C20", "title": "numeric_limits agree with the range", "statement": "The reported min, max, lowest, is_signed and digits of a bounded integer type agree with the values the type can hold.", "quantifier": "every bounded integer type", "why_tests_cant": "All ranges.", "anchors": ["source/bounded/numeric_limits.cpp"]}
{"id": "C21", "title": "Spare representations are a bijection disjoint from valid values", "statement": "The tombstone values manufactured for a bounded integer type are distinct from each other and from every valid value, exist for every index below the spare count, and the index of a representation is recovered exactly (-1 for every valid value).", "quantifier": "every bounded integer type and every spare index", "why_tests_cant": "All ranges and indexes, including at the ends of the storage type.", "anchors": ["source/bounded/tombstone.cpp"]}
{"id": "C22", "title": "Shift and bitwise-and results are exact and within bounds", "statement": "Whenever `a << b`, `a >> b` or `a & b` compiles, its run-time value is the mathematical result (a*2^b, floor(a/2^b), bitwise and) and lies in the result type's bounds.", "quantifier": "every pair of bounded integer types the library accepts and every pair of values in their ranges", "why_tests_cant": "All ranges of both operands, with negative values and large shift counts.", "anchors": ["source/bounded/arithmetic/left_shift.cpp", "source/bounded/arithmetic/right_shift.cpp", "source/bounded/arithmetic/bitwise_and.cpp"]}
{"id": "C23", "title": "Integer literals denote their mathematical value", "statement": "`123_bi` (with digit separators) is the constant with exactly the written value, or does not compile.", "quantifier": "every literal of any length", "why_tests_cant": "Literals are unbounded in length.", "anchors": ["source/bounded/literal.cpp: operator\"\"_bi"]}
{"id": "C24", "title": "Whole arithmetic expressions never overflow", "statement": "For every expression tree built from variables and constants with +, -, unary minus, *, /, %, min, max and abs that compiles, evaluation on any in-range inputs without a zero divisor produces the exact mathematical value, inside the static bounds of the expression, with no overflow or undefined behaviour in any intermediate step.", "quantifier": "every expression, of any depth, and every assignment of in-range values", "why_tests_cant": "Expressions are unbounded.", "anchors": ["source/bounded/arithmetic/*.cpp", "source/bounded/integer.cpp"]}
{"id": "C25", "title": "common_type of bounded integers is the least enclosing range", "statement": "The common type of any number of bounded integers is the smallest range containing all of them, independent of order and grouping, and every operand converts to it implicitly without changing value.", "quantifier": "every number of types and every values", "why_tests_cant": "Arity unbounded.", "anchors": ["source/bounded/integer.cpp: common_type specialization"]}
{"id": "C26", "title": "Scope guards run their action exactly once unless released", "statement": "A scope guard runs its function exactly once when its scope ends unless it was released or moved from, in every sequence of constructions, moves, releases and scope exits; a failure guard runs it only when the scope is left by an exception.", "quantifier": "every history of guard operations", "why_tests_cant": "Histories are unbounded.", "anchors": ["source/bounded/scope_guard.cpp", "source/bounded/scope_fail.cpp"]}
{"id": "C27", "title": "round_up_divide rounds up", "statement": "`round_up_divide(a, b)` is the ceiling of the quotient and within its type's bounds.", "quantifier": "every range and values", "why_tests_cant": "All values.", "anchors": ["source/bounded/arithmetic/round_up_divide.cpp"]}
{"id": "C28", "title": "Mixed operators with built-in integers are exact or rejected", "statement": "An arithmetic operator between a bounded integer and a built-in integer treats the built-in operand as a bounded integer with its type's full range and yields the exact value.", "quantifier": "every built-in type, every bounded type, every values", "why_tests_cant": "All values and widths.", "anchors": ["source/bounded/arithmetic/operators_builtin.cpp", "source/bounded/integer.cpp: deduction"]}
{"id": "C29", "title": "Narrowing the static range (increase_min, decrease_max, assume_in_range) keeps the value", "statement": "increase_min, decrease_max and assume_in_range return the same value in the intersected range, and have undefined behaviour (an assertion) exactly when the value is not in the requested range.", "quantifier": "every range, bound and value", "why_tests_cant": "All values.", "anchors": ["source/bounded/cast.cpp", "source/bounded/integer.cpp: assume_in_range"]}
{"id": "C30", "title": "push_back adds one element or changes nothing", "statement": "push_back and emplace_back on a vector append exactly the new element (which may be made from an element of the vector itself), keep all others in order, and at least double the capacity when full; if an allocation or construction throws, the vector and all memory are unchanged.", "quantifier": "every element type, capacity range and state of the vector, and every choice of which allocations, copies and predicate calls throw", "why_tests_cant": "Every size, capacity and crash point.", "anchors": ["source/containers/lazy_push_back.cpp", "source/containers/push_back.cpp", "source/containers/emplace_back.cpp", "source/containers/bounded_vector.cpp"]}
{"id": "C31", "title": "Removing elements removes exactly them", "statement": "pop_back, clear, erase of a range and erasing to the end destroy exactly the named elements, keep the order of the others and the capacity, return the position of the next element, never throw and neither leak nor destroy twice.", "quantifier": "every element type, capacity range and state of the vector, and every choice of which allocations, copies and predicate calls throw", "why_tests_cant": "Every size and position.", "anchors": ["source/containers/pop_back.cpp", "source/containers/clear.cpp", "source/containers/algorithms/erase.cpp"]}
{"id": "C32", "title": "insert puts the elements at the position or changes nothing", "statement": "insert of any range at any position yields the elements before, the new elements, the elements after, and returns the position of the first new one; if anything throws the vector is unchanged.", "quantifier": "every element type, capacity range and state of the vector, and every choice of which allocations, copies and predicate calls throw", "why_tests_cant": "Every size, position, range and crash point.", "anchors": ["source/containers/insert.cpp"]}
{"id": "C33", "title": "append adds the whole range or changes nothing", "statement": "append adds all elements of a range in order, also when the range is the vector itself; if anything throws the vector is unchanged (for ranges of unknown size, which are added one by one and where the result must not take more than half of the largest capacity, see C40: a prefix has been added).", "quantifier": "every element type, capacity range and state of the vector, and every choice of which allocations, copies and predicate calls throw", "why_tests_cant": "Every range and crash point.", "anchors": ["source/containers/append.cpp", "source/containers/append_into_capacity.cpp"]}
{"id": "C34", "title": "resize, reserve and shrink_to_fit", "statement": "resize(n, v) keeps the first n elements and fills up with v; reserve and shrink_to_fit keep the elements and set the capacity to max(n, capacity) and max(min, size); on an exception nothing changes.", "quantifier": "every element type, capacity range and state of the vector, and every choice of which allocations, copies and predicate calls throw", "why_tests_cant": "Every size and crash point.", "anchors": ["source/containers/resize.cpp", "source/containers/shrink_to_fit.cpp", "source/containers/bounded_vector.cpp: reserve"]}
{"id": "C35", "title": "Copies are equal and independent, moves hand over, swap exchanges", "statement": "Copying a vector gives a vector with equal elements in its own storage; moving hands over the storage; swap exchanges the contents and moves no element; copy assignment replaces the elements and leaves both vectors usable if it throws.", "quantifier": "every element type, capacity range and state of the vector, and every choice of which allocations, copies and predicate calls throw; every pair of vectors", "why_tests_cant": "Every pair of states and crash point.", "anchors": ["source/containers/bounded_vector.cpp"]}
{"id": "C36", "title": "static_vector never leaves its storage", "statement": "Every modifying operation of static_vector does the same as on a vector, never touches memory outside the object, and throws without changing anything when the result would not fit.", "quantifier": "every capacity, element type, state and choice of which operations throw", "why_tests_cant": "Every size and crash point.", "anchors": ["source/containers/static_vector.cpp", "source/containers/append.cpp", "source/containers/insert.cpp", "source/containers/assign.cpp"]}
{"id": "C37", "title": "erase_if removes exactly the matching elements and returns how many", "statement": "erase_if(container, predicate) keeps exactly the elements that do not satisfy the predicate, in order, and returns the number of removed elements; if the predicate throws the container is still valid.", "quantifier": "every element type, capacity range and state of the vector, and every choice of which allocations, copies and predicate calls throw; every predicate", "why_tests_cant": "Every sequence and predicate.", "anchors": ["source/containers/algorithms/erase.cpp: erase_if"]}
{"id": "C38", "title": "Construction and destruction leak nothing", "statement": "After a constructor throws, all memory is as before and every constructed element is destroyed; the destructor destroys every element once and releases the storage.", "quantifier": "every element type, capacity range and state of the vector, and every choice of which allocations, copies and predicate calls throw", "why_tests_cant": "Every crash point.", "anchors": ["source/containers/bounded_vector.cpp", "source/containers/uninitialized_dynamic_array.cpp", "source/containers/algorithms/uninitialized.cpp", "source/containers/assign_to_empty.cpp"]}
{"id": "C39", "title": "assign replaces the elements and keeps the vector valid", "statement": "assign(range) makes the elements equal to the range; if anything throws, the vector is still valid and can be destroyed.", "quantifier": "every element type, capacity range and state of the vector, and every choice of which allocations, copies and predicate calls throw", "why_tests_cant": "Every range and crash point.", "anchors": ["source/containers/assign.cpp", "source/containers/assign_to_empty.cpp", "source/containers/assign_to_empty_into_capacity.cpp"]}
{"id": "C40", "title": "A vector can be filled to its maximum capacity", "statement": "push_back, append and insert succeed as long as the new size does not exceed the maximum capacity in the type.", "quantifier": "every element type, capacity range and state of the vector, and every choice of which allocations, copies and predicate calls throw", "why_tests_cant": "Every capacity bound.", "anchors": ["source/containers/lazy_push_back.cpp", "source/containers/reallocation_size.cpp", "source/containers/append.cpp", "source/containers/insert.cpp"]}
{"id": "C41", "title": "Every history of calls on a vector behaves like the list", "statement": "Any sequence of push_back, pop_back, clear, erase, erase_if, append, insert, resize, reserve, shrink_to_fit and assign, with exceptions anywhere and caught, has no undefined behaviour, leaves the elements one of the sequences the calls explain, and after destruction all memory is as it was.", "quantifier": "every finite sequence of calls with every choice of exceptions", "why_tests_cant": "Histories are unbounded.", "anchors": ["source/containers/vector.cpp", "source/containers/bounded_vector.cpp"]}
{"id": "C42", "title": "Growing is logarithmic in allocations", "statement": "n calls of push_back on an empty vector allocate at most 1 + ceil(log2 n) times.", "quantifier": "every n and all values", "why_tests_cant": "Every n.", "anchors": ["source/containers/reallocation_size.cpp", "source/containers/lazy_push_back.cpp"]}
{"id": "C43", "title": "A static_vector constructed from an expiring smaller one has its elements", "statement": "static_vector<T, m>(std::move(s)) for a static_vector<T, n>, n < m, holds the elements of s.", "quantifier": "every n, m and contents", "why_tests_cant": "Every size.", "anchors": ["source/containers/static_vector.cpp", "source/containers/assign_to_empty_into_capacity.cpp", "source/containers/algorithms/copy_or_relocate_from.cpp"]}
{"id": "C44", "title": "A moved-from vector can be destroyed, assigned to and used again", "statement": "After being moved from (also to itself), a vector can be destroyed without effect, copy-assigned, and used like an empty one.", "quantifier": "every element type, capacity range and state of the vector, and every choice of which allocations, copies and predicate calls throw", "why_tests_cant": "Every state.", "anchors": ["source/containers/bounded_vector.cpp", "source/containers/uninitialized_dynamic_array.cpp"]}
{"id": "C45", "title": "Pointers to elements stay valid while there is capacity", "statement": "While the new size does not exceed the capacity, an operation never moves the elements before the place of the change: pointers to them stay valid and see the same values, also when the operation throws.", "quantifier": "every element type, capacity range and state of the vector, and every choice of which allocations, copies and predicate calls throw; every element", "why_tests_cant": "Every index.", "anchors": ["source/containers/lazy_push_back.cpp", "source/containers/append.cpp", "source/containers/insert.cpp", "source/containers/algorithms/erase.cpp"]}
{"id": "C46", "title": "visit calls the function with the active alternatives", "statement": "visit(v1, ..., vn, f) calls f exactly with the active alternatives of v1, ..., vn in order, for variants with any number of alternatives; lookup of an alternative by type finds the first alternative of that type.", "quantifier": "every number of variants, of alternatives and every index", "why_tests_cant": "The dispatch recurses over blocks of alternatives; tests use a few.", "anchors": ["source/tv/visit.cpp: visit, visit_implementation", "source/tv/get_index.cpp"]}
{"id": "C47", "title": "variant::emplace replaces the value or changes nothing", "statement": "emplace leaves exactly the new alternative alive; if construction throws, the variant still holds its old value; the construct function may use the old value. Nothing leaks and nothing is destroyed twice.", "quantifier": "every number and kind of alternatives, every contents, every choice of which operations throw", "why_tests_cant": "Every crash point.", "anchors": ["source/tv/variant.cpp: emplace, emplace_impl, replace_active_member", "source/tv/single_element_storage.cpp"]}
{"id": "C48", "title": "Copy and move construction of variants", "statement": "A copy holds the same alternative with the same value and the source is unchanged; move construction takes the value and leaves the moved-from alternative active in the source; if construction throws all memory is as before.", "quantifier": "every number and kind of alternatives, every contents, every choice of which operations throw", "why_tests_cant": "Every crash point.", "anchors": ["source/tv/variant.cpp: variant, copy_move"]}
{"id": "C49", "title": "Assignment of variants", "statement": "After copy assignment the target holds the alternative and value of the source; if it throws the target is unchanged; self assignment changes nothing. Move assignment moves the value and a noexcept move assignment never terminates the program.", "quantifier": "every number and kind of alternatives, every contents, every choice of which operations throw", "why_tests_cant": "Every pair of alternatives and crash point.", "anchors": ["source/tv/variant.cpp: operator=, assign", "source/tv/indexed_value.cpp"]}
{"id": "C50", "title": "Assignment of a value to a variant", "statement": "v = value makes the alternative of the type of value active with that value, whatever was active before; if it throws v is unchanged.", "quantifier": "every number and kind of alternatives, every contents, every choice of which operations throw", "why_tests_cant": "Every alternative and crash point.", "anchors": ["source/tv/variant.cpp: operator=(T &&)"]}
{"id": "C51", "title": "Every history of a variant leaves one living value", "statement": "After any sequence of emplace and assignments, each of which may throw and be caught, the variant holds exactly one living value, which one of the calls (or the start) put there; destroying it leaves all memory as it was before.", "quantifier": "every finite sequence of calls with every choice of exceptions", "why_tests_cant": "Histories are unbounded.", "anchors": ["source/tv/variant.cpp"]}
{"id": "C52", "title": "Reading and comparing variants", "statement": "v[index] is the value of the active alternative; two variants are equal exactly when they hold the same alternative and equal values; a variant equals a value exactly when the active alternative has its type and is equal to it.", "quantifier": "every number and kind of alternatives, every contents, every choice of which operations throw", "why_tests_cant": "Every pair of alternatives.", "anchors": ["source/tv/variant.cpp: operator[], operator==, equality_visitor"]}
{"id": "C53", "title": "optional keeps its contents when an operation throws (value types without spare representation)", "statement": "Construction, emplace, assignment, assignment of none, copy, move, comparison and destruction of an optional have the effect of the same operation on none-or-a-value; an operation that throws changes nothing; no leaks.", "quantifier": "every value type without tombstones, all contents, every choice of which operations throw", "why_tests_cant": "Every crash point.", "anchors": ["source/tv/optional.cpp: optional, optional_storage"]}
{"id": "C54", "title": "optional keeps its contents when an operation throws (value types with spare representations)", "statement": "The same for value types with tombstones.", "quantifier": "every value type with tombstones, all contents, every choice of which operations throw", "why_tests_cant": "Every crash point.", "anchors": ["source/tv/optional.cpp: optional, optional_storage (nullable)", "source/bounded/tombstone.cpp"]}
{"id": "C55", "title": "Nested optionals keep every level apart", "statement": "optional<optional<...T>> of any depth reads back exactly the level and value stored, for bounded integers, variants, static_vectors and plain types; while T has spare representations it uses the storage of T alone.", "quantifier": "every depth, every bounded integer type up to 64 bits, every contents", "why_tests_cant": "Depth and type are unbounded.", "anchors": ["source/tv/optional.cpp: optional_tombstone_traits", "source/bounded/tombstone.cpp", "source/tv/variant.cpp", "source/containers/static_vector.cpp"]}
{"id": "C56", "title": "Tuples are ordered lexicographically", "statement": "Comparison of two tuples is decided by the first position where they differ; it is a total order when the elements are totally ordered; == holds exactly when all elements are equal.", "quantifier": "every size and all elements", "why_tests_cant": "Every size.", "anchors": ["source/tv/tuple.cpp: operator<=>, operator=="]}
{"id": "C57", "title": "tuple_cat and transform", "statement": "tuple_cat gives the elements of its arguments in order; transform gives at each position the function of the elements at that position.", "quantifier": "every number of tuples, every size", "why_tests_cant": "Every size.", "anchors": ["source/tv/tuple_cat.cpp", "source/tv/transform.cpp"]}
{"id": "C58", "title": "Sorting up to five elements is stable", "statement": "sort_exactly_n and small_size_optimized_sort of 1 to 5 elements put them in order, keep equivalent elements in their relative order and change no other memory; if the comparison throws every element is where it was.", "quantifier": "every strict weak order, all elements, every position in memory, every choice of which comparisons throw", "why_tests_cant": "Every order of the elements, every equivalence among them, every crash point.", "anchors": ["source/containers/algorithms/sort/sort_exactly_n.cpp", "source/containers/algorithms/sort/sort_exactly_4.cpp: sort_exactly_n_in_place_impl, sort_exactly_n_relocate_impl", "source/containers/algorithms/sort/sort_exactly_5.cpp", "source/containers/algorithms/sort/small_size_optimized_sort.cpp"]}
{"id": "C59", "title": "chunked_insertion_sort sorts", "statement": "chunked_insertion_sort puts the elements in order and keeps equivalent elements in their relative order; every element survives, also when the comparison throws.", "quantifier": "every strict weak order, all elements, every position in memory, every choice of which comparisons throw, every size", "why_tests_cant": "Every size and every order.", "anchors": ["source/containers/algorithms/sort/chunked_insertion_sort.cpp", "source/containers/algorithms/sort/merge_relocate_second_range.cpp"]}
{"id": "C60", "title": "fixed_size_merge_sort sorts", "statement": "fixed_size_merge_sort puts the elements in order and keeps equivalent elements in their relative order; every element survives, also when the comparison throws.", "quantifier": "every strict weak order, all elements, every position in memory, every choice of which comparisons throw", "why_tests_cant": "Every order.", "anchors": ["source/containers/algorithms/sort/fixed_size_merge_sort.cpp"]}
{"id": "C61", "title": "is_sorted", "statement": "is_sorted is true exactly when no element is less than one before it, and it changes nothing.", "quantifier": "every strict weak order, all elements, every position in memory, every choice of which comparisons throw, every size", "why_tests_cant": "Every size.", "anchors": ["source/containers/algorithms/sort/is_sorted.cpp"]}
{"id": "C62", "title": "find and its relatives", "statement": "find_if, find_if_not, find return the first element of the range that does (not) fulfil the predicate, the find_last functions the last one, and all return the end when there is none; all, any and none say whether all, some or no elements fulfil the predicate. They read nothing outside the range and change nothing; only exceptions of the predicate leave.", "quantifier": "every predicate, all elements, every position in memory, every choice of which calls throw, every size", "why_tests_cant": "Every size, every predicate, every crash point.", "anchors": ["source/containers/algorithms/find.cpp", "source/containers/algorithms/all_any_none.cpp: all, any, none"]}
{"id": "C63", "title": "partition", "statement": "partition puts the elements that fulfil the predicate before the others and returns the border; no element is lost or duplicated, also when the predicate throws; is_partitioned is true exactly of ranges in this form.", "quantifier": "every predicate, all elements, every position in memory, every choice of which calls throw, every size", "why_tests_cant": "Every size, every predicate, every crash point.", "anchors": ["source/containers/algorithms/partition.cpp: is_partitioned, partition"]}
{"id": "C64", "title": "Binary search", "statement": "On a partitioned range partition_point returns the border after at most log2 n + 1 calls of the predicate. On a sorted range lower_bound returns the first element not less than the value, upper_bound the first greater one, equal_range both, and binary_search whether an equivalent element is there. Nothing is changed.", "quantifier": "every strict weak order, all elements, every position in memory, every choice of which comparisons throw, every size", "why_tests_cant": "Every size.", "anchors": ["source/containers/algorithms/partition.cpp: partition_point", "source/containers/algorithms/binary_search.cpp"]}
{"id": "C65", "title": "min_element and max_element", "statement": "min_element returns the first of the smallest elements and max_element the last of the greatest; the end for an empty range.", "quantifier": "every strict weak order, all elements, every position in memory, every choice of which comparisons throw, every size", "why_tests_cant": "Every size.", "anchors": ["source/containers/algorithms/minmax_element.cpp"]}
{"id": "C66", "title": "iterator_partition", "statement": "iterator_partition puts the elements less than the original *middle before the others and returns the border; no element is lost, also when the comparison throws.", "quantifier": "every strict weak order, all elements, every position in memory, every choice of which comparisons throw, every size, every position of middle", "why_tests_cant": "Every size.", "anchors": ["source/containers/algorithms/partition.cpp: iterator_partition"]}
{"id": "C67", "title": "new_sort sorts", "statement": "new_sort puts the elements of the range in order and changes no other memory; no element is lost when the comparison throws.", "quantifier": "every strict weak order, all elements, every position in memory, every choice of which comparisons throw, every size", "why_tests_cant": "Every size, every order of the elements, every depth of the recursion.", "anchors": ["source/containers/algorithms/sort/sort.cpp: introsort_impl, introsort, new_sort"]}
{"id": "C68", "title": "Radix sort keys keep the order", "statement": "to_radix_sort_key of an integer, a bounded integer, an enumeration or a floating point number other than NaN is an unsigned integer, and the keys of two numbers are in the order of the numbers.", "quantifier": "every two values of every built-in integer type, of std::byte, of every bounded integer type and of every enumeration, every two bit patterns of float and double that are not NaN", "why_tests_cant": "All pairs of values; 2^128 for double.", "anchors": ["source/containers/algorithms/sort/to_radix_sort_key.cpp"]}
{"id": "C69", "title": "double_buffered_ska_sort sorts stably", "statement": "After double_buffered_ska_sort(source, buffer, extract_key) the elements that were in source are sorted by key and elements with equal keys keep their order; they are in the buffer if the function returns true and in the source otherwise.", "quantifier": "every range, every function to keys that are booleans, unsigned integers or nested tuples of them", "why_tests_cant": "Every size and every order of the elements.", "anchors": ["source/containers/algorithms/sort/double_buffered_ska_sort.cpp"]}
{"id": "C70", "title": "ska_sort sorts", "statement": "After ska_sort(range, extract_key) the elements of the range are sorted by key.", "quantifier": "every range, every function to keys that are booleans, unsigned integers, tuples and ranges of them", "why_tests_cant": "Every size and every order of the elements; which algorithm is used depends on the number of elements that share leading bytes.", "anchors": ["source/containers/algorithms/sort/inplace_radix_sort.cpp", "source/containers/algorithms/sort/common_prefix.cpp", "source/containers/algorithms/sort/ska_sort.cpp"]}
{"id": "C71", "title": "unique and unique_copy keep the first of every run", "statement": "unique(first, last, equal) leaves, in front, the first element of every run of consecutive elements that are equal, in order, and returns the end of them; unique_copy writes the same elements to the output and leaves the input unchanged.", "quantifier": "every range, every equivalence relation (for unique also elements that a self-move would change)", "why_tests_cant": "Every size and every pattern of repetitions.", "anchors": ["source/containers/algorithms/unique.cpp: unique, unique_copy"]}
{"id": "C72", "title": "unique_less, unique_copy_less and unique_merge_copy", "statement": "For sorted ranges, unique_less and unique_copy_less leave one element of every class of equivalent elements, the first; unique_merge_copy writes one element of every class that occurs in one of the two sorted ranges, in order, that of the first range where both have one.", "quantifier": "every two sorted ranges, every strict weak order, all elements", "why_tests_cant": "Every size and every interleaving of the ranges.", "anchors": ["source/containers/algorithms/unique.cpp: unique_less, unique_copy_less, unique_merge_copy"]}
{"id": "C73", "title": "unique_inplace_merge", "statement": "For two consecutive sorted ranges of which the first has no duplicates, unique_inplace_merge leaves one element of every class of equivalent elements, in order, that of the first range where both have one, and returns the end; nothing outside the ranges changes.", "quantifier": "every two adjacent sorted ranges, every strict weak order, all elements", "why_tests_cant": "Every size and every interleaving of the ranges; which elements are moved to the temporary array depends on the values.", "anchors": ["source/containers/algorithms/unique.cpp: unique_inplace_merge"]}
{"id": "C74", "title": "Finding a key in a flat map", "statement": "find returns the element with the key, or the end if there is none; lookup a pointer to it, or null. Nothing with another key is ever returned.", "quantifier": "every flat map and every key, every strict weak order, all elements", "why_tests_cant": "Every size.", "anchors": ["source/containers/flat_map.cpp: find, lower_bound, upper_bound", "source/containers/lookup.cpp"]}
{"id": "C75", "title": "Inserting one key, erase and erase_if of flat maps", "statement": "Inserting a key that is not there adds exactly this element and returns its position and true; a key that is there changes nothing and returns the position of the existing element and false; in a multimap the new element comes behind those with the same key. erase removes exactly the elements between the iterators, erase_if those for which the predicate is true. The keys stay in order.", "quantifier": "every flat map (multimap), every key and mapped value, every part, every predicate", "why_tests_cant": "Every size and every sequence of operations: every operation keeps the invariant that the others need.", "anchors": ["source/containers/flat_map.cpp: lazy_insert, insert, emplace, erase", "source/containers/erase.cpp"]}
{"id": "C76", "title": "Making a flat map from a range and inserting a range", "statement": "The keys increase afterwards; every element that was in the map is still there unchanged; for every other key of the range there is one element with it, which is one of the range; a multimap has all elements of both.", "quantifier": "every flat map (multimap), every range", "why_tests_cant": "Every size and every order of the range, with every pattern of repeated keys.", "anchors": ["source/containers/flat_map.cpp: basic_flat_map, insert, merge_sorted_and_unsorted", "source/containers/algorithms/sort/ska_sort.cpp: unique_ska_sort"]}
{"id": "C77", "title": "upsert of flat maps", "statement": "After m.upsert(range, update), for a range with distinct keys, every element of the map with a key of the range has been updated with it once, the elements with other keys are unchanged, and the elements of the range with new keys are in the map.", "quantifier": "every flat map, every range with distinct keys, every update function", "why_tests_cant": "Every size and every order of the range.", "anchors": ["source/containers/flat_map.cpp: upsert"]}
{"id": "C78", "title": "Linear maps: find, inserting one key, erase", "statement": "find returns the element with the key or the end. Inserting a key that is not there adds exactly this element at the end; a key that is there changes nothing. erase removes exactly the elements between the iterators. No two elements have the same key.", "quantifier": "every linear map, every key and mapped value", "why_tests_cant": "Every size and every sequence of operations.", "anchors": ["source/containers/linear_map.cpp"]}
{"id": "C79", "title": "Linear maps from ranges", "statement": "After making a linear map from a range, or inserting a range, no two elements have the same key, the elements that were there are unchanged and in front, every key of the range is there, and every new element is one of the range.", "quantifier": "every linear map and every range", "why_tests_cant": "Every size and every pattern of repeated keys.", "anchors": ["source/containers/linear_map.cpp"]}
{"id": "C80", "title": "A bidirectional list is a sequence: both ends and iteration", "statement": "push_back and push_front add one element with the value at the end or the front, in a new node; pop_back and pop_front remove one and free its node; all other elements stay where they are. If making the element throws, nothing has changed. begin, ++, -- and * go through the elements in order and back, and end is after the last.", "quantifier": "every list in every valid memory, every element, every point at which an allocation or an element constructor throws", "why_tests_cant": "Every list and every throwing point; aliasing between nodes.", "anchors": ["source/containers/bidirectional_linked_list.cpp: lazy_push_back, pop_back, begin, end", "source/containers/lazy_push_front.cpp", "source/containers/pop_front.cpp", "source/containers/linked_list_helper.cpp"]}
{"id": "C81", "title": "Insertion and erasure in a bidirectional list", "statement": "insert puts the values, in order, before the position; erase removes exactly the elements between the iterators and returns the end of them; erase_if removes exactly those for which the predicate is true and returns their number; clear and the destructor remove all. Elements that stay keep their nodes, the nodes of erased elements are freed, and nothing else changes.", "quantifier": "every list, every position and part, every predicate, every throwing point", "why_tests_cant": "Every list and every position.", "anchors": ["source/containers/insert.cpp: insert, lazy_insert, emplace", "source/containers/algorithms/erase.cpp: erase, erase_to_end, erase_if", "source/containers/clear.cpp", "source/containers/bidirectional_linked_list.cpp"]}
{"id": "C82", "title": "splice", "statement": "splice moves the elements between first and last before the position, from another list or from the same one, without changing values or nodes; the others stay in order.", "quantifier": "every two lists and every position and part, and every list with a position that is not strictly inside the part", "why_tests_cant": "Every list, position and part; the links are overwritten in an order that depends on which are neighbours.", "anchors": ["source/containers/bidirectional_linked_list.cpp: splice, link_range, unlink_range", "source/containers/algorithms/splice.cpp"]}
{"id": "C83", "title": "swap and moves of bidirectional lists", "statement": "swap exchanges the elements of two lists, which keep their nodes; so does move assignment; move construction takes all elements and leaves the other list empty; self-move-assignment changes nothing.", "quantifier": "every two lists, empty or not", "why_tests_cant": "The sentinels are part of the lists, so that four cases of emptiness behave differently.", "anchors": ["source/containers/bidirectional_linked_list.cpp: swap, operator=, bidirectional_linked_list"]}
{"id": "C84", "title": "Copies of bidirectional lists", "statement": "A copy has the same values in new nodes and the source is unchanged. After copy assignment the target has the values of the source; nodes of the target are reused for the first elements and freed where there are too many. If something throws, the source is unchanged, the target of an assignment is a list and no node of it is lost. Self-assignment changes nothing.", "quantifier": "every two lists and every throwing point", "why_tests_cant": "Every pair of sizes and every throwing point.", "anchors": ["source/containers/bidirectional_linked_list.cpp: operator=, bidirectional_linked_list", "source/containers/assign.cpp", "source/containers/assign_to_empty.cpp", "source/containers/algorithms/copy.cpp: copy_truncate"]}
{"id": "C85", "title": "A constructor of a list that throws leaves nothing behind", "statement": "If constructing a linked list from a range or as a copy throws, all nodes that were made are freed.", "quantifier": "every range and every throwing point", "why_tests_cant": "Every throwing point.", "anchors": ["source/containers/bidirectional_linked_list.cpp: bidirectional_linked_list", "source/containers/forward_linked_list.cpp: forward_linked_list", "source/containers/assign_to_empty.cpp"]}
{"id": "C86", "title": "insert and emplace return an iterator to the inserted element", "statement": "insert(list, position, value) and emplace return an iterator to the inserted element, as for the other containers.", "quantifier": "every list, position and value", "why_tests_cant": "Every list and position.", "anchors": ["source/containers/insert.cpp: insert, lazy_insert, emplace"]}
{"id": "C87", "title": "A forward list is a sequence", "statement": "lazy_insert_after adds one element after the given one; erase_after removes the next one and frees its node, or all up to a given place, which must be the end or an element behind the first place; splice_after moves the elements after before_first up to before_last behind the position; push_front, clear, swap, moves, copies and copy assignment do as for a bidirectional list. An exception leaves the list as it was (for copy assignment: a list that has lost no node).", "quantifier": "every forward list, every position and part, every throwing point", "why_tests_cant": "Every list and every throwing point.", "anchors": ["source/containers/forward_linked_list.cpp", "source/containers/append_after.cpp", "source/containers/assign.cpp", "source/containers/algorithms/erase.cpp: erase_after", "source/containers/algorithms/copy.cpp: copy_truncate_after"]}
{"id": "C88", "title": "The operations of sbo_vector on its elements are those of a sequence", "statement": "push_back, pop_back, insert, erase, erase_if, append, resize, reserve, shrink_to_fit and clear of an sbo_vector do to the elements what they do to a sequence, whether the elements are in the buffer, in an allocated block, or move from one to the other. If an allocation or the construction of an element throws, the object and all memory are as before (erase_if: as many elements as before; append of a range without a size, where the result must not take more than half of the largest size, see C40: a prefix was added).", "quantifier": "every buffer size and largest size, every sbo_vector small or large, every elements, every throwing point", "why_tests_cant": "Every size relative to the buffer, every throwing point.", "anchors": ["source/containers/sbo_vector.cpp", "source/containers/lazy_push_back.cpp", "source/containers/insert.cpp", "source/containers/append.cpp", "source/containers/algorithms/erase.cpp", "source/containers/resize.cpp", "source/containers/shrink_to_fit.cpp"]}
{"id": "C89", "title": "The size of an sbo_vector survives being stored in pieces", "statement": "Whatever size an sbo_vector is given, size() returns it; storing it changes neither the flag that shares its last byte nor data() nor capacity().", "quantifier": "every size up to the capacity, every capacity and largest size below 2^63", "why_tests_cant": "Every size at every byte boundary.", "anchors": ["source/containers/sbo_vector.cpp: split_size_bytes, recombine_size, force_set_size, last_byte"]}
{"id": "C90", "title": "An sbo_vector does not allocate while its elements fit", "statement": "push_back, append, insert, resize, pop_back, erase and clear allocate nothing when the new size is at most the capacity; elements are in the buffer of the object exactly when the capacity is that of the buffer.", "quantifier": "every sbo_vector and every operation that stays within its capacity, every throwing point", "why_tests_cant": "Absence of allocation for every sequence and size.", "anchors": ["source/containers/sbo_vector.cpp", "source/containers/lazy_push_back.cpp", "source/containers/insert.cpp", "source/containers/append.cpp", "source/containers/resize.cpp"]}
{"id": "C91", "title": "Moves, swaps and copy assignment of sbo_vector", "statement": "Moving takes the elements and the capacity and leaves an empty object that uses its own buffer; move assignment destroys the old elements and gives back the old block; std::swap exchanges elements and capacities; none of them throws. Copy assignment gives the target the elements of the source, which is unchanged; if it throws, a prefix has been replaced.", "quantifier": "every two sbo_vectors, each small or large, every throwing point", "why_tests_cant": "All combinations of small and large, all sizes.", "anchors": ["source/containers/sbo_vector.cpp: move_assign_to_empty, operator=, sbo_vector_base", "source/containers/assign.cpp"]}
{"id": "C92", "title": "An sbo_vector begins and ends its life without leaking", "statement": "A constructed or copied sbo_vector has the given elements and the rest of the memory is unchanged; a constructor that throws leaves the memory as it was; the destructor gives back exactly what belonged to the object.", "quantifier": "every range with at most as many elements as the largest size (half of it for a range without a size, see C40), every sbo_vector, every throwing point", "why_tests_cant": "Every throwing point in a constructor.", "anchors": ["source/containers/sbo_vector.cpp", "source/containers/assign_to_empty.cpp"]}
{"id": "C93", "title": "assign of sbo_vector", "statement": "Assigning a range replaces the elements by those of the range; if it throws, the object is still a valid sbo_vector.", "quantifier": "every sbo_vector, every range, every throwing point", "why_tests_cant": "Every throwing point.", "anchors": ["source/containers/sbo_vector.cpp: replace_empty_allocation", "source/containers/assign.cpp", "source/containers/assign_to_empty.cpp"]}
{"id": "C94", "title": "A dynamic_array begins and ends its life without leaking", "statement": "A dynamic_array made from a range or copied has exactly these elements; the rest of the memory is unchanged. A constructor that throws leaves the memory as it was. A number of elements outside the range of the size type is refused with an exception before anything is allocated. The destructor destroys every element once and gives back the memory.", "quantifier": "every size type, every range, every dynamic_array, every throwing point", "why_tests_cant": "Every size and every throwing point.", "anchors": ["source/containers/dynamic_array.cpp", "source/containers/uninitialized_dynamic_array.cpp", "source/containers/algorithms/uninitialized.cpp"]}
{"id": "C95", "title": "Assignment to a dynamic_array", "statement": "After assign or copy assignment without an exception the array has the new elements. If something throws, either it is unchanged, or (the number of elements changes and zero is a possible size) it is empty, or (the number stays the same) the first few elements have been replaced; nothing is leaked. Assigning the same number of elements keeps the block.", "quantifier": "every dynamic_array, every range that is not part of it, every throwing point", "why_tests_cant": "Every size and every throwing point.", "anchors": ["source/containers/dynamic_array.cpp: assign, operator=", "source/containers/algorithms/copy.cpp"]}
{"id": "C96", "title": "Moving dynamic_arrays", "statement": "Moving, move assignment and swap exchange the elements without touching them and do not throw; old elements of the target are destroyed and its memory given back, also when it is moved to itself. What is left of the source can be destroyed, cleared and assigned to. clear destroys all elements and frees the memory.", "quantifier": "every two dynamic_arrays, every throwing point", "why_tests_cant": "Every size; double destruction and leaks are not visible to a test without instrumentation.", "anchors": ["source/containers/dynamic_array.cpp: dynamic_array, operator=, clear", "source/containers/uninitialized_dynamic_array.cpp"]}
{"id": "C97", "title": "transform and reversed", "statement": "transform(r, f) has the elements f(x) in the order of r and can do all that r can; reversed(r) has the elements of r in the opposite order, with random access if r has it. Walking, comparing, adding and subtracting iterators is right at every position.", "quantifier": "every range, with iterators of every category, every number of elements", "why_tests_cant": "Every range and every position, and every view as the base of another.", "anchors": ["source/containers/algorithms/transform.cpp: transform", "source/containers/algorithms/reverse_iterator.cpp", "source/containers/adapt_iterator.cpp"]}
{"id": "C98", "title": "filter and remove_none", "statement": "filter(r, p) has exactly the elements of r for which p holds, in order; remove_none(r) has the values of the optionals that have one, in order.", "quantifier": "every range, with iterators of every category, every number of elements, every predicate", "why_tests_cant": "Every range and predicate.", "anchors": ["source/containers/algorithms/filter.cpp: filter", "source/containers/algorithms/remove_none.cpp"]}
{"id": "C99", "title": "take and check_size_not_greater_than", "statement": "take(r, n) has the first n elements of r, or all if there are fewer, and keeps random access. check_size_not_greater_than(r, n) is r if it has at most n elements; otherwise it throws, at construction if r has a size, and after n elements if not.", "quantifier": "every range, with iterators of every category, every number of elements, every count and type of the count", "why_tests_cant": "Every range and count.", "anchors": ["source/containers/take.cpp: take, check_size_not_greater_than"]}
{"id": "C100", "title": "drop, drop_exactly and drop_back_exactly", "statement": "drop(r, n) has the elements of r after the first n, none if there are fewer; drop_exactly throws if there are fewer. drop_back_exactly(r, n) has all but the last n and throws if there are fewer. What is left keeps random access.", "quantifier": "every range, with iterators of every category, every number of elements, every count and types of size and count", "why_tests_cant": "Every range and count.", "anchors": ["source/containers/algorithms/drop.cpp: drop, drop_exactly", "source/containers/algorithms/drop_back.cpp: drop_back_exactly"]}
{"id": "C101", "title": "zip and zip_smallest", "statement": "zip(r1, ..., rk) has as its i-th element the tuple of the i-th elements. Ranges of different lengths are refused with an exception: at once if all have a size, otherwise after the common rows. zip_smallest has as many rows as the shortest range has elements.", "quantifier": "every number of ranges, every range, with iterators of every category, every number of elements", "why_tests_cant": "Every number of ranges and every combination of lengths.", "anchors": ["source/containers/algorithms/zip.cpp: zip, zip_smallest"]}
{"id": "C102", "title": "concatenate_view", "statement": "concatenate_view(r1, ..., rk) has the elements of r1, then those of r2, and so on, empty ranges among them; with random access, offsets and differences across the ranges are right.", "quantifier": "every number of ranges, every range, with iterators of every category, every number of elements", "why_tests_cant": "Every number of ranges and every position.", "anchors": ["source/containers/algorithms/concatenate_view.cpp"]}
{"id": "C103", "title": "join_with and join", "statement": "join_with(rs, sep) has the elements of the first range in rs, those of sep, those of the second and so on; join(rs) has the elements of the ranges one after the other. Empty ranges and separators are no exception. linear_size is the number of elements.", "quantifier": "every range of ranges, every separator", "why_tests_cant": "Every number and sizes of the ranges.", "anchors": ["source/containers/algorithms/join_with.cpp: join_with", "source/containers/algorithms/join.cpp: join", "source/containers/linear_size.cpp"]}
{"id": "C104", "title": "split", "statement": "split(r, delimiter) has the pieces of r between the delimiters, from the left and without overlap, with an empty piece where two delimiters meet and at a delimiter at either end. Iterators are equal when they are at the same piece and ordered as the pieces are.", "quantifier": "every range, every element or range of elements as delimiter", "why_tests_cant": "Every range and every delimiter.", "anchors": ["source/containers/algorithms/split.cpp: split"]}
{"id": "C105", "title": "split_keep_delimiters", "statement": "split_keep_delimiters(r, delimiter) has the pieces of split and the delimiters between them in turn. Iterators are equal when they are at the same piece.", "quantifier": "every range, every element or range of elements as delimiter", "why_tests_cant": "Every range and every delimiter.", "anchors": ["source/containers/algorithms/split.cpp: split_keep_delimiters"]}
{"id": "C106", "title": "chunk_by", "statement": "chunk_by(r, p) has consecutive pieces of r, none empty and together all of r; within a piece p holds for each element and the next, and it does not hold for the last of a piece and the first of the next.", "quantifier": "every range, every predicate", "why_tests_cant": "Every range and predicate.", "anchors": ["source/containers/algorithms/chunk_by.cpp: chunk_by"]}
{"id": "C107", "title": "adjacent", "statement": "adjacent<g>(r) has the groups of g consecutive elements of r in order, none if there are fewer than g; offsets and differences are right.", "quantifier": "every range, every size of the groups", "why_tests_cant": "Every range and group size.", "anchors": ["source/containers/algorithms/adjacent.cpp: adjacent"]}
{"id": "C108", "title": "batched", "statement": "batched(r, n) has n ranges that together are r, whose sizes differ by at most one, the larger ones first.", "quantifier": "every range with a size and random access, every number of batches", "why_tests_cant": "Every size and number.", "anchors": ["source/containers/batched.cpp: batched"]}
{"id": "C109", "title": "integer_range", "statement": "integer_range(first, last, step) has the numbers first, first + step, ... up to but not including last, inclusive_integer_range also last; all that random access can do is right. An end that is not reached breaks an assertion.", "quantifier": "all types, all values and steps with first not greater than last", "why_tests_cant": "Every bound and step.", "anchors": ["source/containers/integer_range.cpp: integer_range, inclusive_integer_range"]}
{"id": "C110", "title": "Comparison of ranges", "statement": "lexicographical_compare and shortlex_compare give the ordering that the definitions of these orders give, equal is true exactly when the ranges have the same number of elements and these are equal, mismatch gives the first place where the predicate does not hold or a range ends. The _assume_same_size functions agree with them for ranges of one size, and assert it. The comparison of ranges is antisymmetric and transitive when that of the elements is.", "quantifier": "every two ranges of every category, every comparison", "why_tests_cant": "Every pair of ranges and every length.", "anchors": ["source/containers/algorithms/compare.cpp: lexicographical_compare, shortlex_compare, equal, equal_assume_same_size, lexicographical_compare_assume_same_size", "source/containers/algorithms/mismatch.cpp: mismatch"]}
{"id": "C111", "title": "starts_with and ends_with", "statement": "starts_with is true exactly when the range is the prefix and more elements, ends_with when it is some elements and the suffix, also when the range is shorter or either is empty.", "quantifier": "every two ranges, every comparison, every type of the sizes", "why_tests_cant": "Every pair of ranges.", "anchors": ["source/containers/algorithms/starts_with.cpp", "source/containers/algorithms/ends_with.cpp"]}
{"id": "C112", "title": "accumulate, sum and product", "statement": "The sum and the product of a range of bounded integers are the mathematical ones, in a type that holds them for every range of that type: no step overflows. sum<T> and product<T> are exact while all intermediate results are values of T.", "quantifier": "every type of elements and every largest size, every list of values", "why_tests_cant": "Every list of values up to the largest size of the type.", "anchors": ["source/containers/algorithms/accumulate.cpp: accumulate, sum, product"]}
{"id": "C113", "title": "Sizes and single elements", "statement": "count_if and count give the number of matching elements, distance the number of steps to the end, is_empty whether there is no element, size the number of elements, front and back the first and the last element, at the element at an index. at throws exactly for an index out of range; front and back of an empty range break an assertion.", "quantifier": "every range, every index, every bounds of the type of the size", "why_tests_cant": "Every range and index.", "anchors": ["source/containers/algorithms/count.cpp", "source/containers/algorithms/distance.cpp", "source/containers/is_empty.cpp", "source/containers/size.cpp", "source/containers/front.cpp", "source/containers/back.cpp", "source/containers/at.cpp"]}
{"id": "C114", "title": "Ranges made by calling a function", "statement": "A loop over generate(f) sees the values f returns until it returns none, and f is called once more than that; over generate_n(n, f) the values of n calls, over generate_until(f, done) the values until done, which is asked before each call. No call is made twice and none is left out. repeat_n has n times the value, and indexed_generate_n(n, f) has f(i) at position i, with random access.", "quantifier": "every function and every effect it has, every number", "why_tests_cant": "Every function and every state it leaves behind.", "anchors": ["source/containers/algorithms/generate.cpp: generate, generate_n, generate_n_idempotent, indexed_generate_n", "source/containers/algorithms/generate_until.cpp", "source/containers/repeat_n.cpp"]}
{"id": "C115", "title": "set_intersection_pair", "statement": "For two sorted ranges, set_intersection_pair has the pairs of equivalent elements: of every class the first k of both ranges in order, k being the smaller of the numbers of elements of that class, and the classes in order. Unsorted ranges break an assertion.", "quantifier": "every two ranges and every strict weak order", "why_tests_cant": "Every pair of sorted ranges, with every pattern of duplicates.", "anchors": ["source/containers/algorithms/set.cpp: set_intersection_pair", "source/containers/algorithms/sort/is_sorted.cpp: is_sorted"]}
{"id": "C116", "title": "concatenate", "statement": "concatenate returns a vector with the elements of all arguments in order. If an expiring vector has room for everything, the first such gives its storage to the result, otherwise there is new storage. Ranges that are not expiring keep their elements, expiring vectors are left without elements. When a copy or an allocation throws, every argument can still be used and destroyed, and nothing leaks.", "quantifier": "every number of arguments, expiring or not, of every size and capacity, and every point at which a copy or an allocation throws", "why_tests_cant": "Every combination of sizes, capacities and throwing operations.", "anchors": ["source/containers/algorithms/concatenate.cpp: concatenate, concatenate_prepend_append, reusable_concatenate_container, move_existing_data_to_final_position", "source/containers/append_into_capacity.cpp", "source/containers/algorithms/uninitialized.cpp", "source/containers/algorithms/copy_or_relocate_from.cpp"]}
{"id": "C117", "title": "reverse", "statement": "reverse puts the elements of a range in the opposite order, for random access and for iterators that only move by one step. It touches nothing outside of the range and never moves an iterator before the begin.", "quantifier": "every range of every length, both kinds of iterators", "why_tests_cant": "Every length, odd and even, and the empty range.", "anchors": ["source/containers/algorithms/reverse.cpp: reverse"]}
{"id": "C118", "title": "keyed_erase and maybe_find", "statement": "keyed_erase removes exactly the elements with the key, leaves the others in order and returns how many it removed: at most one from a map, all of them from a multimap. maybe_find returns a pointer to the first match or null.", "quantifier": "every flat map, flat multimap and linear map, every key, every order", "why_tests_cant": "Every map and key.", "anchors": ["source/containers/algorithms/keyed_erase.cpp: keyed_erase", "source/containers/algorithms/keyed_binary_search.cpp: keyed_equal_range", "source/containers/algorithms/maybe_find.cpp: maybe_find, maybe_find_if"]}
{"id": "C119", "title": "Maps are dictionaries", "statement": "Whatever sequence of keyed_insert, keyed_erase, lookup and size a program makes, a flat map and a linear map give the replies of a function from keys to values, and a flat multimap those of a function from keys to lists of values in the order of insertion. A flat map and a linear map with the same notion of equal keys cannot be told apart.", "quantifier": "every finite sequence of actions, every strict weak order, every equivalence of keys", "why_tests_cant": "Every history.", "anchors": ["source/containers/algorithms/keyed_insert.cpp: keyed_insert", "source/containers/algorithms/keyed_erase.cpp: keyed_erase", "source/containers/lookup.cpp: lookup", "source/containers/flat_map.cpp: basic_flat_map, basic_flat_multimap", "source/containers/linear_map.cpp: basic_linear_map"]}
{"id": "C120", "title": "Vectors with the interface of the standard library: values that are elements", "statement": "insert of a value or of several copies of a value, and resize with a value, use the value that the argument had at the call, even when it is an element of the vector itself; insert and resize do all or nothing. reserve makes room, or throws and changes nothing when the argument is above max_size. inplace_vector: no operation needs memory; more than the capacity throws; try_push_back returns a pointer to the new element, or null without a change when the vector is full; reserve throws exactly above the capacity.", "quantifier": "every vector, position, count, value inside or outside of the vector, and every point at which a copy or an allocation throws", "why_tests_cant": "Every combination of position of the argument, capacity and throwing operation.", "anchors": ["source/containers/std/vector.cpp: vector::insert, resize, reserve, object_is_in_storage", "source/containers/std/inplace_vector.cpp: inplace_vector::insert, resize, reserve, try_push_back, unchecked_push_back", "source/containers/resize.cpp: resize", "source/containers/repeat_n.cpp: repeat_n"]}
{"id": "C121", "title": "Reading a vector in reverse", "statement": "The loop from rbegin() to rend() reads the elements in the opposite order.", "quantifier": "every std-style vector and inplace_vector", "why_tests_cant": "Every size.", "anchors": ["source/containers/std/vector.cpp: rbegin, rend", "source/containers/std/inplace_vector.cpp: rbegin, rend"]}
{"id": "C122", "title": "The std-style list and its size()", "statement": "The std-style list is a sequence and its size() is the number of its elements: after any history of push_back, push_front, pop_back, pop_front, insert, erase, remove_if, clear and resize, after construction, copying, swap, and splice between lists. An operation on a list that throws leaves nothing behind, and other lists and their sizes stay as they are.", "quantifier": "every finite history of calls with exceptions at any point, every two lists and positions", "why_tests_cant": "Every history, including every point at which an allocation or a copy throws.", "anchors": ["source/containers/std/list.cpp: sized_list, list", "source/containers/resize.cpp: resize_impl", "source/containers/algorithms/erase.cpp: erase_if", "source/containers/insert.cpp", "source/containers/lazy_push_front.cpp", "source/containers/algorithms/distance.cpp"]}
{"id": "C123", "title": "The std-style list: moves, failed assignments, and operations that reorder", "statement": "size() is the number of elements also of a moved-from list, which can be resized and used again, and after an assignment that throws. sort sorts, reverse reverses, merge merges, unique removes repetition, and rbegin() refers to the last element.", "quantifier": "every list", "why_tests_cant": "Every state after a move or a failed assignment.", "anchors": ["source/containers/std/list.cpp: sized_list(sized_list &&), operator=, list::resize, sort, reverse, merge, unique, rbegin"]}
{"id": "C124", "title": "Programs with any number of sbo_vectors", "statement": "A program that creates, copies, moves, assigns, swaps, changes and destroys any number of sbo_vectors in any order, with elements of one vector given to another or to itself, and that catches exceptions, has no undefined behavior. Every vector always has the elements that the operations promise; an operation on some vectors changes no other; without exceptions the result is that of the same program on plain sequences. When all vectors have been destroyed the memory is as it was before.", "quantifier": "every finite program, every capacity of the buffer, every point at which a copy or an allocation throws", "why_tests_cant": "Every program and every pattern of exceptions.", "anchors": ["source/containers/sbo_vector.cpp: sbo_vector", "source/containers/push_back.cpp", "source/containers/append.cpp", "source/containers/insert.cpp", "source/containers/erase.cpp", "source/containers/assign.cpp", "source/containers/resize.cpp", "source/containers/shrink_to_fit.cpp", "source/containers/clear.cpp", "source/containers/pop_back.cpp"]}
{"id": "C125", "title": "Reading a string from a stream", "statement": "stream >> str skips spaces if the stream says so, replaces the contents of the string by the characters up to the next space, the end or the field width, leaves all other characters in the stream and resets the width. Nothing to read sets the failure bit. Repeated reading gives the words of a text in order. Reading up to the end of the text sets the end-of-file bit, as for the standard string. When memory runs out, no character is lost.", "quantifier": "every text, every field width, every capacity, every point at which memory runs out", "why_tests_cant": "Every text and every width.", "anchors": ["source/containers/string.cpp: operator>>", "source/containers/push_back.cpp", "source/containers/clear.cpp"]}
{"id": "C126", "title": "trivial_inplace_function", "statement": "A trivial_inplace_function behaves like the function that was put into it: any program that makes, copies, assigns and calls such objects sees the same results and exceptions and leaves the same world as with the functions themselves; the state of a function is in its wrapper and copies are independent. The default alignment is enough for every type that fits. Whatever the constraint of the constructor admits compiles. A wrapper with a function in it is never mistaken for the empty state of an optional.", "quantifier": "every type of function, every capacity and alignment, every finite program", "why_tests_cant": "Every type, every state and every sequence of calls.", "anchors": ["source/containers/trivial_inplace_function.cpp: trivial_inplace_function, trivially_storable, alignment_for_capacity, padded, tombstone"]}
{"id": "C127", "title": "Bounded integers on streams", "statement": "out << x writes the decimal numeral of x, whatever type stores it. in >> x skips spaces, reads an optional sign and all digits, and gives x this value and leaves the rest of the text; a number that is not a value of x's type is reported by an exception or by the failure bit; reading when there is no number or nothing left fails and leaves x as it was. What was written is read back, for any number of values separated by spaces.", "quantifier": "every integer type, every value, every text and every locale's set of spaces", "why_tests_cant": "Every value of every type and every text.", "anchors": ["source/bounded/stream.cpp: operator<<, operator>>"]}
{"id": "C128", "title": "containers::to_string", "statement": "to_string of any bounded or built-in integer is its canonical decimal numeral: a minus sign exactly for negative values, no leading zeros, and 0 for zero. Different values have different strings, and reading the string with to_integer gives the value back.", "quantifier": "every integer type and every value", "why_tests_cant": "Every value of every type, the extreme ones included.", "anchors": ["source/containers/to_any_string.cpp: to_any_string, to_any_string_impl, include_zero", "source/containers/to_string.cpp: to_string"]}
{"id": "C129", "title": "Programs with any number of vectors", "statement": "A program creates (empty, from a range, by copy, by move), uses, assigns, swaps and destroys any number of vectors in any order; arguments may be elements of other vectors or of the same one; a vector may be appended to itself and moved to itself; vectors that were moved from are only read, assigned to, moved, swapped or destroyed; every exception is caught. Nothing is ever undefined, no two vectors share storage, every vector has exactly the elements the steps account for, no other memory changes, and after the last vector is destroyed all memory is as it was at the start.", "quantifier": "every program, every number of vectors, every element type, every capacity range and every point where an element or the allocator throws", "why_tests_cant": "Every interleaving of calls on every number of objects and every place of every exception.", "anchors": ["source/containers/bounded_vector.cpp: bounded_vector", "source/containers/push_back.cpp: push_back", "source/containers/append.cpp: append", "source/containers/insert.cpp: insert", "source/containers/assign.cpp: assign", "source/containers/uninitialized_dynamic_array.cpp: uninitialized_dynamic_array"]}
{"id": "C130", "title": "Programs with any number of static_vectors", "statement": "A program creates (empty, from a range, by copy, by move), uses, assigns, swaps and destroys any number of static_vectors in any order and catches every exception; arguments may be elements of other vectors or of the same one. It never has to know which vectors were moved from: one that was moved from by the constructor is empty, one that was assigned from has as many elements as before, and both may be used like any other. Calls of push_back, insert and constructors that lack room throw and change nothing. Nothing is ever undefined, every vector has exactly the elements the steps account for, no other memory changes, and all of it is as at the start after the last vector is destroyed.", "quantifier": "every program, every number of static_vectors, every element type, every capacity and every point where an element throws", "why_tests_cant": "Every interleaving of calls on every number of objects and every place of every exception.", "anchors": ["source/containers/static_vector.cpp: static_vector, swap", "source/containers/push_back.cpp: push_back", "source/containers/append.cpp: append", "source/containers/insert.cpp: insert", "source/containers/assign.cpp: assign"]}
{"id": "C131", "title": "Programs with any number of stable_vectors", "statement": "A program creates (empty, from a range, by copy, by move), uses, assigns, swaps and destroys any number of stable_vectors in any order and catches every exception; arguments may be elements of other vectors or of the same one; vectors that were moved from are only read, assigned to, moved, swapped or destroyed. Nothing is ever undefined, no two vectors share storage, every vector has exactly the elements the steps account for, calls of push_back and insert that lack room throw and change nothing, and all memory is as at the start after the last vector is destroyed. The elements never move to another place except by a move or a swap that hands over all of them: after any number of calls that add or remove elements, pointers, references and iterators to the places of a vector point to what the vector has there.", "quantifier": "every program, every number of stable_vectors, every element type, every capacity and every point where an element or the allocator throws", "why_tests_cant": "Every interleaving of calls on every number of objects and every place of every exception.", "anchors": ["source/containers/stable_vector.cpp: stable_vector", "source/containers/bounded_vector.cpp: bounded_vector", "source/containers/push_back.cpp: push_back", "source/containers/append.cpp: append", "source/containers/insert.cpp: insert", "source/containers/assign.cpp: assign"]}
{"id": "C132", "title": "Texts: string_view and the static strings", "statement": "A string_view made from a pointer has the characters up to the first null character; one made from a pointer and a size, from a std::string, another text or a part of a text has exactly those characters; the literals _s, _null_terminated and _sv have the characters of the literal, null characters included, and c_str() of the second is followed by a null character. Visiting and indexing give the characters. Two texts of any of these types are equal if and only if they have the same characters, wherever these are stored; <=> is the lexicographic order of the characters and agrees with ==; equal texts have equal hashes. The order is that of std::string_view, and ska_sort of texts sorts by it.", "quantifier": "every memory, every text and every pair of texts", "why_tests_cant": "Every text, the extreme sizes and characters included.", "anchors": ["source/containers/string_view.cpp: string_view, from_c_str, operator\"\"_sv, std::hash", "source/containers/static_string.cpp: static_string, static_null_terminated_string, operator\"\"_s, operator\"\"_null_terminated", "source/containers/algorithms/compare.cpp: lexicographical_compare_3way, equal", "source/containers/algorithms/sort/to_radix_sort_key.cpp: to_radix_sort_key"]}
{"id": "C133", "title": "Programs with any number of bidirectional linked lists", "statement": "A program creates (empty, from a range, by copy, by move), uses, splices, assigns, swaps and destroys any number of linked lists in any order, keeps iterators for as long as it likes, decides by what the calls return what to do next and catches every exception. As long as it uses only iterators to elements that live and to ends, and does not splice a range to a place within itself, nothing is ever undefined, every call returns what it promises, every list has exactly the elements the steps account for, no two lists share a node, no other memory changes, and after the last list is destroyed all memory is as at the start unless a constructor or insert of several elements threw. An element stays at its address, so that iterators to it stay valid, through every call that does not remove it, also through moves, swaps and splices to another list and through calls that throw.", "quantifier": "every program, every number of lists, every element type and every point where an element or the allocator throws", "why_tests_cant": "Every interleaving of calls on every number of objects, every kept iterator and every place of every exception.", "anchors": ["source/containers/bidirectional_linked_list.cpp: bidirectional_linked_list", "source/containers/linked_list_helper.cpp", "source/containers/insert.cpp: insert", "source/containers/assign.cpp: assign", "source/containers/algorithms/erase.cpp: erase, erase_if", "source/containers/algorithms/splice.cpp: splice"]}
{"id": "C134", "title": "Bytes: shifts of std::byte, span, as_bytes and as_writeable_bytes", "statement": "A shift of a std::byte by a bounded integer is the byte times or divided by that power of two, without the bits that leave the byte, for every amount its type allows; a type with negative values has no such shift. A span made from a contiguous range, from a place and a number or from two places has exactly the elements there: its size is their number and span[i] is the i-th; assigning to span[i] changes that element and nothing else in memory. as_bytes and as_writeable_bytes exist for every range whose size type fits the largest array, have sizeof times as many bytes, byte i * sizeof + j is byte j of element i, and assigning to it changes that byte and nothing else.", "quantifier": "every byte, amount and type of amount; every memory, element size, range and index", "why_tests_cant": "Every memory content, every element size and every index, the largest sizes included.", "anchors": ["source/bounded/arithmetic/byte.cpp: operator<<, operator>>", "source/containers/span.cpp: span", "source/containers/as_bytes.cpp: as_bytes, as_writeable_bytes", "source/containers/maximum_array_size.cpp: maximum_array_size"]}
{"id": "C135", "title": "Programs with any number of dynamic_arrays", "statement": "A program creates (empty, from a range, by copy, by move), assigns, writes, clears, swaps and destroys any number of dynamic_arrays in any order and catches every exception; an element may be assigned from an element of any array, the same one included, and an array may be assigned or moved to itself; arrays that were moved from are only assigned to, moved, swapped, cleared or destroyed. Nothing is ever undefined, no two arrays share storage, every array has exactly the elements the steps account for and a size its type has, no other memory changes, and after the last array is destroyed all memory is as it was at the start.", "quantifier": "every program, every number of dynamic_arrays, every element type, every range of sizes and every point where an element or the allocator throws", "why_tests_cant": "Every interleaving of calls on every number of objects and every place of every exception.", "anchors": ["source/containers/dynamic_array.cpp: dynamic_array, assign, clear", "source/containers/uninitialized_dynamic_array.cpp: uninitialized_dynamic_array", "source/containers/algorithms/copy.cpp: copy"]}
{"id": "C136", "title": "Programs with any number of variants", "statement": "A program constructs (from a value or from an element of a variant), copies, moves, emplaces, assigns, swaps and destroys any number of variants of one type in any order, uses elements of its variants, copied or moved, as the values, also within one variant, and catches every exception. Nothing is ever undefined; at every time each variant has exactly one living alternative, the one that index() names, with the value the steps account for; a step that is left by an exception leaves every variant as it was; no other memory changes, and after the last variant is destroyed all memory is as it was at the start.", "quantifier": "every program, every number of variants, every list of alternatives and every point where an alternative throws", "why_tests_cant": "Every interleaving of calls on every number of objects, every aliasing and every place of every exception.", "anchors": ["source/tv/variant.cpp: variant, emplace, emplace_impl, copy_move, assign, destructor", "source/tv/single_element_storage.cpp: single_element_storage", "source/tv/variadic_union.cpp: variadic_union"]}
{"id": "C137", "title": "Arrays of a fixed size", "statement": "to_array gives an array with exactly the elements of the range in order, reading each once and never incrementing the iterator past the last element; it moves from the elements exactly when the range is a container given as an rvalue or yields rvalues, else it leaves them unchanged. make_array_n gives n copies of the value and moves from it at most once, last. If an element throws, nothing is left of the array. Arrays with any number of sizes compare as their elements in memory order, are equal when all elements are, and a[i][j]... is the element at its row-major place. An array converts to a span of its elements.", "quantifier": "every range and size, every element type, every throwing point, every number of sizes", "why_tests_cant": "Every size, every nesting and every place of an exception.", "anchors": ["source/containers/array.cpp: array, operator<=>, operator std::span, get", "source/containers/to_array.cpp: to_array, to_array_impl, make_array_n", "source/containers/c_array.cpp: c_array", "source/containers/is_container.cpp: is_container"]}
{"id": "C138", "title": "What min, max and extreme refer to", "statement": "The result of min, max and extreme is a new object, or a reference to one of the arguments that is an lvalue, so it can be kept as long as that argument. It is a reference only if all arguments are lvalues of the same type; then it refers to the first of the extreme arguments and is const exactly if one of the arguments is. common_type_and_value_category of types is a reference only if it binds directly to every one of them.", "quantifier": "every number of arguments of every type, constness and value category, every strict weak order", "why_tests_cant": "Every combination of types, constness, value categories and values; a reference to a dead object often still reads the right value in a test.", "anchors": ["source/bounded/minmax.cpp: extreme_value, extreme, min, max", "source/bounded/common_type_and_value_category.cpp: add_common_cv_reference, common_type_and_value_category", "source/containers/algorithms/zip.cpp: zip_smallest"]}
{"id": "C139", "title": "Iterators and ranges for the standard library", "statement": "legacy_range of a range whose end is an iterator has the same elements in the same order, and its iterators can do everything that those of the range can do, with positions, distances and order unchanged, also for iterators that go back. Legacy iterators that were constructed without a value are equal to each other, have distance 0 and can be moved by 0; they differ from every iterator into a range. Every forward legacy iterator can be constructed without a value and converts to the legacy iterators of other types.", "quantifier": "every range, every iterator type with every set of operations, every position and offset", "why_tests_cant": "Every iterator type, every position and every offset.", "anchors": ["source/containers/legacy_iterator.cpp: legacy_iterator, non_optional, make_legacy_iterator", "source/containers/legacy_range.cpp: legacy_range"]}
{"id": "C140", "title": "append to standard containers and to linked lists", "statement": "append to a std::vector, std::deque, std::list or linked list adds the elements of the source in order. A source that is not expiring keeps its elements; an expiring container is left empty or with all elements moved from. If an allocation or a copy throws, the target has its elements followed by some of the first new ones (when push_back is used), and the source can still be used and destroyed. A std::vector allocates at most once, and not at all when there is room, in which case its iterators stay valid. A container can be appended to itself.", "quantifier": "every kind of target and source, every number of elements and every place of an exception", "why_tests_cant": "Every number of elements, every capacity and every place of an exception; the elements that are destroyed twice are only seen after an exception.", "anchors": ["source/containers/append.cpp: append_impl", "source/containers/legacy_append.cpp: legacy_append, maybe_reserve", "source/containers/algorithms/copy_or_relocate_from.cpp: copy_or_relocate_from", "source/containers/exponential_force_reserve.cpp: exponential_force_reserve"]}
{"id": "C141", "title": "What a program sees of a flat map is what it would see of a dictionary, whatever throws", "statement": "A program that keeps a flat_map, flat_multimap, static_flat_map or static_flat_multimap, inserts, erases, looks up and asks for the size in any order and catches what is thrown, never runs into undefined behaviour, and an operation that threw has changed nothing: the replies of the others are those of a dictionary (of a multimap: of a dictionary of lists, in order of insertion) on which the operations that threw were not done. When nothing else throws, only inserting a new entry throws, and only when the container cannot grow: a static one is full, the vector of the others cannot double its capacity. After the map is gone all memory has been given back.", "quantifier": "all key types with a strict weak order, all mapped types, all sequences of operations, all maximum sizes, all points at which an allocation, a copy or a comparison may throw", "why_tests_cant": "whether an exception at some point leaves a half-inserted entry depends on the sequence before it, on the capacity and on where it is thrown; tests throw at a few places", "anchors": ["source/containers/flat_map.cpp: flat_map_base, lazy_insert, find, erase, flat_map, static_flat_map, flat_multimap, static_flat_multimap", "source/containers/algorithms/keyed_insert.cpp", "source/containers/algorithms/keyed_erase.cpp", "source/containers/lookup.cpp", "source/containers/vector.cpp", "source/containers/static_vector.cpp", "source/containers/insert.cpp", "source/containers/erase.cpp"]}
{"id": "C142", "title": "A flat map whose key type has n values can have an entry for each of them", "statement": "A flat_map<Key, Mapped> whose Key has n different values never fails to insert an entry unless an allocation or the program's own code throws: it is a dictionary for all keys.", "quantifier": "all key types with finitely many different values, all sequences of operations", "why_tests_cant": "the maximum size comes from the key type and the growth from the history of the capacity; a test with one key type and one sequence shows neither", "anchors": ["source/containers/flat_map.cpp: maximum_map_size, flat_map", "source/containers/insert.cpp", "source/containers/reallocation_size.cpp", "source/containers/bounded_vector.cpp: reserve"]}
{"id": "C143", "title": "A linear_map is a dictionary, whatever throws", "statement": "A program that inserts into, erases from and looks up in a linear_map or static_linear_map, and catches every exception, sees what it would see of a dictionary from which the operations that threw are left out: an operation that threw has changed nothing. At the end all memory has been given back. Nothing is undefined, provided that a linear_map never holds more than half as many keys as its type allows; a static_linear_map throws when it is full.", "quantifier": "all key and mapped types, all equivalence relations on keys, all sequences of operations, all choices of which allocations, constructions and comparisons throw", "why_tests_cant": "a test throws at one place in one sequence", "anchors": ["source/containers/linear_map.cpp: find, lazy_insert, erase", "source/containers/algorithms/keyed_erase.cpp", "source/containers/lookup.cpp", "source/containers/lazy_push_back.cpp", "source/containers/algorithms/find.cpp: find_if"]}
{"id": "C144", "title": "A linear_map stays a map when a range is inserted into it, and becomes one when it is made from a range, whatever throws", "statement": "After inserting a range, a linear_map has exactly one element for each key: those it had, unchanged, and one for each new key of the range. This also holds when the insertion throws: then the map has the elements it had, and maybe new ones, but no key twice. A constructor from a range makes such a map or, when something throws, gives all memory back.", "quantifier": "all key and mapped types, all equivalence relations on keys, all maps and ranges, all choices of which allocations, constructions and comparisons throw", "why_tests_cant": "the elements are appended first and then removed by a loop of comparisons and swaps, each of which can be the one that throws", "anchors": ["source/containers/linear_map.cpp: insert, remove_duplicates, basic_linear_map(Range &&)", "source/containers/append.cpp", "source/containers/algorithms/erase.cpp: erase_to_end", "source/containers/algorithms/all_any_none.cpp: any"]}
{"id": "C145", "title": "unique and unique_inplace_merge leave every element alive and every element there, whatever throws", "statement": "unique and unique_inplace_merge on the elements of a container leave as many living elements in it as there were and give all temporary memory back, whether they return or throw. When they return, the first elements of the container are the first ones of all runs of equal elements, and the first ones of all equivalent elements in order. When they throw, no element is lost: each of those that were there is still there.", "quantifier": "all element types, all comparisons, all ranges, all choices of which allocations, moves and comparisons throw", "why_tests_cant": "some elements are in temporary memory, some were moved, and an exception can come at any step in between", "anchors": ["source/containers/algorithms/unique.cpp: unique, unique_copy, unique_merge_copy, unique_inplace_merge", "source/containers/dynamic_array.cpp: dynamic_array"]}
{"id": "C146", "title": "A flat map stays a map when a range is inserted into it, and becomes one when it is made from a range, whatever throws", "statement": "After inserting a range, a flat_map has its keys in order, each element it had, and one of the range for each new key. When the insertion throws, the map still finds every element it had. A constructor from a range makes such a map or, when something throws, gives all memory back.", "quantifier": "all key and mapped types, all strict weak orders, all maps and ranges, all choices of which allocations, moves and comparisons throw, everything the sort function may leave behind when it throws", "why_tests_cant": "the elements are appended, sorted, merged through temporary memory and erased, and each step of each of these can be the one that throws", "anchors": ["source/containers/flat_map.cpp: insert, merge_sorted_and_unsorted, flat_map_base(Range &&)", "source/containers/algorithms/unique.cpp: unique_inplace_merge, unique", "source/containers/algorithms/sort/ska_sort.cpp: unique_ska_sort", "source/containers/append.cpp", "source/containers/algorithms/erase.cpp: erase_to_end"]}
{"id": "C147", "title": "Programs with any number of optionals", "statement": "A program constructs (empty, from a value or from the value of an optional), copies, moves, emplaces, assigns, empties, swaps and destroys any number of optionals of one type in any order, uses the values of its optionals, copied or moved, and catches every exception. Nothing is ever undefined; at every time each optional says truly whether it has a value, and has the value the steps account for, whether the value type has spare representations or not; a step that is left by an exception leaves every optional as it was, except that emplace may leave it empty; no other memory changes, and after the last optional is destroyed all memory is as it was at the start.", "quantifier": "every program, every number of optionals, every value type with or without spare representations and every point where a value throws", "why_tests_cant": "Every interleaving of calls on every number of objects, every aliasing and every place of every exception.", "anchors": ["source/tv/optional.cpp: optional, optional_storage, emplace, assign, operator=, operator bool", "source/tv/variant.cpp: variant, emplace, assign", "source/bounded/tombstone.cpp: tombstone_traits"]}
{"id": "C148", "title": "Conversions to bounded integers are as documented", "statement": "A conversion to a bounded integer type that is wrong for every value of the source type does not compile, however it is written: implicitly, with bounded::unchecked, as an assignment, with check_in_range or with assume_in_range. One that is wrong for some values does not happen implicitly; the other forms compile, and give the value when the type has it, otherwise check_in_range throws and assignment and assume_in_range are undefined. A type that has all the values of another takes them implicitly and without change. check_in_range<Target>(value) returns the value in a type with new bounds based on the boundary checks: for integer<0, 10> and a value of integer<-5, 5> it is integer<0, 5>.", "quantifier": "every bounded target type, every bounded or built-in source type and every value", "why_tests_cant": "Which conversions compile depends on the bounds of two types, of which there are infinitely many pairs; what they do must be right for all values.", "anchors": ["bounded-readme.md", "source/bounded/integer.cpp: integer constructors, operator=, assume_in_range", "source/bounded/bounded_by_range.cpp", "source/bounded/check_in_range.cpp: check_in_range"]}
{"id": "C149", "title": "Programs with any number of flat maps", "statement": "A program creates, copies, moves, assigns, swaps, reserves room in, inserts into, erases from, searches and destroys any number of flat maps of one type in any order, and catches every exception. Nothing is ever undefined. A map that was moved from is only destroyed, assigned to, moved and swapped; of the others the program sees what it would see of dictionaries that are copied, moved and swapped in the same way: no two maps share entries, and a step that throws leaves every map as it was, or, when it assigns, at least leaves a map. No other memory changes, and after the last map is destroyed all memory is as it was at the start.", "quantifier": "every program, every number of maps, all key and mapped types, all strict weak orders and every choice of which allocations, copies, moves and comparisons throw", "why_tests_cant": "Every interleaving of calls on every number of maps, and every place of every exception.", "anchors": ["source/containers/flat_map.cpp: flat_map_base, insert, lazy_insert, find, erase", "source/containers/bounded_vector.cpp: bounded_vector, operator=", "source/containers/assign_to_empty.cpp", "source/containers/algorithms/keyed_erase.cpp", "source/containers/lookup.cpp"]}
{"id": "C150", "title": "Programs with any number of linear maps", "statement": "A program creates, copies, moves, assigns, swaps, reserves room in, inserts into, erases from, searches and destroys any number of linear maps of one type in any order, and catches every exception; it only inserts into maps that have at most half as many entries as they may have. Nothing is ever undefined. A map that was moved from is only destroyed, assigned to, moved and swapped; of the others the program sees what it would see of dictionaries that are copied, moved and swapped in the same way: no two maps share entries, and a step that throws leaves every map as it was, or, when it assigns, at least leaves a map. No other memory changes, and after the last map is destroyed all memory is as it was at the start.", "quantifier": "every program, every number of maps, all key and mapped types, all equivalence relations of keys and every choice of which allocations, copies, moves and comparisons throw", "why_tests_cant": "Every interleaving of calls on every number of maps, and every place of every exception.", "anchors": ["source/containers/linear_map.cpp: basic_linear_map, lazy_insert, find, erase", "source/containers/bounded_vector.cpp: bounded_vector, operator=", "source/containers/assign_to_empty.cpp", "source/containers/algorithms/keyed_erase.cpp", "source/containers/lookup.cpp"]}
{"id": "C151", "title": "Programs with any number of static maps", "statement": "A program creates, copies, moves, assigns, swaps, inserts into, erases from, searches and destroys any number of static_flat_maps or static_linear_maps of one type in any order, and catches every exception. It records from which maps it assigned by moving and to which maps a copying assignment threw; those it only destroys, assigns to, moves and swaps. Nothing is ever undefined. Of the other maps it sees what it would see of dictionaries that are copied, moved and swapped in the same way: a map from which another one was constructed is empty and can be used at once, no two maps share entries, and a step that throws changes no map but the target of a copying assignment. A full map throws when a new key is inserted; otherwise only elements and comparisons throw. No other memory changes, and after the last map is destroyed all memory is as it was at the start.", "quantifier": "every program, every number of maps, every capacity, all key and mapped types, all strict weak orders or equivalence relations of keys and every choice of which copies, moves and comparisons throw", "why_tests_cant": "Every interleaving of calls on every number of maps, and every place of every exception.", "anchors": ["source/containers/flat_map.cpp: flat_map_base, lazy_insert, find, erase, static_flat_map", "source/containers/linear_map.cpp: basic_linear_map, lazy_insert, find, erase, static_linear_map", "source/containers/static_vector.cpp: static_vector, operator=", "source/containers/assign.cpp", "source/containers/algorithms/keyed_erase.cpp", "source/containers/lookup.cpp"]}
{"id": "C152", "title": "Programs with any number of forward linked lists", "statement": "A program creates (empty, from a range, by copy, by move), uses, splices, assigns, swaps and destroys any number of forward linked lists in any order, keeps iterators (before_begin included) for as long as it likes, decides by what the calls return what to do next and catches every exception. As long as it uses only iterators to elements that live and to places before the first element, does not erase after the last element and splices only from one list to another, nothing is ever undefined, every call returns what it promises, every list has exactly the elements the steps account for, no two lists share a node, no other memory changes, and after the last list is destroyed all memory is as at the start unless a constructor of several elements threw. An element stays at its address, so that iterators to it stay valid, through every call that does not remove it, also through moves, swaps and splices to another list and through calls that throw.", "quantifier": "every program, every number of lists, every element type and every point where an element or the allocator throws", "why_tests_cant": "Every interleaving of calls on every number of objects, every kept iterator and every place of every exception.", "anchors": ["source/containers/forward_linked_list.cpp: forward_linked_list", "source/containers/linked_list_helper.cpp", "source/containers/pop_front.cpp: pop_front", "source/containers/clear.cpp: clear", "source/containers/assign.cpp: assign", "source/containers/assign_to_empty.cpp: assign_to_empty", "source/containers/algorithms/erase.cpp: erase_after"]}
{"id": "C153", "title": "Bounded integers outside of arithmetic: explicit conversion, hash, format, adding to a pointer", "statement": "An explicit conversion of a bounded integer to a built-in integer type gives the value modulo 2^n as the language's conversions do, so it keeps the value exactly when the target type has it. std::hash of a bounded integer is the std::hash of its value in the storage type, so equal values of types with the same storage have equal hashes. std::format prints what it prints for the same value of a built-in type, with the same options. Adding a bounded integer to a pointer, on either side, gives the pointer that many elements on and is undefined exactly when that leaves the array.", "quantifier": "every bounded type, value, target type, std::hash, std::formatter, options, array and position", "why_tests_cant": "Every type and every value, the limits of 128 bits included.", "anchors": ["source/bounded/integer.cpp: explicit operator T", "source/bounded/hash.cpp: std::hash", "source/bounded/format.cpp: std::formatter", "source/bounded/arithmetic/pointer.cpp: operator+"]}
{"id": "C154", "title": "Comparison operators of containers and maps", "statement": "==, !=, <, <=, >, >= and <=> of two containers of the library are decided by their first different elements and otherwise by their lengths. If <=> of the elements is a total order that == agrees with, exactly one of <, == and > holds for two containers, < is transitive, equal containers compare alike with all others, and the remaining operators follow. The elements of maps are compared by key and then by what is mapped. Two maps are equal exactly when every lookup gives the same in both.", "quantifier": "every container, number of elements, == and <=> of the elements", "why_tests_cant": "Every pair and triple of containers of every size, and every order of the elements.", "anchors": ["source/containers/compare_container.cpp: lexicographical_comparison::base, shortlex_comparison::base, range_equality::base", "source/containers/map_value_type.cpp: operator<=>", "source/containers/algorithms/compare.cpp", "source/containers/flat_map.cpp: flat_map_base", "source/containers/linear_map.cpp: basic_linear_map"]}
{"id": "C155", "title": "The type of an index, and the index that at uses", "statement": "The index type of a container whose size is a bounded integer holds exactly the numbers that can be an index of it, and does not exist for a container that is always empty. containers::at(range, index), with an index of any built-in or bounded integer type, compiles exactly when some value of that type can be an index (and the type of size - 1 exists); it throws std::out_of_range exactly when the index is negative or not less than the size, without any conversion of signs getting in the way, and otherwise the element with that index is accessed. at(range, index, unchecked) compiles, if the size is a bounded integer, exactly when every value of the type of the index can be an index, and accesses that element; if the size is a built-in integer it compiles and accesses the element whose index is the given one converted to the built-in type.", "quantifier": "every size type, size, index type and index", "why_tests_cant": "there are unboundedly many combinations of size and index types, and 2^128 values of each; tests use a few literals", "anchors": ["source/containers/index_type.cpp: to_index_type, index_type", "source/containers/at.cpp: at"]}
{"id": "C156", "title": "Sources that are longer than the container can ever be", "statement": "Appending a range with a size to a vector or sbo_vector adds all its elements, or throws and changes nothing, whatever the type of the size of the range is and however long the range is. Constructing a vector from a range with a size gives a vector with its elements or throws.", "quantifier": "every vector and sbo_vector, every source, every size type of the source, every exception", "why_tests_cant": "every length of the source and of the vector, including those above the largest size, and every type of a size", "anchors": ["source/containers/get_source_size.cpp: get_source_size", "source/containers/append.cpp: append", "source/containers/bounded_vector.cpp: bounded_vector(Source &&)"]}
{"id": "C157", "title": "How long an iterator of a transformed range can be used", "statement": "An iterator of transform(source, function), where source is an lvalue, whose function type is trivial to copy, move, assign and destroy and not larger than a pointer, and every iterator made from it, can be used as long as the elements of the source, whatever is done with the range object it came from, and applies the function that object had. With any other function it can be used until the range object is destroyed and applies the function that is there at that time, which is the moved from one after a move. The same holds for transform_non_idempotent.", "quantifier": "every function type, function, source, and sequence of copies, moves and destructions of range objects", "why_tests_cant": "every history of range objects; use after the end of an object's life usually seems to work in a test", "anchors": ["source/containers/reference_or_value.cpp: reference_or_value", "source/containers/stored_function.cpp: stored_function", "source/containers/adapt.cpp: get_iterator_traits, adapt::begin", "source/containers/algorithms/transform.cpp: transform, transform_non_idempotent"]}
{"id": "C158", "title": "Removing the elements that are equal to a value", "statement": "remove(value) of the std-style list and erase(vector, value) of the std-style inplace_vector remove exactly the elements that are equal to the value the argument has at the call and keep the others in order, also when the argument is an element of the container.", "quantifier": "every container, value, place of the value inside or outside of the container, and == of the elements", "why_tests_cant": "every position of the aliased element and every sequence around it; reading a destroyed element usually seems to work in a test", "anchors": ["source/bounded/comparison_function_object.cpp: equal_to, unary_equal_to", "source/containers/std/list.cpp: list::remove", "source/containers/std/inplace_vector.cpp: erase", "source/containers/algorithms/erase.cpp: erase_if"]}
{"id": "C159", "title": "merge, reverse, unique and sort of the std-style list", "statement": "sort() of the std-style list puts its elements in order and keeps them all, reverse() turns the sequence round, unique(predicate) leaves no element that is equal to the one before it and returns how many it removed, and merge(other) moves all elements of the other list to this one.", "quantifier": "every list, element type, order and equality", "why_tests_cant": "every list; a test of a list that is sorted already, or the same from both ends, passes", "anchors": ["source/containers/std/list.cpp: list::merge, list::reverse, list::unique, list::sort"]}
