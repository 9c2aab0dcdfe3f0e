{
 "claims": [
  {
   "property": "C01",
   "status": "proved",
   "theorems": [
    "C01_addition"
   ],
   "note": ""
  },
  {
   "property": "C02",
   "status": "proved",
   "theorems": [
    "C02_subtraction"
   ],
   "note": ""
  },
  {
   "property": "C03",
   "status": "proved",
   "theorems": [
    "C03_negation"
   ],
   "note": ""
  },
  {
   "property": "C04",
   "status": "partial",
   "theorems": [
    "C04_multiplication_partial",
    "C04_multiplication_refuted",
    "C04_multiplication_exactly"
   ],
   "note": "False of the code for products below -2^127 (constant<2^127-1> * constant<-2> is constant<2>); proved for all types whose products never go below -2^127."
  },
  {
   "property": "C05",
   "status": "proved",
   "theorems": [
    "C05_division"
   ],
   "note": ""
  },
  {
   "property": "C06",
   "status": "partial",
   "theorems": [
    "C06_remainder_partial",
    "C06_remainder_refuted",
    "C06_remainder_exactly"
   ],
   "note": "False of the code for INT_MIN % -1 (evaluated in the common storage type, overflows); proved for every other pair of values."
  },
  {
   "property": "C07",
   "status": "proved",
   "theorems": [
    "C07_comparison"
   ],
   "note": "Every pair of operand types with at least one bounded integer; two built-in operands use the language's own operators."
  },
  {
   "property": "C08",
   "status": "proved",
   "theorems": [
    "C08_implicit_conversion",
    "C08_unchecked_conversion"
   ],
   "note": ""
  },
  {
   "property": "C09",
   "status": "partial",
   "theorems": [
    "C09_check_partial",
    "C09_check_to",
    "C09_check_to_builtin_partial",
    "C09_check_refuted",
    "C09_check_to_builtin_refuted",
    "C09_bit_cast",
    "C09_check_exactly",
    "C09_check_to_builtin_exactly"
   ],
   "note": "check_in_range<bounded type> is proved in full. With built-in value and bounds of different signedness the three-argument form and check_in_range<built-in type> use the language's comparison and fail (refuted: check_in_range<unsigned>(-1) does not throw)."
  },
  {
   "property": "C10",
   "status": "proved",
   "theorems": [
    "C10_clamp",
    "C10_clamp_to"
   ],
   "note": ""
  },
  {
   "property": "C100",
   "status": "proved",
   "theorems": [
    "C100_drop_sized",
    "C100_drop_unsized",
    "C100_drop_back"
   ],
   "note": ""
  },
  {
   "property": "C101",
   "status": "partial",
   "theorems": [
    "C101_zip",
    "C101_zip_smallest",
    "C101_rows",
    "C138_three_rvalues_refuted"
   ],
   "note": "zip_smallest of ranges with a size but without random access does not compile (its begin and its end cannot be compared). C101_zip_smallest takes the smallest size as a value; false of the code for three or more ranges whose size types differ in some ways, where min gives a reference to a dead object (C138_three_rvalues_refuted)."
  },
  {
   "property": "C102",
   "status": "proved",
   "theorems": [
    "C102_concatenate_view"
   ],
   "note": ""
  },
  {
   "property": "C103",
   "status": "proved",
   "theorems": [
    "C103_join_with",
    "C103_join",
    "C103_linear_size"
   ],
   "note": ""
  },
  {
   "property": "C104",
   "status": "partial",
   "theorems": [
    "C104_split_partial",
    "C104_split_range_partial",
    "C104_split_order_refuted",
    "C104_cut_once"
   ],
   "note": "All but the order of the end and the iterators before it, which is false of the code."
  },
  {
   "property": "C105",
   "status": "partial",
   "theorems": [
    "C105_split_keep_partial",
    "C105_split_keep_range_partial",
    "C105_split_keep_equal_refuted"
   ],
   "note": "All but the comparison of iterators, which is false of the code."
  },
  {
   "property": "C106",
   "status": "proved",
   "theorems": [
    "C106_chunk_by"
   ],
   "note": ""
  },
  {
   "property": "C107",
   "status": "partial",
   "theorems": [
    "C107_adjacent_partial",
    "C107_difference_refuted",
    "C107_windows",
    "C107_difference_exactly"
   ],
   "note": "Differences of iterators when difference_type has room; false of the code for a full array."
  },
  {
   "property": "C108",
   "status": "proved",
   "theorems": [
    "C108_batched"
   ],
   "note": ""
  },
  {
   "property": "C109",
   "status": "partial",
   "theorems": [
    "C109_integer_range_partial",
    "C109_inclusive",
    "C109_unreachable",
    "C109_offset_refuted",
    "C109_integer_range_exactly"
   ],
   "note": "For types with at least one value; adding 0 is undefined in the code for the others."
  },
  {
   "property": "C11",
   "status": "partial",
   "theorems": [
    "C11_assign",
    "C11_history_partial",
    "C11_invariant_partial",
    "C11_postfix"
   ],
   "note": "Assignment and ++/-- proved in full; histories with compound multiplication and remainder exclude the cases in which C04 and C06 fail."
  },
  {
   "property": "C110",
   "status": "proved",
   "theorems": [
    "C110_lexicographical",
    "C110_same_size",
    "C110_shortlex",
    "C110_equal",
    "C110_mismatch",
    "C110_order"
   ],
   "note": ""
  },
  {
   "property": "C111",
   "status": "proved",
   "theorems": [
    "C111_starts_with",
    "C111_ends_with"
   ],
   "note": ""
  },
  {
   "property": "C112",
   "status": "partial",
   "theorems": [
    "C112_sum_partial",
    "C112_sum_of_range_partial",
    "C112_sum_refuted",
    "C112_sum_type",
    "C112_sum_as",
    "C112_product",
    "C112_product_of_range",
    "C112_product_rejected",
    "C112_product_as_partial"
   ],
   "note": "The type of the sum is wrong where that of a product is (C04): false of the code for -2 and a difference_type up to 2^127 - 1. Proved for all other types; the product of a type that holds zero or less does not compile."
  },
  {
   "property": "C113",
   "status": "proved",
   "theorems": [
    "C113_count",
    "C113_count_value",
    "C113_distance",
    "C113_is_empty",
    "C113_front_back",
    "C113_size",
    "C113_at"
   ],
   "note": ""
  },
  {
   "property": "C114",
   "status": "proved",
   "theorems": [
    "C114_generate",
    "C114_generate_n",
    "C114_generate_until",
    "C114_repeat_n",
    "C114_generate_n_idempotent",
    "C114_indexed"
   ],
   "note": ""
  },
  {
   "property": "C115",
   "status": "proved",
   "theorems": [
    "C115_set_intersection_pair",
    "C115_unsorted"
   ],
   "note": ""
  },
  {
   "property": "C116",
   "status": "partial",
   "theorems": [
    "C116_concatenate_partial",
    "C116_reuses_storage",
    "C116_others_survive",
    "C116_basic_guarantee_refuted"
   ],
   "note": "When storage is used that belongs to an argument with elements before it, a throwing copy leaves that argument with cells counted in its size that hold no object: refuted. Otherwise the guarantee is proved. Expiring containers of other types than the result are not modelled."
  },
  {
   "property": "C117",
   "status": "proved",
   "theorems": [
    "C117_reverse",
    "C117_reverse_bidirectional"
   ],
   "note": ""
  },
  {
   "property": "C118",
   "status": "proved",
   "theorems": [
    "C118_keyed_erase",
    "C118_keyed_erase_multimap",
    "C118_keyed_erase_linear_map",
    "C118_maybe_find_if",
    "C118_maybe_find"
   ],
   "note": ""
  },
  {
   "property": "C119",
   "status": "proved",
   "theorems": [
    "C119_flat_map",
    "C119_linear_map",
    "C119_multimap",
    "C119_flat_map_from"
   ],
   "note": ""
  },
  {
   "property": "C12",
   "status": "partial",
   "theorems": [
    "C12_min",
    "C12_max",
    "C12_first_wins",
    "C138_two_arguments",
    "C138_three_lvalues_refuted"
   ],
   "note": "C12_min and C12_max give the type and value that the calls compute. For two arguments the result also exists until the end of the expression (C138_two_arguments). False of the code for three or more bounded integers of some different types: the result refers to a temporary that ended inside the call (C138_three_lvalues_refuted)."
  },
  {
   "property": "C120",
   "status": "partial",
   "theorems": [
    "C120_insert",
    "C120_insert_copies_partial",
    "C120_insert_no_copies_refuted",
    "C120_resize",
    "C120_reserve",
    "C120_inplace_insert",
    "C120_inplace_insert_copies_partial",
    "C120_inplace_resize_partial",
    "C120_inplace_resize_refuted",
    "C120_try_push_back",
    "C120_unchecked_push_back",
    "C120_inplace_reserve",
    "C120_insert_no_copies_exactly",
    "C120_inplace_insert_no_copies_exactly",
    "C120_inplace_resize_exactly"
   ],
   "note": "False of the code: insert of zero copies before the end, and inplace_vector::resize above the capacity, are undefined. Everything else is proved."
  },
  {
   "property": "C121",
   "status": "partial",
   "theorems": [
    "C121_vector_refuted",
    "C121_inplace_vector_refuted",
    "C121_exchanged"
   ],
   "note": "False for every vector with elements: rbegin() and rend() are exchanged. True with the two exchanged back."
  },
  {
   "property": "C122",
   "status": "partial",
   "theorems": [
    "C122_history",
    "C122_construct",
    "C122_copy_construct",
    "C122_insert",
    "C122_push",
    "C122_erase",
    "C122_erase_one",
    "C122_remove_if",
    "C122_splice",
    "C122_splice_one",
    "C122_splice_all",
    "C122_splice_within_partial",
    "C122_swap",
    "C122_copy_assign_partial",
    "C122_erase_to_end"
   ],
   "note": "Partial where the code is wrong: splice within a list to the end of the range is undefined (C82), and a copy assignment that throws (C123)."
  },
  {
   "property": "C123",
   "status": "partial",
   "theorems": [
    "C123_move_construct_refuted",
    "C123_move_assign_refuted",
    "C123_resize_moved_from_refuted",
    "C123_copy_assign_refuted",
    "C123_not_implemented_refuted",
    "C123_reverse_refuted",
    "C123_rbegin_refuted"
   ],
   "note": "False of the code in every part; the refuted theorems say what happens instead, and that the list that was moved to is right."
  },
  {
   "property": "C124",
   "status": "proved",
   "theorems": [
    "C124_program",
    "C124_no_exceptions",
    "C124_whole"
   ],
   "note": ""
  },
  {
   "property": "C125",
   "status": "partial",
   "theorems": [
    "C125_word",
    "C125_no_word",
    "C125_noskipws",
    "C125_not_good",
    "C125_words",
    "C125_eof_refuted"
   ],
   "note": "False of the code: the end-of-file bit is not set when a word is read up to the end of the text. Everything else is proved."
  },
  {
   "property": "C126",
   "status": "partial",
   "theorems": [
    "C126_same_behavior",
    "C126_stays_inside",
    "C126_tombstone",
    "C126_default_alignment",
    "C126_wraps_class_partial",
    "C126_wraps_empty_class",
    "C126_wraps_function_pointer_partial",
    "C126_constraint_refuted",
    "C126_null_refuted",
    "C126_overload_refuted"
   ],
   "note": "False of the code: the constraint admits functions that do not compile (function pointers larger than the capacity, capacities that are not a multiple of the alignment, functions without a const operator() for a const signature, captures by default without state); a null function pointer without storage reads as the empty state. The behavior is proved for everything that compiles."
  },
  {
   "property": "C127",
   "status": "partial",
   "theorems": [
    "C127_write",
    "C127_compiles",
    "C127_read",
    "C127_out_of_range_partial",
    "C127_round_trip",
    "C127_sequence",
    "C127_no_number_refuted",
    "C127_end_refuted",
    "C127_minus_refuted"
   ],
   "note": "False of the code: at the end of the text or on a failed stream an uninitialized variable is read; a text without a number sets x to 0 or throws; a negative number read into a type stored unsigned in 32 bits or more wraps around silently. Reading and writing numbers of the type, and round trips, are proved."
  },
  {
   "property": "C128",
   "status": "partial",
   "theorems": [
    "C128_to_string",
    "C128_compiles",
    "C128_builtin",
    "C128_injective",
    "C128_round_trip",
    "C128_every_type_refuted"
   ],
   "note": "False of the code: types whose negation is not representable, such as 128-bit signed integers, do not compile. Proved for all types that compile."
  },
  {
   "property": "C129",
   "status": "proved",
   "theorems": [
    "C129_program",
    "C129_no_exceptions",
    "C129_whole",
    "C129_record_needed"
   ],
   "note": ""
  },
  {
   "property": "C13",
   "status": "proved",
   "theorems": [
    "C13_abs"
   ],
   "note": ""
  },
  {
   "property": "C130",
   "status": "proved",
   "theorems": [
    "C130_program",
    "C130_no_exceptions",
    "C130_whole"
   ],
   "note": "append, resize and assign do not check the room that is left (C36_append_refuted), so that the program must; moving a static_vector to itself by assignment is left out, see C36."
  },
  {
   "property": "C131",
   "status": "proved",
   "theorems": [
    "C131_program",
    "C131_no_exceptions",
    "C131_whole",
    "C131_places",
    "C131_pointers",
    "C131_program_stays",
    "C131_record_needed"
   ],
   "note": "append, resize and assign do not check the room that is left (C36_append_refuted), so that the program must."
  },
  {
   "property": "C132",
   "status": "partial",
   "theorems": [
    "C132_pointer",
    "C132_pointer_and_size",
    "C132_views",
    "C132_literals",
    "C132_null_terminated",
    "C132_characters",
    "C132_compare",
    "C132_hash",
    "C132_std_order_partial",
    "C132_std_order_refuted",
    "C132_ska_sort_refuted"
   ],
   "note": "False of the code: characters from 0x80 on are ordered as negative numbers by <=> but as large ones by std::string_view and by ska_sort, so that ska_sort of at least 1024 texts does not sort by <. The order is std::string_view's for ASCII texts, and all the rest is proved for all texts."
  },
  {
   "property": "C133",
   "status": "proved",
   "theorems": [
    "C133_program",
    "C133_no_exceptions",
    "C133_whole",
    "C133_iterators"
   ],
   "note": "What is left behind when a constructor or insert of several elements throws is the fault found in C85, and the place where a splice within one list may go is that of C82."
  },
  {
   "property": "C134",
   "status": "partial",
   "theorems": [
    "C134_shift",
    "C134_no_shift",
    "C134_shift_refuted",
    "C134_elements",
    "C134_no_span",
    "C134_wrong_order",
    "C134_write",
    "C134_as_bytes",
    "C134_write_byte"
   ],
   "note": "False of the code: shifts of a byte by 32 or more are undefined although the type of the amount allows them. Everything else is proved."
  },
  {
   "property": "C135",
   "status": "proved",
   "theorems": [
    "C135_program",
    "C135_no_exceptions",
    "C135_whole",
    "C135_record_needed"
   ],
   "note": "For every program that keeps a record of what it moved from; without the record it is false of the code (copying a moved-from array is undefined)."
  },
  {
   "property": "C136",
   "status": "partial",
   "theorems": [
    "C136_program",
    "C136_no_exceptions",
    "C136_whole",
    "C136_swap_keeps_values_refuted"
   ],
   "note": "Proved for every program that does not emplace without a possible exception from an element of the variant itself (C47) and does not move assign where that is noexcept although a copy can throw (C49). False of the code: a swap left by an exception can lose a value, because move assignment copies."
  },
  {
   "property": "C137",
   "status": "partial",
   "theorems": [
    "C137_to_array_values",
    "C137_to_array_copies",
    "C137_to_array_container",
    "C137_to_array_rvalues",
    "C137_strong_guarantee_refuted",
    "C137_make_array_n",
    "C137_three_way",
    "C137_equal",
    "C137_subscript",
    "C137_subscript_outside",
    "C137_number_of_elements",
    "C137_span",
    "C137_span_refuted"
   ],
   "note": "False of the code: the conversion of a non-const array without elements to a span of non-const elements does not compile. When elements are moved, an exception leaves the first ones moved from (C137_strong_guarantee_refuted)."
  },
  {
   "property": "C138",
   "status": "partial",
   "theorems": [
    "C138_category",
    "C138_category_same",
    "C138_any",
    "C138_any_lvalues",
    "C138_values",
    "C138_same_type",
    "C138_two_lvalues",
    "C138_two_arguments",
    "C138_two_rvalues_refuted",
    "C138_const_lvalue_refuted",
    "C138_one_rvalue_refuted",
    "C138_three_lvalues_refuted",
    "C138_three_rvalues_refuted"
   ],
   "note": "Proved in full for at least two arguments of other types; for bounded integers for two lvalues and for any number of arguments of one type and value category. False of the code: two rvalue bounded integers of one type, or one argument, give a reference to an rvalue; three bounded integers of some different types give a reference to a temporary that ended inside the call."
  },
  {
   "property": "C139",
   "status": "partial",
   "theorems": [
    "C139_range",
    "C139_range_exists",
    "C139_iterator",
    "C139_default",
    "C139_default_undefined",
    "C139_convert",
    "C139_default_constructor_refuted",
    "C139_convert_refuted"
   ],
   "note": "False of the code: a legacy_iterator of an iterator type that has a default constructor (such as a pointer) has none, and converting a legacy_iterator without a value to one whose iterator has a default constructor is undefined."
  },
  {
   "property": "C14",
   "status": "proved",
   "theorems": [
    "C14_storage",
    "C14_accepted"
   ],
   "note": ""
  },
  {
   "property": "C140",
   "status": "partial",
   "theorems": [
    "C140_append",
    "C140_one_by_one",
    "C140_survives_partial",
    "C140_survives_refuted",
    "C140_allocates_once",
    "C140_itself_partial",
    "C140_itself_refuted"
   ],
   "note": "False of the code: when a node or block cannot be allocated while the elements of an expiring vector are relocated into a deque or list, the vector still counts the elements that are gone; only a std::vector whose elements are appended one by one can be appended to itself."
  },
  {
   "property": "C141",
   "status": "proved",
   "theorems": [
    "C141_flat_map",
    "C141_flat_multimap",
    "C141_static_flat_map",
    "C141_static_flat_multimap",
    "C141_insert"
   ],
   "note": "The map of FlatMap.v, now in the memory of Mem.v on top of the vectors of Vec.v: every step of the binary search reads memory, and comparisons may throw. explained (SpecFlatMemory.v) says what was seen."
  },
  {
   "property": "C142",
   "status": "partial",
   "theorems": [
    "C142_reserve_first_partial",
    "C142_twice_partial",
    "C142_static",
    "C142_exactly",
    "C142_refuted",
    "C142_construct_refuted",
    "C142_insert_range_refuted"
   ],
   "note": "False of the code: the maximum size of the vector is the number of keys, but a full vector asks for twice its capacity, so the map can be filled one by one exactly when the number of keys is a power of two (C142_exactly; three keys: C142_refuted). True when room was reserved, when the maximum is twice as large and for static_flat_map. Constructing a map from a range with more entries than there are keys is undefined behaviour even when few of the keys differ (C142_construct_refuted), and inserting such a range throws."
  },
  {
   "property": "C143",
   "status": "proved",
   "theorems": [
    "C143_linear_map",
    "C143_half",
    "C143_static_linear_map",
    "C143_insert",
    "C143_erase"
   ],
   "note": "LinearMemory.v: the linear map in the memory of Mem.v on top of the vectors of Vec.v. C143_linear_map says when the behaviour is undefined: only when a new key is inserted and the number of keys is more than half of the maximum (C40)."
  },
  {
   "property": "C144",
   "status": "partial",
   "theorems": [
    "C144_insert_range_partial",
    "C144_from_range",
    "C144_insert_range_refuted",
    "C144_insert_unsized_partial",
    "C144_from_unsized_partial",
    "C144_from_unsized_refuted"
   ],
   "note": "False of the code: the range is appended first, and when a comparison throws while duplicates are removed, they stay in the map, so that a key that is erased is still found (C144_insert_range_refuted). Proved: what happens when nothing throws, that the old elements always stay, and the constructor. For ranges without a size: C144_insert_unsized_partial, within the limits of appending them, and C144_from_unsized_partial for their constructor (C38: it loses elements when it throws)."
  },
  {
   "property": "C145",
   "status": "partial",
   "theorems": [
    "C145_unique",
    "C145_unique_inplace_merge_partial",
    "C145_lost_refuted"
   ],
   "note": "False of the code: when a comparison throws while elements are in the temporary array, they are lost (C145_lost_refuted). Proved for vectors: living elements, their number, memory given back, and the result when nothing throws. An element type that is changed by moving an element to itself is missing for unique_inplace_merge (C73)."
  },
  {
   "property": "C146",
   "status": "partial",
   "theorems": [
    "C146_insert_partial",
    "C146_from_range",
    "C146_insert_refuted",
    "C146_insert_unsized_partial",
    "C146_from_unsized_partial"
   ],
   "note": "False of the code: the range is appended before it is merged, and when there is no memory for the temporary elements the map is left unsorted, so that an element that was there is not found (C146_insert_refuted). Proved: the result when it returns, no undefined behaviour and living elements only when it throws, and the constructor. The sort function is a parameter that sorts or leaves elements, or what is left of them, in any order. For ranges without a size: C146_insert_unsized_partial, within the limits of appending them, and C146_from_unsized_partial for their constructor (C38: it loses elements when it throws). Missing: elements that change when moved to themselves."
  },
  {
   "property": "C147",
   "status": "partial",
   "theorems": [
    "C147_program",
    "C147_no_exceptions",
    "C147_whole",
    "C147_swap_keeps_values_refuted",
    "C147_any_construction_refuted",
    "C147_variant_program",
    "C147_variant_no_exceptions",
    "C147_variant_whole",
    "C147_variant_swap_keeps_values_refuted"
   ],
   "note": "With spare representations: proved for every program that does not put a value into an empty optional whose construction there can throw; without that condition it is false of the code, the optional is left without any representation (C147_any_construction_refuted, as C54). In a variant: proved for every program that does not emplace without a possible exception from the value of the optional itself (C47) and does not move assign where that is noexcept although a copy can throw (C49). False of the code in both: a swap that is left by an exception can lose a value."
  },
  {
   "property": "C148",
   "status": "partial",
   "theorems": [
    "C148_definitely_wrong",
    "C148_maybe_wrong",
    "C148_larger_type",
    "C148_cases",
    "C148_check_in_range_type_refuted"
   ],
   "note": "The documented type of check_in_range<Target>(value) is false of the code: it returns Target itself. Everything else is proved."
  },
  {
   "property": "C149",
   "status": "partial",
   "theorems": [
    "C149_program",
    "C149_whole",
    "C149_no_exceptions",
    "C149_assignment_refuted"
   ],
   "note": "False of the code: a copying assignment that throws may leave a map with some elements of the source and some of its own, out of order, so that it finds a key or not depending on which others were inserted (C149_assignment_refuted). Proved for every program that uses such a map only as one it has moved from."
  },
  {
   "property": "C15",
   "status": "proved",
   "theorems": [
    "C15_to_integer",
    "C15_accepted",
    "C15_to_integer_type"
   ],
   "note": ""
  },
  {
   "property": "C150",
   "status": "partial",
   "theorems": [
    "C150_program",
    "C150_whole",
    "C150_no_exceptions",
    "C150_assignment_refuted"
   ],
   "note": "Everything but one part, which is false: a copy assignment that throws may leave a linear map with two elements for a key (C150_assignment_refuted). The program records such maps and does not use them."
  },
  {
   "property": "C151",
   "status": "proved",
   "theorems": [
    "C151_flat_program",
    "C151_linear_program",
    "C151_flat_whole",
    "C151_linear_whole",
    "C151_flat_no_exceptions",
    "C151_linear_no_exceptions",
    "C151_moved_from_refuted"
   ],
   "note": "For every program that keeps the record; without it the property is false: a map from which something was assigned by moving still has as many elements, moved from, maybe with the same key (C151_moved_from_refuted). Moving a map to itself and swapping it with itself are left out, as in C130."
  },
  {
   "property": "C152",
   "status": "proved",
   "theorems": [
    "C152_program",
    "C152_no_exceptions",
    "C152_whole",
    "C152_iterators"
   ],
   "note": "What is left behind when a constructor of several elements throws is the fault found in C85."
  },
  {
   "property": "C153",
   "status": "proved",
   "theorems": [
    "C153_conversion",
    "C153_conversion_keeps",
    "C153_hash",
    "C153_equal_hashes",
    "C153_format",
    "C153_pointer"
   ],
   "note": "std::hash and std::formatter of built-in types are given functions."
  },
  {
   "property": "C154",
   "status": "partial",
   "theorems": [
    "C154_operators",
    "C154_shortlex",
    "C154_order",
    "C154_map_elements",
    "C154_flat_maps",
    "C154_linear_maps_partial",
    "C154_linear_maps_refuted"
   ],
   "note": "Linear maps are compared in the order of their elements, so two with the same keys and values can be unequal (refuted); equal ones do have the same lookups."
  },
  {
   "property": "C155",
   "status": "proved",
   "theorems": [
    "C155_index_type",
    "C155_at",
    "C155_at_unchecked",
    "C155_at_unchecked_builtin"
   ],
   "note": "The element access is C113's at_ in Sequence.v; this is the arithmetic of the types."
  },
  {
   "property": "C156",
   "status": "partial",
   "theorems": [
    "C156_get_source_size",
    "C156_append_too_long",
    "C156_append_builtin",
    "C156_append_builtin_sbo",
    "C156_construct",
    "C156_append_refuted"
   ],
   "note": "False of the code: appending a source whose size is a built-in integer (a std::vector) is undefined exactly when it alone is longer than the largest size; constructing is undefined exactly when the source is longer than that, whatever the type of its size. Proved otherwise; a source with a bounded size that does not fit throws."
  },
  {
   "property": "C157",
   "status": "partial",
   "theorems": [
    "C157_copied",
    "C157_referenced",
    "C157_non_idempotent",
    "C157_non_idempotent_refuted"
   ],
   "note": "Proved for transform. False for transform_non_idempotent (and generate_n_idempotent): the test is made on the const function type, to which nothing can be assigned, so no function is copied into the iterators. C157_non_idempotent says what holds instead."
  },
  {
   "property": "C158",
   "status": "partial",
   "theorems": [
    "C158_list_other",
    "C158_list_own_exactly",
    "C158_list_own_refuted",
    "C158_vector_other",
    "C158_vector_own_exactly",
    "C158_vector_own",
    "C158_vector_own_refuted",
    "C158_list_own_unequal"
   ],
   "note": "Proved when the value is not an element of the container. False of the code when it is: the list is undefined exactly when an element follows the one that is referred to, and the vector compares with the element that takes its place; the theorems say exactly what happens. The vector part leaves out exceptions and the returned count (C37)."
  },
  {
   "property": "C159",
   "status": "partial",
   "theorems": [
    "C159_elements_determined",
    "C159_sort_exactly",
    "C159_reverse_exactly",
    "C159_merge_exactly",
    "C159_unique_exactly",
    "C159_sort_refuted",
    "C159_reverse_refuted",
    "C159_merge_refuted",
    "C159_unique_refuted"
   ],
   "note": "False of the code: the four functions compile and do nothing. The theorems say exactly for which lists this is right."
  },
  {
   "property": "C16",
   "status": "proved",
   "theorems": [
    "C16_to_string_unsigned",
    "C16_to_string_signed",
    "C16_canonical_unique",
    "C16_round_trip"
   ],
   "note": ""
  },
  {
   "property": "C17",
   "status": "proved",
   "theorems": [
    "C17_pow",
    "C17_accepted"
   ],
   "note": ""
  },
  {
   "property": "C18",
   "status": "proved",
   "theorems": [
    "C18_log",
    "C18_accepted"
   ],
   "note": ""
  },
  {
   "property": "C19",
   "status": "proved",
   "theorems": [
    "C19_digits",
    "C19_decimal_text",
    "C19_bits"
   ],
   "note": "For signed ranges the reported bits suffice but are not always minimal, e.g. [-64, 20] reports 8."
  },
  {
   "property": "C20",
   "status": "proved",
   "theorems": [
    "C20_digits",
    "C20_bounds",
    "C20_number_of"
   ],
   "note": "digits for bases 2 and 10, the only ones numeric_limits uses."
  },
  {
   "property": "C21",
   "status": "partial",
   "theorems": [
    "C21_make",
    "C21_distinct",
    "C21_index",
    "C21_complete",
    "C21_wide_refuted"
   ],
   "note": "All but existence of every tombstone proved for every type; existence proved for storage of up to 64 bits and false for some 128-bit types (integer<0, 2^128-2> does not compile)."
  },
  {
   "property": "C22",
   "status": "partial",
   "theorems": [
    "C22_left_shift_partial",
    "C22_right_shift_partial",
    "C22_and_partial",
    "C22_left_shift_refuted",
    "C22_right_shift_refuted",
    "C22_and_refuted",
    "C22_left_shift_exactly",
    "C22_right_shift_exactly",
    "C22_and_exactly"
   ],
   "note": "False in general (negative operands, shift counts not below the width of the common storage type, overflowing bounds); proved under the stated conditions on the operand types."
  },
  {
   "property": "C23",
   "status": "partial",
   "theorems": [
    "C23_literal_partial",
    "C23_rejected",
    "C23_modulo",
    "C23_literal_refuted"
   ],
   "note": "Exact for values below 2^128; longer literals are silently reduced modulo 2^128."
  },
  {
   "property": "C24",
   "status": "partial",
   "theorems": [
    "C24_expressions_partial",
    "C24_expressions_refuted",
    "C24_every_remainder_partial"
   ],
   "note": "Excludes multiplications whose operand types allow products below -2^127 and remainders by -1 (C04, C06)."
  },
  {
   "property": "C25",
   "status": "proved",
   "theorems": [
    "C25_common_type",
    "C25_order",
    "C25_grouping"
   ],
   "note": ""
  },
  {
   "property": "C26",
   "status": "proved",
   "theorems": [
    "C26_guard_history",
    "C26_guard_complete",
    "C26_scope_fail"
   ],
   "note": ""
  },
  {
   "property": "C27",
   "status": "partial",
   "theorems": [
    "C27_round_up_partial",
    "C27_round_up_refuted",
    "C27_round_up_exactly"
   ],
   "note": "False for x <= -y (round_up_divide(-4, 2) is -1) and negative divisors; proved for y > 0 and x + y > 0."
  },
  {
   "property": "C28",
   "status": "partial",
   "theorems": [
    "C28_plus",
    "C28_multiply_partial",
    "C28_divide",
    "C28_modulus_partial",
    "C28_minus_partial",
    "C28_minus_refuted",
    "C28_minus_exactly",
    "C28_modulus_exactly",
    "C28_multiply_exactly"
   ],
   "note": "+ and / in full; *, % as in C04, C06; binary minus (external operators library, modelled as a + -b) needs -y to be a value of the promoted built-in type."
  },
  {
   "property": "C29",
   "status": "partial",
   "theorems": [
    "C29_increase_min",
    "C29_decrease_max",
    "C29_increase_min_unchecked",
    "C29_decrease_max_unchecked",
    "C29_assume_partial",
    "C29_assume_to",
    "C29_assume_to_builtin",
    "C29_assume_exactly"
   ],
   "note": "Everything in full except assume_in_range(value, min, max) with built-in arguments of different signedness (as C09)."
  },
  {
   "property": "C30",
   "status": "proved",
   "theorems": [
    "C30_push_back"
   ],
   "note": "For a capped vector whose doubled capacity exceeds the maximum see C40."
  },
  {
   "property": "C31",
   "status": "proved",
   "theorems": [
    "C31_pop_back",
    "C31_clear",
    "C31_erase",
    "C31_erase_to_end",
    "C31_erase_one",
    "C31_erase_end"
   ],
   "note": ""
  },
  {
   "property": "C32",
   "status": "partial",
   "theorems": [
    "C32_insert",
    "C32_empty_range_refuted",
    "C32_own_element_refuted",
    "C32_insert_one",
    "C32_empty_range_exactly",
    "C32_empty_range_static_exactly",
    "C32_own_element_exactly",
    "C32_own_element_static_exactly",
    "C32_own_elements_reallocating"
   ],
   "note": "Proved for ranges not made from the vector itself and, when empty, at the end; false for an empty range elsewhere and for an element of the vector itself when there is room."
  },
  {
   "property": "C33",
   "status": "proved",
   "theorems": [
    "C33_append",
    "C33_append_unsized",
    "C33_append_into_capacity"
   ],
   "note": ""
  },
  {
   "property": "C34",
   "status": "proved",
   "theorems": [
    "C34_resize",
    "C34_reserve",
    "C34_shrink_to_fit"
   ],
   "note": ""
  },
  {
   "property": "C35",
   "status": "proved",
   "theorems": [
    "C35_copy",
    "C35_move",
    "C35_move_assign",
    "C35_swap",
    "C35_copy_assign"
   ],
   "note": "Copy assignment for elements that are not trivially copyable; for the trivial ones see C39."
  },
  {
   "property": "C36",
   "status": "partial",
   "theorems": [
    "C36_push_back",
    "C36_pop_back",
    "C36_clear",
    "C36_erase",
    "C36_insert",
    "C36_append_partial",
    "C36_append_refuted",
    "C36_resize_partial",
    "C36_copy",
    "C36_move",
    "C36_copy_assign",
    "C36_move_assign",
    "C36_swap",
    "C36_construct",
    "C36_destroy",
    "C36_erase_one",
    "C36_insert_one",
    "C36_append_unsized_partial",
    "C36_construct_unsized",
    "C36_append_exactly",
    "C36_append_unsized_exactly",
    "C36_resize_exactly"
   ],
   "note": "append, resize and assign compare the number of new elements, not the resulting size, with the capacity and write past the end (refuted); proved when the result fits."
  },
  {
   "property": "C37",
   "status": "partial",
   "theorems": [
    "C37_erase_if",
    "C37_erase_if_static",
    "C37_count_refuted"
   ],
   "note": "The elements are right; the returned number is that of the kept elements after the first removed one."
  },
  {
   "property": "C38",
   "status": "partial",
   "theorems": [
    "C38_destroy",
    "C38_default",
    "C38_from_range",
    "C38_from_unsized_partial",
    "C38_from_unsized_refuted",
    "C38_from_unsized_exactly"
   ],
   "note": "A range of unknown size: the elements already constructed are not destroyed when an exception leaves the constructor."
  },
  {
   "property": "C39",
   "status": "partial",
   "theorems": [
    "C39_assign",
    "C39_assign_static_partial",
    "C39_trivial_refuted",
    "C39_assign_static_exactly",
    "C39_assign_trivial_exactly"
   ],
   "note": "For trivially copyable elements a failed allocation leaves the vector pointing to released storage."
  },
  {
   "property": "C40",
   "status": "partial",
   "theorems": [
    "C40_push_back_refuted",
    "C40_append_refuted",
    "C40_insert_refuted",
    "C40_reserve_first_partial",
    "C40_exactly",
    "C40_push_back_exactly"
   ],
   "note": "False: doubling past the maximum is undefined behaviour in push_back and an exception in append and insert. True when reserve is called first."
  },
  {
   "property": "C41",
   "status": "proved",
   "theorems": [
    "C41_history",
    "C41_no_exceptions",
    "C41_lifetime"
   ],
   "note": "Preconditions checked by the caller: see may_call in SpecHistory.v."
  },
  {
   "property": "C42",
   "status": "proved",
   "theorems": [
    "C42_allocations"
   ],
   "note": ""
  },
  {
   "property": "C43",
   "status": "partial",
   "theorems": [
    "C43_from_expiring_refuted",
    "C43_trivial_partial",
    "C43_empty_partial",
    "C43_exactly_what_happens"
   ],
   "note": "False: the size of the source is read after it was set to zero."
  },
  {
   "property": "C44",
   "status": "partial",
   "theorems": [
    "C44_destroy",
    "C44_copy_assign",
    "C44_self_move",
    "C44_use_refuted"
   ],
   "note": "Destruction and copy assignment proved; using it otherwise is undefined behaviour."
  },
  {
   "property": "C45",
   "status": "proved",
   "theorems": [
    "C45_push_back",
    "C45_append",
    "C45_insert",
    "C45_pop_back",
    "C45_erase",
    "C45_erase_if",
    "C45_clear",
    "C45_reserve"
   ],
   "note": ""
  },
  {
   "property": "C46",
   "status": "proved",
   "theorems": [
    "C46_visit",
    "C46_get_index"
   ],
   "note": ""
  },
  {
   "property": "C47",
   "status": "partial",
   "theorems": [
    "C47_construct",
    "C47_emplace",
    "C47_emplace_from_itself_refuted"
   ],
   "note": "Proved; but a construct function that cannot throw must not read the variant itself (refuted)."
  },
  {
   "property": "C48",
   "status": "proved",
   "theorems": [
    "C48_copy_construct",
    "C48_move_construct"
   ],
   "note": ""
  },
  {
   "property": "C49",
   "status": "partial",
   "theorems": [
    "C49_copy_assign",
    "C49_self_assign",
    "C49_move_assign_copies",
    "C49_move_assign_moves_refuted",
    "C49_move_assign_survives_refuted"
   ],
   "note": "Copy assignment proved. Move assignment copies, and terminates the program when that copy throws."
  },
  {
   "property": "C50",
   "status": "proved",
   "theorems": [
    "C50_assign_value"
   ],
   "note": ""
  },
  {
   "property": "C51",
   "status": "proved",
   "theorems": [
    "C51_history",
    "C51_destroy"
   ],
   "note": ""
  },
  {
   "property": "C52",
   "status": "proved",
   "theorems": [
    "C52_subscript",
    "C52_equals",
    "C52_equals_value"
   ],
   "note": ""
  },
  {
   "property": "C53",
   "status": "partial",
   "theorems": [
    "C53_none",
    "C53_some",
    "C53_bool",
    "C53_deref",
    "C53_assign_none",
    "C53_emplace",
    "C53_assign",
    "C53_destroy",
    "C53_copy",
    "C53_move",
    "C53_copy_assign",
    "C53_move_assign_copies",
    "C53_equal",
    "C53_equal_value"
   ],
   "note": "Everything but move assignment, which copies as in C49."
  },
  {
   "property": "C54",
   "status": "partial",
   "theorems": [
    "C54_none",
    "C54_some",
    "C54_bool",
    "C54_deref",
    "C54_assign_none",
    "C54_emplace",
    "C54_assign",
    "C54_destroy",
    "C54_copy",
    "C54_move",
    "C54_copy_assign",
    "C54_move_assign",
    "C54_equal",
    "C54_emplace_strong_refuted",
    "C54_emplace_then_destroy_refuted",
    "C54_copy_assign_then_destroy_refuted",
    "C54_equal_value"
   ],
   "note": "All effects proved; an exception in a constructor loses the old value or leaves the optional unusable (refuted)."
  },
  {
   "property": "C55",
   "status": "proved",
   "theorems": [
    "C55_integer",
    "C55_member",
    "C55_plain",
    "C55_storage"
   ],
   "note": ""
  },
  {
   "property": "C56",
   "status": "proved",
   "theorems": [
    "C56_equal",
    "C56_differ",
    "C56_opposite",
    "C56_transitive",
    "C56_equality"
   ],
   "note": ""
  },
  {
   "property": "C57",
   "status": "proved",
   "theorems": [
    "C57_tuple_cat",
    "C57_transform"
   ],
   "note": ""
  },
  {
   "property": "C58",
   "status": "partial",
   "theorems": [
    "C58_sort_exactly_n_partial",
    "C58_small_partial",
    "C58_small_large",
    "C58_four_cheap_refuted"
   ],
   "note": "Proved, except stability for four elements of a cheaply sortable type, which does not hold (refuted)."
  },
  {
   "property": "C59",
   "status": "partial",
   "theorems": [
    "C59_chunked_partial",
    "C59_chunked_fails",
    "C59_chunked_refuted",
    "C59_throwing_refuted"
   ],
   "note": "It sorts exactly the ranges of fewer than four elements and those with a smallest element in the first chunk; all others end in a lost element (both directions proved). A comparison that throws while merging loses elements (refuted)."
  },
  {
   "property": "C60",
   "status": "partial",
   "theorems": [
    "C60_fixed_merge_partial",
    "C60_throwing_refuted"
   ],
   "note": "Proved when no comparison throws; a comparison that throws while merging loses elements (refuted). Stability only where C58 gives it."
  },
  {
   "property": "C61",
   "status": "proved",
   "theorems": [
    "C61_is_sorted"
   ],
   "note": ""
  },
  {
   "property": "C62",
   "status": "proved",
   "theorems": [
    "C62_find_if",
    "C62_find_if_not",
    "C62_find_last_if",
    "C62_find_last_if_not",
    "C62_find",
    "C62_find_last",
    "C62_all",
    "C62_any",
    "C62_none"
   ],
   "note": ""
  },
  {
   "property": "C63",
   "status": "proved",
   "theorems": [
    "C63_partition",
    "C63_partition_forward",
    "C63_is_partitioned"
   ],
   "note": ""
  },
  {
   "property": "C64",
   "status": "proved",
   "theorems": [
    "C64_partition_point",
    "C64_calls",
    "C64_lower_bound",
    "C64_upper_bound",
    "C64_equal_range",
    "C64_binary_search"
   ],
   "note": ""
  },
  {
   "property": "C65",
   "status": "proved",
   "theorems": [
    "C65_min_element",
    "C65_max_element"
   ],
   "note": ""
  },
  {
   "property": "C66",
   "status": "proved",
   "theorems": [
    "C66_iterator_partition"
   ],
   "note": ""
  },
  {
   "property": "C67",
   "status": "proved",
   "theorems": [
    "C67_sort",
    "C67_introsort"
   ],
   "note": "std::make_heap followed by std::sort_heap is a parameter of which the contract of the C++ standard is assumed; C67_heap_sort_exists shows a function that meets it."
  },
  {
   "property": "C68",
   "status": "partial",
   "theorems": [
    "C68_integer",
    "C68_bounded",
    "C68_enumeration",
    "C68_enumeration_refuted",
    "C68_byte",
    "C68_float",
    "C68_character_partial",
    "C68_character_refuted",
    "C68_float_zero_refuted",
    "C68_character_exactly"
   ],
   "note": "False for negative values of the character types; -0.0 and 0.0 are equal but have different keys; the key of an enumeration without numeric_traits limits does not compile. Pointers are not modelled."
  },
  {
   "property": "C69",
   "status": "proved",
   "theorems": [
    "C69_double_buffered_ska_sort",
    "C69_integers"
   ],
   "note": "Ranges as keys are not modelled."
  },
  {
   "property": "C70",
   "status": "partial",
   "theorems": [
    "C70_ska_sort_partial",
    "C70_inplace_radix_sort_partial",
    "C70_unsigned_partial",
    "C70_unsigned_char",
    "C70_american_flag_refuted",
    "C70_range_of_pairs_refuted"
   ],
   "note": "False of the code: american_flag_sort, used for 129 to 1023 elements, does not sort by the remaining bytes. Proved for at most 128 elements, for integers of one byte, for integers whose groups avoid these sizes, and for thresholds that exclude american_flag_sort. Keys may be nested ranges; ranges of tuples are the second refutation."
  },
  {
   "property": "C71",
   "status": "proved",
   "theorems": [
    "C71_unique",
    "C71_unique_copy"
   ],
   "note": ""
  },
  {
   "property": "C72",
   "status": "proved",
   "theorems": [
    "C72_unique_less",
    "C72_unique_copy_less",
    "C72_unique_merge_copy"
   ],
   "note": ""
  },
  {
   "property": "C73",
   "status": "partial",
   "theorems": [
    "C73_unique_inplace_merge_partial",
    "C73_self_move_refuted"
   ],
   "note": "Proved when a self-move does not change an element (or none happens); false otherwise."
  },
  {
   "property": "C74",
   "status": "proved",
   "theorems": [
    "C74_find",
    "C74_lookup",
    "C74_find_sound"
   ],
   "note": ""
  },
  {
   "property": "C75",
   "status": "proved",
   "theorems": [
    "C75_lazy_insert",
    "C75_erase",
    "C75_erase_if",
    "C75_multi_lazy_insert"
   ],
   "note": ""
  },
  {
   "property": "C76",
   "status": "partial",
   "theorems": [
    "C76_from_range_partial",
    "C76_insert_partial",
    "C76_from_unique_partial",
    "C76_multi_insert_partial",
    "C76_insert_ska_partial",
    "C76_self_move_refuted",
    "C76_multi_from_range_partial"
   ],
   "note": "Proved when the sort sorts the range (C70: at most 128 elements) and a self-move does not change an element."
  },
  {
   "property": "C77",
   "status": "partial",
   "theorems": [
    "C77_upsert_partial",
    "C77_known_first_partial",
    "C77_upsert_any_partial",
    "C77_upsert_refuted"
   ],
   "note": "False of the code: an update is lost when the search for its key runs over new elements that were appended before; proved when that does not happen, and in general that nothing else goes wrong."
  },
  {
   "property": "C78",
   "status": "proved",
   "theorems": [
    "C78_find",
    "C78_lazy_insert",
    "C78_erase"
   ],
   "note": ""
  },
  {
   "property": "C79",
   "status": "proved",
   "theorems": [
    "C79_from_range",
    "C79_insert",
    "C79_first_refuted"
   ],
   "note": "Of several elements of the range with the same key it is not always the first that is kept (C79_first_refuted); the property does not say which."
  },
  {
   "property": "C80",
   "status": "proved",
   "theorems": [
    "C80_push_back",
    "C80_push_front",
    "C80_pop_back",
    "C80_pop_front",
    "C80_iteration"
   ],
   "note": ""
  },
  {
   "property": "C81",
   "status": "proved",
   "theorems": [
    "C81_insert",
    "C81_erase",
    "C81_erase_one",
    "C81_erase_to_end",
    "C81_erase_if",
    "C81_clear",
    "C81_destructor"
   ],
   "note": "When insert throws the list is unchanged, but nodes of its temporary list may be lost (C85)."
  },
  {
   "property": "C82",
   "status": "partial",
   "theorems": [
    "C82_splice_between_lists",
    "C82_splice_within_partial",
    "C82_splice_position_at_end_of_range_refuted"
   ],
   "note": "Within one list false of the code where the position is the end of the part (std::list does nothing there): an assertion fails. Proved for every other position outside the part."
  },
  {
   "property": "C83",
   "status": "proved",
   "theorems": [
    "C83_swap",
    "C83_self_move_assign",
    "C83_move_assign",
    "C83_move_construct"
   ],
   "note": ""
  },
  {
   "property": "C84",
   "status": "proved",
   "theorems": [
    "C84_construct_from_range",
    "C84_copy_construct",
    "C84_copy_assign",
    "C84_self_copy_assign"
   ],
   "note": ""
  },
  {
   "property": "C85",
   "status": "partial",
   "theorems": [
    "C85_first_element_partial",
    "C85_constructor_frees_its_nodes_refuted",
    "C85_exactly_what_is_lost",
    "C85_exactly_what_a_copy_loses",
    "C85_exactly_what_insert_loses",
    "C85_exactly_what_a_forward_list_loses",
    "C85_exactly_what_a_forward_copy_loses"
   ],
   "note": "False of the code: the destructor does not run and the nodes that were already made are lost. Proved for the first element."
  },
  {
   "property": "C86",
   "status": "partial",
   "theorems": [
    "C86_insert_returns_inserted_refuted",
    "C81_insert"
   ],
   "note": "False of the code for bidirectional lists, always: the iterator is to the element after the inserted ones (proved)."
  },
  {
   "property": "C87",
   "status": "proved",
   "theorems": [
    "C87_iteration",
    "C87_insert_after",
    "C87_push_front",
    "C87_erase_after",
    "C87_erase_all_after",
    "C87_splice_after",
    "C87_clear",
    "C87_destructor",
    "C87_swap",
    "C87_move_assign",
    "C87_self_move_assign",
    "C87_move_construct",
    "C87_construct_from_range",
    "C87_copy_construct",
    "C87_copy_assign",
    "C87_self_copy_assign",
    "C87_erase_range_after",
    "C87_erase_range_after_exactly"
   ],
   "note": ""
  },
  {
   "property": "C88",
   "status": "proved",
   "theorems": [
    "C88_push_back",
    "C88_pop_back",
    "C88_clear",
    "C88_erase",
    "C88_erase_to_end",
    "C88_erase_if",
    "C88_insert",
    "C88_append",
    "C88_append_unsized",
    "C88_resize",
    "C88_reserve",
    "C88_shrink_to_fit"
   ],
   "note": "As for vector: the inserted elements are not those of the object itself and an empty range is inserted at the end only (C32), and growth stops at half of the largest size (C40)."
  },
  {
   "property": "C89",
   "status": "proved",
   "theorems": [
    "C89_set_size"
   ],
   "note": ""
  },
  {
   "property": "C90",
   "status": "proved",
   "theorems": [
    "C90_push_back",
    "C90_append",
    "C90_insert",
    "C90_resize",
    "C90_reserve",
    "C90_removal",
    "C90_small_capacity"
   ],
   "note": ""
  },
  {
   "property": "C91",
   "status": "proved",
   "theorems": [
    "C91_move",
    "C91_move_assign",
    "C91_swap",
    "C91_copy_assign"
   ],
   "note": "Copy assignment for elements that are not trivially copyable; for the others see C93."
  },
  {
   "property": "C92",
   "status": "proved",
   "theorems": [
    "C92_default",
    "C92_from_range",
    "C92_from_unsized",
    "C92_copy",
    "C92_destroy"
   ],
   "note": ""
  },
  {
   "property": "C93",
   "status": "partial",
   "theorems": [
    "C93_assign",
    "C93_assign_trivial_partial",
    "C93_assign_trivial_refuted",
    "C93_assign_trivial_exactly"
   ],
   "note": "False of the code for trivially copyable elements of a large object when the allocation throws; proved otherwise."
  },
  {
   "property": "C94",
   "status": "proved",
   "theorems": [
    "C94_default",
    "C94_from_range",
    "C94_out_of_range",
    "C94_copy",
    "C94_destroy",
    "C94_size"
   ],
   "note": ""
  },
  {
   "property": "C95",
   "status": "proved",
   "theorems": [
    "C95_assign",
    "C95_assign_strong",
    "C95_assign_in_place",
    "C95_copy_assign",
    "C95_assign_strong_refuted"
   ],
   "note": "The strong guarantee does not hold (C95_assign_strong_refuted), which the property does not claim."
  },
  {
   "property": "C96",
   "status": "proved",
   "theorems": [
    "C96_move",
    "C96_move_assign",
    "C96_move_assign_to_moved_from",
    "C96_self_move",
    "C96_destroy_moved_from",
    "C96_clear",
    "C96_assign_to_moved_from",
    "C96_swap",
    "C96_moved_from_size_refuted"
   ],
   "note": "More than the property says is false: size() of a moved-from array breaks an assertion (C96_moved_from_size_refuted)."
  },
  {
   "property": "C97",
   "status": "proved",
   "theorems": [
    "C97_transform",
    "C97_reversed",
    "C97_reversible"
   ],
   "note": ""
  },
  {
   "property": "C98",
   "status": "proved",
   "theorems": [
    "C98_filter",
    "C98_remove_none"
   ],
   "note": ""
  },
  {
   "property": "C99",
   "status": "proved",
   "theorems": [
    "C99_take",
    "C99_check_size",
    "C99_check_unsized"
   ],
   "note": ""
  }
 ]
}