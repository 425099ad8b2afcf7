{
 "claims": [
  {
   "property": "C01",
   "status": "proved",
   "theorems": [
    "C01_history",
    "C01_history_from",
    "C01_create_from_array",
    "C01_create_n",
    "C01_returned_positions"
   ],
   "note": ""
  },
  {
   "property": "C02",
   "status": "partial",
   "theorems": [
    "C02_insert_n_refuted",
    "C02_insert_n_partial"
   ],
   "note": "False of the code: the reallocation asks only for the missing slots on top of size, so a large count overflows (C02_insert_n_refuted: capacity 4, size 2, count 10). Proved when count fits in the spare capacity or in twice the capacity; C03 is the exact condition."
  },
  {
   "property": "C03",
   "status": "proved",
   "theorems": [
    "C03_insert_n_exact"
   ],
   "note": ""
  },
  {
   "property": "C04",
   "status": "partial",
   "theorems": [
    "C04_reserve_refuted",
    "C04_reserve_partial"
   ],
   "note": "False of the code: reserve beyond the capacity appends default elements (C04_reserve_refuted). Exact behaviour: C61_reserve."
  },
  {
   "property": "C05",
   "status": "partial",
   "theorems": [
    "C05_copy_refuted",
    "C05_copy_partial"
   ],
   "note": "False of the code for vectors with spare capacity (C05_copy_refuted). Proved when capacity = size; exact behaviour: C61_copy."
  },
  {
   "property": "C06",
   "status": "partial",
   "theorems": [
    "C06_assign_refuted",
    "C06_assign_partial"
   ],
   "note": "False of the code (C06_assign_refuted: the target ends up empty). Proved when the target is smaller and the source full; exact behaviour: C61_assign."
  },
  {
   "property": "C07",
   "status": "proved",
   "theorems": [
    "C07_positions_survive"
   ],
   "note": ""
  },
  {
   "property": "C08",
   "status": "proved",
   "theorems": [
    "C08_history",
    "C08_history_from",
    "C08_create_from",
    "C08_returned_positions"
   ],
   "note": ""
  },
  {
   "property": "C09",
   "status": "proved",
   "theorems": [
    "C09_room"
   ],
   "note": ""
  },
  {
   "property": "C10",
   "status": "partial",
   "theorems": [
    "C10_copy_refuted",
    "C10_copy_partial"
   ],
   "note": "False of the code for deques with spare capacity (C10_copy_refuted). Exact behaviour: C62_copy."
  },
  {
   "property": "C11",
   "status": "partial",
   "theorems": [
    "C11_assign_refuted",
    "C11_assign_partial"
   ],
   "note": "False of the code: the target ends up empty, or its buffer is overflowed (C11_assign_refuted). Exact behaviour: C62_assign."
  },
  {
   "property": "C12",
   "status": "proved",
   "theorems": [
    "C12_history",
    "C12_operations"
   ],
   "note": "history theorem over any number of lists with arbitrary allocator; contract violations are excluded by lhist_spec = Some"
  },
  {
   "property": "C13",
   "status": "proved",
   "theorems": [
    "C13_iterators_stay_valid"
   ],
   "note": ""
  },
  {
   "property": "C14",
   "status": "proved",
   "theorems": [
    "C14_splice",
    "C14_splice_within"
   ],
   "note": ""
  },
  {
   "property": "C15",
   "status": "proved",
   "theorems": [
    "C15_merge",
    "C15_merge_any"
   ],
   "note": ""
  },
  {
   "property": "C16",
   "status": "proved",
   "theorems": [
    "C16_sort"
   ],
   "note": "for every length below 2^64; strict weak order required"
  },
  {
   "property": "C17",
   "status": "proved",
   "theorems": [
    "C17_reverse_remove_unique"
   ],
   "note": ""
  },
  {
   "property": "C18",
   "status": "proved",
   "theorems": [
    "C18_history",
    "C18_operations"
   ],
   "note": ""
  },
  {
   "property": "C19",
   "status": "proved",
   "theorems": [
    "C19_sort",
    "C19_merge"
   ],
   "note": ""
  },
  {
   "property": "C20",
   "status": "proved",
   "theorems": [
    "C20_splice",
    "C20_splice_within",
    "C20_reverse_remove_unique"
   ],
   "note": ""
  },
  {
   "property": "C21",
   "status": "proved",
   "theorems": [
    "C21_history",
    "C21_invariant"
   ],
   "note": "Any number of trees with arbitrary interleavings of create/destroy/swap/clear/insert (unique, equal, hinted, ranges)/erase/erase_range/erase_key; arguments may be references into elements of any tree.  Precondition of range insertion: the range is outside the tree."
  },
  {
   "property": "C22",
   "status": "proved",
   "theorems": [
    "C22_insert_unique",
    "C22_keys_distinct"
   ],
   "note": ""
  },
  {
   "property": "C23",
   "status": "proved",
   "theorems": [
    "C23_insert_equal",
    "C23_insertion_order"
   ],
   "note": ""
  },
  {
   "property": "C24",
   "status": "proved",
   "theorems": [
    "C24_erase",
    "C24_insert_keeps_iterators"
   ],
   "note": ""
  },
  {
   "property": "C25",
   "status": "proved",
   "theorems": [
    "C25_bounds",
    "C25_find"
   ],
   "note": ""
  },
  {
   "property": "C26",
   "status": "proved",
   "theorems": [
    "C26_iteration"
   ],
   "note": ""
  },
  {
   "property": "C27",
   "status": "proved",
   "theorems": [
    "C27_logarithmic",
    "C27_history"
   ],
   "note": "Height bound for every reachable tree, and the search loops of find/lower_bound/upper_bound/insert end within 2*log2(n+1)+1 iterations with the same result."
  },
  {
   "property": "C28",
   "status": "proved",
   "theorems": [
    "C28_hinted_unique",
    "C28_hinted_equal"
   ],
   "note": ""
  },
  {
   "property": "C29",
   "status": "proved",
   "theorems": [
    "C29_erase_key",
    "C29_erase_range_clear"
   ],
   "note": ""
  },
  {
   "property": "C30",
   "status": "proved",
   "theorems": [
    "C30_verify_accepts"
   ],
   "note": ""
  },
  {
   "property": "C31",
   "status": "proved",
   "theorems": [
    "C31_all_of",
    "C31_any_of",
    "C31_none_of",
    "C31_count_if",
    "C31_count",
    "C31_find_by",
    "C31_find_if",
    "C31_find_if_not",
    "C31_find_first_of",
    "C31_adjacent_find",
    "C31_for_each",
    "C31_for_each_n"
   ],
   "note": ""
  },
  {
   "property": "C32",
   "status": "proved",
   "theorems": [
    "C32_mismatch",
    "C32_equal"
   ],
   "note": ""
  },
  {
   "property": "C33",
   "status": "proved",
   "theorems": [
    "C33_search",
    "C33_search_last",
    "C33_search_n",
    "C33_search_last_n",
    "C33_find_last_of"
   ],
   "note": ""
  },
  {
   "property": "C34",
   "status": "proved",
   "theorems": [
    "C34_copy",
    "C34_copy_if",
    "C34_copy_backward",
    "C34_transform",
    "C34_fill",
    "C34_fill_n",
    "C34_generate",
    "C34_generate_n",
    "C34_replace_if",
    "C34_replace",
    "C34_replace_copy_if",
    "C34_replace_copy",
    "C34_remove_copy_if",
    "C34_remove_copy",
    "C34_reverse_copy",
    "C34_rotate_copy",
    "C34_swap_range"
   ],
   "note": ""
  },
  {
   "property": "C35",
   "status": "proved",
   "theorems": [
    "C35_remove_if",
    "C35_remove"
   ],
   "note": ""
  },
  {
   "property": "C36",
   "status": "proved",
   "theorems": [
    "C36_reverse",
    "C36_rotate",
    "C36_shuffle",
    "C36_shuffle_all",
    "C36_default_source"
   ],
   "note": "The random source's double arithmetic is modelled by exact rationals."
  },
  {
   "property": "C37",
   "status": "proved",
   "theorems": [
    "C37_unique",
    "C37_unique_copy"
   ],
   "note": ""
  },
  {
   "property": "C38",
   "status": "proved",
   "theorems": [
    "C38_partition",
    "C38_is_partitioned",
    "C38_partition_point",
    "C38_partition_copy"
   ],
   "note": ""
  },
  {
   "property": "C39",
   "status": "partial",
   "theorems": [
    "C39_sort_refuted",
    "C39_sort_partial"
   ],
   "note": "False of the code above 512 elements: __unguarded_insertion_sort_by passes a reference to the cell it overwrites, so elements are lost and duplicated (C39_sort_refuted, witness of 513 elements). Proved for every length: terminates, in bounds, sorted, only input elements, nothing outside the range changes. C40 is the full claim up to 512."
  },
  {
   "property": "C40",
   "status": "proved",
   "theorems": [
    "C40_sort_512"
   ],
   "note": ""
  },
  {
   "property": "C41",
   "status": "partial",
   "theorems": [
    "C41_is_sorted",
    "C41_is_sorted_until_refuted",
    "C41_is_sorted_until_partial"
   ],
   "note": "is_sorted proved. is_sorted_until is off by one (C41_is_sorted_until_refuted, [1;3;2] gives 1 instead of 2); the exact value computed is C41_is_sorted_until_partial."
  },
  {
   "property": "C42",
   "status": "proved",
   "theorems": [
    "C42_partial_sort",
    "C42_partial_sort_copy"
   ],
   "note": ""
  },
  {
   "property": "C43",
   "status": "proved",
   "theorems": [
    "C43_make_heap",
    "C43_push_heap",
    "C43_pop_heap",
    "C43_sort_heap"
   ],
   "note": ""
  },
  {
   "property": "C44",
   "status": "partial",
   "theorems": [
    "C44_is_heap",
    "C44_is_heap_until_refuted",
    "C44_is_heap_until_partial"
   ],
   "note": "is_heap proved. is_heap_until returns the parent instead of the offending child (C44_is_heap_until_refuted, [5;4;6] gives 0 instead of 2); the exact value computed is C44_is_heap_until_partial."
  },
  {
   "property": "C45",
   "status": "proved",
   "theorems": [
    "C45_lower_bound",
    "C45_upper_bound",
    "C45_equal_range",
    "C45_binary_search",
    "C45_sorted",
    "C45_safe"
   ],
   "note": ""
  },
  {
   "property": "C46",
   "status": "proved",
   "theorems": [
    "C46_merge"
   ],
   "note": ""
  },
  {
   "property": "C47",
   "status": "proved",
   "theorems": [
    "C47_includes"
   ],
   "note": ""
  },
  {
   "property": "C48",
   "status": "proved",
   "theorems": [
    "C48_intersection"
   ],
   "note": ""
  },
  {
   "property": "C49",
   "status": "proved",
   "theorems": [
    "C49_union"
   ],
   "note": ""
  },
  {
   "property": "C50",
   "status": "partial",
   "theorems": [
    "C50_difference_refuted",
    "C50_difference_partial",
    "C50_difference_safe_partial"
   ],
   "note": "False of the code: when an element of the second range is smaller than the current one of the first, both are skipped ({5} minus {1} is empty). Proved under the exact-inclusion condition and, for all inputs, sortedness/safety/subsequence."
  },
  {
   "property": "C51",
   "status": "proved",
   "theorems": [
    "C51_symmetric_difference"
   ],
   "note": ""
  },
  {
   "property": "C52",
   "status": "proved",
   "theorems": [
    "C52_elements",
    "C52_elements_empty",
    "C52_max",
    "C52_min",
    "C52_clamp"
   ],
   "note": ""
  },
  {
   "property": "C53",
   "status": "proved",
   "theorems": [
    "C53_lexicographical_compare",
    "C53_strict_order"
   ],
   "note": ""
  },
  {
   "property": "C54",
   "status": "proved",
   "theorems": [
    "C54_stack_lifo"
   ],
   "note": ""
  },
  {
   "property": "C55",
   "status": "proved",
   "theorems": [
    "C55_queue_fifo",
    "C55_queue_vector_pop"
   ],
   "note": "FIFO over deque and list; over a vector pop is undefined in every reachable state (C55_queue_vector_pop)."
  },
  {
   "property": "C56",
   "status": "proved",
   "theorems": [
    "C56_priority_order"
   ],
   "note": ""
  },
  {
   "property": "C57",
   "status": "partial",
   "theorems": [
    "C57_swap_refuted",
    "C57_swap_partial"
   ],
   "note": "False of the code: c_priority_queue_swap leaves the comparators (C57_swap_refuted). Proved: same comparator and backend kind exchange exactly, in every reachable state."
  },
  {
   "property": "C58",
   "status": "proved",
   "theorems": [
    "C58_pair_less",
    "C58_pair_order"
   ],
   "note": ""
  },
  {
   "property": "C59",
   "status": "partial",
   "theorems": [
    "C59_map_refuted",
    "C59_map_partial"
   ],
   "note": "False of the code: c_pair_copy asserts that the malloc'd block it initialises has null pointers, so insert after erase aborts when malloc recycles the block (C59_map_refuted). Proved: a map either aborts there or behaves as a finite map."
  },
  {
   "property": "C60",
   "status": "partial",
   "theorems": [
    "C60_multiset_ledger",
    "C60_multiset_count",
    "C60_multimap_refuted",
    "C60_multimap_partial"
   ],
   "note": "Full for multisets (C60_multiset_ledger, C60_multiset_count); multimaps store pairs and can abort like maps (C60_multimap_refuted), otherwise they count correctly (C60_multimap_partial)."
  },
  {
   "property": "C61",
   "status": "proved",
   "theorems": [
    "C61_reserve",
    "C61_copy",
    "C61_assign"
   ],
   "note": ""
  },
  {
   "property": "C62",
   "status": "proved",
   "theorems": [
    "C62_copy",
    "C62_assign"
   ],
   "note": ""
  },
  {
   "property": "C63",
   "status": "proved",
   "theorems": [
    "C63_deque_removals",
    "C63_deque_shrinking",
    "C63_vector_removals",
    "C63_vector_shrinking"
   ],
   "note": ""
  },
  {
   "property": "C64",
   "status": "partial",
   "theorems": [
    "C64_deque_destroyed_once_refuted",
    "C64_deque_destroyed_partial",
    "C64_vector_destroyed_once_refuted",
    "C64_vector_destroyed_partial"
   ],
   "note": "False of the code: reallocation and shrink_to_fit move the elements bitwise and then call destroy on them (refuted by two push_backs). Proved: exact accounting per operation, and exactly-once for histories that never reallocate."
  },
  {
   "property": "C65",
   "status": "partial",
   "theorems": [
    "C65_deque_self_push_refuted",
    "C65_deque_self_push_partial",
    "C65_vector_self_insert_refuted",
    "C65_vector_self_insert_partial"
   ],
   "note": "False of the code when the call reallocates (use after free) or, for insert, when the element lies behind the position (its predecessor is copied). Exact behaviour proved for push_back, push_front and vector insert; deque insert_n of an own element not covered."
  },
  {
   "property": "C66",
   "status": "proved",
   "theorems": [
    "C66_iterator_arithmetic"
   ],
   "note": ""
  },
  {
   "property": "C67",
   "status": "partial",
   "theorems": [
    "C67_distance_refuted",
    "C67_distance_partial"
   ],
   "note": "False of the code for multi-byte elements: the division is unsigned. Exact value proved."
  },
  {
   "property": "C68",
   "status": "proved",
   "theorems": [
    "C68_ownership",
    "C68_no_leak"
   ],
   "note": ""
  },
  {
   "property": "C69",
   "status": "partial",
   "theorems": [
    "C69_remove_own_refuted",
    "C69_remove_own_partial"
   ],
   "note": "refuted: the element is freed and then compared with; proved only for the last element; see C70"
  },
  {
   "property": "C70",
   "status": "proved",
   "theorems": [
    "C70_remove_own_exact"
   ],
   "note": ""
  },
  {
   "property": "C71",
   "status": "partial",
   "theorems": [
    "C71_sort_end_refuted",
    "C71_sort_elements_partial"
   ],
   "note": "refuted for end(); proved for element iterators; see C72"
  },
  {
   "property": "C72",
   "status": "proved",
   "theorems": [
    "C72_sort_end_exact"
   ],
   "note": ""
  },
  {
   "property": "C73",
   "status": "proved",
   "theorems": [
    "C73_iterators"
   ],
   "note": ""
  },
  {
   "property": "C74",
   "status": "proved",
   "theorems": [
    "C74_ownership"
   ],
   "note": ""
  },
  {
   "property": "C75",
   "status": "partial",
   "theorems": [
    "C75_no_leak_refuted",
    "C75_no_leak_partial"
   ],
   "note": "False of the code: the header of every destroyed tree leaks (C75_no_leak_refuted); proved: everything else is released, one node per destroyed tree remains."
  },
  {
   "property": "C76",
   "status": "proved",
   "theorems": [
    "C76_erase_from_set"
   ],
   "note": ""
  },
  {
   "property": "C77",
   "status": "partial",
   "theorems": [
    "C77_erase_from_map_refuted",
    "C77_erase_from_map_partial"
   ],
   "note": "False of the code: the array of keys is walked with the value size (C77_erase_from_map_refuted); the exact behaviour when the value size is a multiple of the key size is C77_erase_from_map_partial."
  },
  {
   "property": "C78",
   "status": "proved",
   "theorems": [
    "C78_verify_exact"
   ],
   "note": ""
  },
  {
   "property": "C79",
   "status": "partial",
   "theorems": [
    "C79_verify_rejects_refuted",
    "C79_verify_rejects_partial"
   ],
   "note": "False of the code: C79_verify_rejects_refuted is an unsorted, unbalanced tree it accepts; C79_verify_rejects_partial says what acceptance does guarantee, C78 is the exact verdict."
  },
  {
   "property": "C80",
   "status": "proved",
   "theorems": [
    "C80_ownership",
    "C80_no_leak"
   ],
   "note": ""
  },
  {
   "property": "C81",
   "status": "proved",
   "theorems": [
    "C81_iterators_stay_valid"
   ],
   "note": ""
  },
  {
   "property": "C82",
   "status": "proved",
   "theorems": [
    "C82_iterators"
   ],
   "note": ""
  },
  {
   "property": "C83",
   "status": "partial",
   "theorems": [
    "C83_remove_own_refuted",
    "C83_remove_own_partial"
   ],
   "note": "refuted: the referenced node is freed and then compared with (C83_remove_own_refuted); proved for the last element; see C84"
  },
  {
   "property": "C84",
   "status": "proved",
   "theorems": [
    "C84_remove_own_exact"
   ],
   "note": ""
  },
  {
   "property": "C85",
   "status": "partial",
   "theorems": [
    "C85_sort_ends_refuted",
    "C85_sort_elements_partial"
   ],
   "note": "elements proved; before_begin() and end() refuted (C85_sort_ends_refuted): their nodes are replaced and freed; see C86"
  },
  {
   "property": "C86",
   "status": "proved",
   "theorems": [
    "C86_sort_ends_exact"
   ],
   "note": ""
  },
  {
   "property": "C87",
   "status": "proved",
   "theorems": [
    "C87_merge_any",
    "C87_merge_into_sorted"
   ],
   "note": ""
  },
  {
   "property": "C88",
   "status": "partial",
   "theorems": [
    "C88_erase_empty_range_refuted",
    "C88_erase_empty_range_partial"
   ],
   "note": "written (first, next(first)): proved; written (first, first): refuted, never returns (C88_erase_empty_range_refuted); see C89"
  },
  {
   "property": "C89",
   "status": "proved",
   "theorems": [
    "C89_erase_after_same"
   ],
   "note": ""
  },
  {
   "property": "C90",
   "status": "proved",
   "theorems": [
    "C90_no_leak"
   ],
   "note": ""
  },
  {
   "property": "C91",
   "status": "partial",
   "theorems": [
    "C91_swap_refuted",
    "C91_swap_partial"
   ],
   "note": "False of the code between different backends (C91_swap_refuted: undefined in every reachable state); proved for equal kinds."
  },
  {
   "property": "C92",
   "status": "partial",
   "theorems": [
    "C92_push_own_top_refuted",
    "C92_push_own_top_partial"
   ],
   "note": "False of the code: a full vector or deque reallocates first (C92_push_own_top_refuted). The exact condition is proved for every reachable stack."
  },
  {
   "property": "C93",
   "status": "proved",
   "theorems": [
    "C93_pq_over_list"
   ],
   "note": ""
  },
  {
   "property": "C94",
   "status": "proved",
   "theorems": [
    "C94_pq_conserves"
   ],
   "note": ""
  },
  {
   "property": "C95",
   "status": "proved",
   "theorems": [
    "C95_heap_any",
    "C95_partial_sort_any"
   ],
   "note": ""
  },
  {
   "property": "C96",
   "status": "partial",
   "theorems": [
    "C96_sort_any_refuted",
    "C96_sort_any_partial"
   ],
   "note": "False of the code above 512 elements: an always-true comparator runs past the end of any range (C96_sort_any_refuted). Proved up to 512 elements."
  },
  {
   "property": "C97",
   "status": "proved",
   "theorems": [
    "C97_merge_any",
    "C97_set_ops_any",
    "C97_includes_any"
   ],
   "note": ""
  },
  {
   "property": "C98",
   "status": "proved",
   "theorems": [
    "C98_copy",
    "C98_pairs_are_values"
   ],
   "note": ""
  },
  {
   "property": "C99",
   "status": "proved",
   "theorems": [
    "C99_copy_exact",
    "C99_reused_block"
   ],
   "note": ""
  },
  {
   "property": "C100",
   "status": "proved",
   "theorems": [
    "C100_set"
   ],
   "note": ""
  },
  {
   "property": "C101",
   "status": "proved",
   "theorems": [
    "C101_multiset"
   ],
   "note": ""
  },
  {
   "property": "C102",
   "status": "proved",
   "theorems": [
    "C102_copy_out_of_memory"
   ],
   "note": ""
  },
  {
   "property": "C103",
   "status": "proved",
   "theorems": [
    "C103_integer_types"
   ],
   "note": "All integer widths and signedness of c_primes.c; objects are their bytes (little endian, two's complement)."
  },
  {
   "property": "C104",
   "status": "partial",
   "theorems": [
    "C104_float_order_refuted",
    "C104_float_order_partial"
   ],
   "note": "Refuted: with NaN less is irreflexive and transitive but incomparability is not transitive (C104_float_order_refuted exhibits a sort that leaves [1;3;NaN;2]); C104_float_order_partial proves the order laws for all non-NaN values."
  },
  {
   "property": "C105",
   "status": "proved",
   "theorems": [
    "C105_binary_search",
    "C105_push_heap",
    "C105_pop_heap"
   ],
   "note": "Loops are fuelled: a loop with fuel n makes at most n iterations or returns NoFuel; the theorems show that log2(n)+2 units of fuel are enough for the same result."
  },
  {
   "property": "C106",
   "status": "proved",
   "theorems": [
    "C106_vector_history",
    "C106_vector_operation",
    "C106_vector_insert",
    "C106_deque_history",
    "C106_deque_operation"
   ],
   "note": "Each operation carries whether malloc succeeds during it. Indices are Nat; copies of elements are value copies (copying never allocates; the copy operations of owning types are C98-C102)."
  },
  {
   "property": "C107",
   "status": "partial",
   "theorems": [
    "C107_copy_refuted",
    "C107_vector_copy_partial",
    "C107_create_n_partial",
    "C107_vector_assign_partial",
    "C107_deque_copy_partial"
   ],
   "note": "Refuted: c_vector_copy, c_vector_create_from_array, c_vector_assign, c_deque_copy and c_deque_create_from memcpy into storage that was not obtained. The _partial theorems say exactly when: null object, empty source and sufficient storage are fine, anything else is an out-of-bounds write; create_n returns an empty vector."
  },
  {
   "property": "C108",
   "status": "proved",
   "theorems": [
    "C108_list_history",
    "C108_list_no_memory",
    "C108_sort"
   ],
   "note": "The outcomes of the malloc calls to come are an arbitrary list of booleans consumed call by call; fhist_may/lhist_may in SpecOom.v is the specification."
  },
  {
   "property": "C109",
   "status": "proved",
   "theorems": [
    "C109_history",
    "C109_no_memory",
    "C109_create",
    "C109_sort",
    "C109_insert_after"
   ],
   "note": "As C108."
  },
  {
   "property": "C110",
   "status": "proved",
   "theorems": [
    "C110_history",
    "C110_insert",
    "C110_create"
   ],
   "note": "As C108; the header leaked by destroy (C75) is counted."
  },
  {
   "property": "C111",
   "status": "proved",
   "theorems": [
    "C111_set",
    "C111_multiset",
    "C111_map",
    "C111_multimap"
   ],
   "note": "Maps and multimaps: for histories that pair copying does not abort (C59). erase_from in the histories has keys and elements of the same size; the other case is C77."
  },
  {
   "property": "C112",
   "status": "proved",
   "theorems": [
    "C112_all_of",
    "C112_any_of",
    "C112_none_of",
    "C112_count_if",
    "C112_count"
   ],
   "note": "Iterator-level model Iter*.v: the program text of each function, run in a world whose function table is the one of the containers."
  },
  {
   "property": "C113",
   "status": "proved",
   "theorems": [
    "C113_find_if",
    "C113_find_if_not",
    "C113_find_by",
    "C113_adjacent_find_by",
    "C113_search_n_by",
    "C113_search_last_n_by",
    "C113_find_first_of_by",
    "C113_find_last_of_by",
    "C113_search_by",
    "C113_search_last_by"
   ],
   "note": "Iterator-level model Iter*.v: the program text of each function, run in a world whose function table is the one of the containers."
  },
  {
   "property": "C114",
   "status": "proved",
   "theorems": [
    "C114_equal_by",
    "C114_mismatch_by"
   ],
   "note": "Iterator-level model Iter*.v: the program text of each function, run in a world whose function table is the one of the containers."
  },
  {
   "property": "C115",
   "status": "proved",
   "theorems": [
    "C115_for_each",
    "C115_for_each_n"
   ],
   "note": "Iterator-level model Iter*.v: the program text of each function, run in a world whose function table is the one of the containers."
  },
  {
   "property": "C116",
   "status": "proved",
   "theorems": [
    "C116_copy",
    "C116_replace_copy",
    "C116_replace_copy_if",
    "C116_copy_if",
    "C116_remove_copy",
    "C116_remove_copy_if",
    "C116_transform",
    "C116_copy_backward",
    "C116_reverse_copy",
    "C116_rotate_copy",
    "C116_unique_copy_by",
    "C116_unique_copy_by_null"
   ],
   "note": "Value arguments do not alias elements of the ranges. With a null d_last algo_unique_copy_by returns 0 and copies nothing (C116_unique_copy_by_null)."
  },
  {
   "property": "C117",
   "status": "proved",
   "theorems": [
    "C117_fill",
    "C117_fill_n",
    "C117_generate",
    "C117_generate_n",
    "C117_replace_if",
    "C117_replace",
    "C117_remove_if",
    "C117_remove",
    "C117_unique_by"
   ],
   "note": ""
  },
  {
   "property": "C118",
   "status": "proved",
   "theorems": [
    "C118_reverse",
    "C118_rotate",
    "C118_shuffle",
    "C118_swap_range_apart",
    "C118_swap_range_same",
    "C118_iter_swap_apart",
    "C118_iter_swap_same"
   ],
   "note": ""
  },
  {
   "property": "C119",
   "status": "proved",
   "theorems": [
    "C119_is_partitioned",
    "C119_partition_point",
    "C119_partition",
    "C119_partition_copy_same",
    "C119_partition_copy_apart"
   ],
   "note": ""
  },
  {
   "property": "C120",
   "status": "proved",
   "theorems": [
    "C120_lower_bound",
    "C120_upper_bound",
    "C120_equal_range",
    "C120_binary_search",
    "C120_sorted",
    "C120_safe",
    "C120_null_out"
   ],
   "note": ""
  },
  {
   "property": "C121",
   "status": "proved",
   "theorems": [
    "C121_elements",
    "C121_elements_empty",
    "C121_is_sorted",
    "C121_is_sorted_until",
    "C121_lexicographical_compare",
    "C121_includes"
   ],
   "note": "The position is_sorted_until stores on unsorted ranges is what the code computes; it differs from the documented one (C41)."
  },
  {
   "property": "C122",
   "status": "proved",
   "theorems": [
    "C122_merge",
    "C122_union",
    "C122_intersection",
    "C122_symmetric_difference",
    "C122_difference"
   ],
   "note": "set_difference is stated with the condition under which the code is right; without it it is refuted (C50)."
  },
  {
   "property": "C123",
   "status": "proved",
   "theorems": [
    "C123_push_heap",
    "C123_pop_heap",
    "C123_sort_heap",
    "C123_is_heap",
    "C123_is_heap_until"
   ],
   "note": ""
  },
  {
   "property": "C124",
   "status": "partial",
   "theorems": [
    "C124_make_heap_partial",
    "C124_make_heap_refuted"
   ],
   "note": "False in the strict reading of pointer arithmetic: __percolate_down forms the iterators of children that do not exist (up to twice the length past the range) before it compares the index, so on a full vector it moves a pointer behind the block (refuted). Proved for the reading in which only dereferencing outside the block matters."
  },
  {
   "property": "C125",
   "status": "proved",
   "theorems": [
    "C125_sort_512"
   ],
   "note": ""
  },
  {
   "property": "C126",
   "status": "partial",
   "theorems": [
    "C126_sort_partial",
    "C126_sort_refuted",
    "C126_partial_sort_partial",
    "C126_partial_sort_copy_partial"
   ],
   "note": "sort loses elements above 512 (refuted; what remains is proved) and, through make_heap, partial_sort and partial_sort_copy form pointers outside the block (C124_make_heap_refuted); proved for the tolerant reading."
  },
  {
   "property": "C127",
   "status": "proved",
   "theorems": [
    "C127_vector_capacity",
    "C127_vector_moves",
    "C127_vector_reallocations"
   ],
   "note": ""
  },
  {
   "property": "C128",
   "status": "partial",
   "theorems": [
    "C128_deque_memory_refuted",
    "C128_deque_memory_mirror_refuted",
    "C128_queue_memory_refuted",
    "C128_deque_memory_partial",
    "C128_deque_memory_total_partial"
   ],
   "note": "False: push_back reallocates (doubling) whenever the end of the block is reached although the front is free, and pop_front never gives the room back, so n rounds of push_back/pop_front leave a block of n to 2n slots although the deque never has more than one element (refuted; also the mirror image and at the level of c_queue). Proved: at most four times the largest size for histories that do not fill at one end and empty at the other; at most eight times the number of elements ever added for all histories."
  },
  {
   "property": "C129",
   "status": "partial",
   "theorems": [
    "C129_vector_resize_refuted",
    "C129_vector_resize_64_refuted",
    "C129_deque_refuted",
    "C129_deque_64_refuted",
    "C129_vector_partial",
    "C129_deque_partial",
    "C129_operation_partial"
   ],
   "note": "False: cap * value_size wraps around for vectors (element size 2 or more) and count * 2 for deques (any element size), so malloc succeeds with a small block and the fill runs outside it (refuted, for arbitrary vectors and deques, also at 2^64). Proved: as long as the sizes are small enough every operation and every history behaves as with unbounded numbers."
  },
  {
   "property": "C130",
   "status": "partial",
   "theorems": [
    "C130_vector_refuted",
    "C130_deque_refuted",
    "C130_invalid_partial",
    "C130_vector_whole_partial",
    "C130_deque_whole_partial"
   ],
   "note": "False for every valid position and every range, even an empty one: first and last are c_iterator_t parameters passed by value, which do not contain the position, so the comparison reads outside the parameters (refuted). Proved: with an invalid position nothing changes; if the iterators were passed whole, the loop would do what is claimed."
  },
  {
   "property": "C131",
   "status": "proved",
   "theorems": [
    "C131_list_sort",
    "C131_slist_sort"
   ],
   "note": "Proved with no condition on the comparator; the sorted and stable part under a strict weak order is C16 and C19."
  },
  {
   "property": "C132",
   "status": "partial",
   "theorems": [
    "C132_partial",
    "C132_asymmetric_partial",
    "C132_history_partial",
    "C132_hint_refuted",
    "C132_erase_key_refuted"
   ],
   "note": "Proved for every comparator for insertion without a hint, insertion of duplicates with a hint, erasure by position, clear and the lookups, for one call and for histories (C132_partial, C132_history_partial); hinted unique insertion and erasure by key are proved for every asymmetric comparator, transitive or not (C132_asymmetric_partial). False for those two with a reflexive comparator such as less-or-equal: the first overwrites a link and loses an element (C132_hint_refuted), the second follows a null pointer or never ends (C132_erase_key_refuted)."
  },
  {
   "property": "C133",
   "status": "partial",
   "theorems": [
    "C133_non_modifying_refuted",
    "C133_modifying_refuted",
    "C133_ordering_refuted",
    "C133_heap_sort_refuted",
    "C133_enough_memory_partial",
    "C133_wrong_answer_refuted"
   ],
   "note": "False of the code: no algorithm looks whether its copies of the caller's iterators were made. For every algorithm, every container and all arguments (the range not empty where empty ranges return early) the call does not return normally when its first allocation fails (C133_*_refuted, 72 functions); when the second fails it can return a wrong answer (C133_wrong_answer_refuted). C133_enough_memory_partial: when no allocation fails the calls behave exactly as in the theorems C112-C126, in both directions."
  },
  {
   "property": "C134",
   "status": "proved",
   "theorems": [
    "C134_interface",
    "C134_post_increment",
    "C134_post_decrement",
    "C134_post_no_memory",
    "C134_post_self",
    "C134_read_all"
   ],
   "note": "Proved for all containers. The returned iterator is the old position unless the caller passes the iterator itself as the temporary (C134_post_self says what happens then)."
  },
  {
   "property": "C135",
   "status": "partial",
   "theorems": [
    "C135_ends",
    "C135_removals",
    "C135_insert_exact_partial",
    "C135_resize_and_shrink",
    "C135_insert_before_refuted",
    "C135_push_keeps_refuted",
    "C135_ends_history"
   ],
   "note": "False for insertions: when the room is at the front, an insertion moves the elements before the position although the block is kept, and a reference to them reads another element (C135_insert_before_refuted); a push without room at its own end reallocates even with room at the other (C135_push_keeps_refuted). The exact behaviour of every operation is proved."
  },
  {
   "property": "C136",
   "status": "proved",
   "theorems": [
    "C136_stack_history",
    "C136_queue_history",
    "C136_no_memory"
   ],
   "note": "Histories that count on an adapter that was not created stop at the first call on a missing adapter; a vector's or deque's block belongs to its container object."
  },
  {
   "property": "C137",
   "status": "partial",
   "theorems": [
    "C137_priority_refuted",
    "C137_priority_partial"
   ],
   "note": "False: push and pop do not check the iterators they allocate for the heap algorithms, which then silently do nothing: a push leaves a greater element below, a pop removes an element other than the top (C137_priority_refuted). Proved: every call returns, the contents are right as collections, nothing is leaked, and without failures the run is that of C56. Failures inside the heap algorithms dereference null and are not followed further."
  },
  {
   "property": "C138",
   "status": "proved",
   "theorems": [
    "C138_range_of_another_tree"
   ],
   "note": ""
  },
  {
   "property": "C139",
   "status": "proved",
   "theorems": [
    "C139_own_range_unique"
   ],
   "note": ""
  },
  {
   "property": "C140",
   "status": "partial",
   "theorems": [
    "C140_own_range_refuted",
    "C140_forward_exact_partial",
    "C140_backward_exact_partial"
   ],
   "note": "False of the code: with forward iterators the copy of an element is inserted in front of the iterator, at the end of the elements with that key, and the iterator never gets past them. C140_own_range_refuted: begin to end of any non-empty tree never returns. C140_forward_exact_partial: the call returns iff the element at the last position has the key of the first, and then the copies are exact. C140_backward_exact_partial: with reverse iterators it always returns, but each element that is the last with its key is copied twice."
  },
  {
   "property": "C141",
   "status": "partial",
   "theorems": [
    "C141_self_merge_exact_partial",
    "C141_distinct_partial",
    "C141_self_merge_refuted"
   ],
   "note": "False of the code. C141_self_merge_refuted: the list 1, 1, 2 merged with itself never returns. C141_self_merge_exact_partial: a sorted list is left alone iff no two equivalent neighbours are less than the last element, and otherwise the call never returns (the equivalent elements rotate in front of the next greater one). C141_distinct_partial: strictly increasing lists are left alone."
  },
  {
   "property": "C142",
   "status": "partial",
   "theorems": [
    "C142_self_merge_exact_partial",
    "C142_self_merge_refuted"
   ],
   "note": "False of the code for every non-empty list. C142_self_merge_refuted: 1, 2 merged with itself never returns; 7, 7 merged with itself returns empty, with its elements still allocated. C142_self_merge_exact_partial: a sorted forward list of equivalent elements comes back empty and leaks every element; any other never returns."
  },
  {
   "property": "C143",
   "status": "proved",
   "theorems": [
    "C143_modifying",
    "C143_ordering",
    "C143_reverse",
    "C143_shuffle",
    "C143_transform",
    "C143_pop_heap",
    "C143_sort_heap",
    "C143_sort_512",
    "C143_max_min"
   ],
   "note": ""
  },
  {
   "property": "C144",
   "status": "partial",
   "theorems": [
    "C144_push_heap_partial",
    "C144_generate_partial",
    "C144_generate_empty_partial",
    "C144_generate_n_partial",
    "C144_partial_sort_count_partial",
    "C144_partial_sort_copy_count_partial",
    "C144_partial_sort_partial",
    "C144_partial_sort_copy_partial",
    "C144_partial_sort_returns_partial",
    "C144_refuted"
   ],
   "note": "False of the code. algo_push_heap_by on two or more elements frees its copy without destroying it (exactly one element lost per call, so a priority queue loses one per push); algo_generate and algo_generate_n over n >= 1 elements lose n - 1 (memset over a constructed element), and algo_generate on an empty range destroys storage in which nothing was constructed: refutation and exact counts proved. partial_sort and partial_sort_copy lose exactly one element per replacement in their heap of the n smallest, for n >= 2 (counted over the input by SortCount.replacements; build without the pointer check, as C126); for every call all storage is freed and nothing is destroyed twice."
  },
  {
   "property": "C145",
   "status": "partial",
   "theorems": [
    "C145_inside_partial",
    "C145_onto_first_partial",
    "C145_whole_partial",
    "C145_splice_keeps_elements_refuted"
   ],
   "note": "False of the code, which does not test for a position inside the range. Positions outside: C14_splice_within. Inside, exactly: for m < k < n the list is left well formed without the range, whose elements stay allocated for ever; for k = m the range disappears when walking forward but not backward; splicing a whole list into itself empties it (at its end: no effect)."
  },
  {
   "property": "C146",
   "status": "partial",
   "theorems": [
    "C146_inside_partial",
    "C146_whole_partial",
    "C146_splice_keeps_elements_refuted"
   ],
   "note": "False of the code. Positions outside: C20_splice_within. After one of the moved elements, exactly: the list is left well formed without the range, whose elements stay allocated and are not freed when the list is destroyed; splicing a whole list after one of its own elements empties it (after before-begin: no effect)."
  },
  {
   "property": "C147",
   "status": "proved",
   "theorems": [
    "C147_traversal",
    "C147_bounded_is_model",
    "C147_history"
   ],
   "note": ""
  },
  {
   "property": "C148",
   "status": "proved",
   "theorems": [
    "C148_counting_is_model",
    "C148_list_merge",
    "C148_list_sort",
    "C148_slist_merge",
    "C148_slist_sort"
   ],
   "note": ""
  },
  {
   "property": "C149",
   "status": "proved",
   "theorems": [
    "C149_counting_is_model",
    "C149_make_heap",
    "C149_push_heap",
    "C149_pop_heap",
    "C149_sort_heap",
    "C149_partial_sort",
    "C149_partial_sort_copy"
   ],
   "note": ""
  },
  {
   "property": "C150",
   "status": "proved",
   "theorems": [
    "C150_counting_is_model",
    "C150_sort",
    "C150_sort_small"
   ],
   "note": ""
  },
  {
   "property": "C151",
   "status": "proved",
   "theorems": [
    "C151_counting_is_model",
    "C151_lookup",
    "C151_insert",
    "C151_good_hint",
    "C151_history"
   ],
   "note": ""
  },
  {
   "property": "C152",
   "status": "proved",
   "theorems": [
    "C152_counting_is_model",
    "C152_binary_search",
    "C152_set_operations",
    "C152_linear"
   ],
   "note": ""
  },
  {
   "property": "C153",
   "status": "proved",
   "theorems": [
    "C153_insert",
    "C153_erase",
    "C153_step",
    "C153_history"
   ],
   "note": ""
  }
 ]
}