{"id": "C01", "title": "Vector behaves as a sequence under every history", "statement": "Starting from an empty vector, any sequence of push_back, pop_back, insert (one element at a valid position), erase, erase_range, clear, resize, resize_with_value and shrink_to_fit never touches memory outside the vector's current buffer, never reads an element slot that was not initialised, and leaves exactly the sequence that the same operations produce on a mathematical list; size() is the length of that list and size() <= capacity() always.", "quantifier": "all element values, all finite operation histories whose positions are valid, and all capacities reached on the way", "why_tests_cant": "Growth points, shifts and the eos boundary depend on the history of sizes and capacities; tests sample only a few.", "anchors": ["container/c_vector.c: c_vector_push_back, c_vector_pop_back, c_vector_insert, c_vector_erase, c_vector_erase_range, c_vector_clear, c_vector_resize_with_value, c_vector_shrink_to_fit, __reallocate_and_move"]}
{"id": "C02", "title": "Vector insert_n inserts exactly count copies", "statement": "c_vector_insert_n(pos, count, v) leaves the elements before pos in place, then count copies of v, then the old elements from pos on, and writes only inside the buffer it owns; the iterator it returns points at the first inserted element.", "quantifier": "all vectors (contents, size, capacity), all valid positions, all counts", "why_tests_cant": "Whether the buffer is large enough depends on the exact relation of size, capacity and count.", "anchors": ["container/c_vector.c: c_vector_insert_n, __reallocate_and_move"]}
{"id": "C03", "title": "Vector insert_n is safe exactly when the reallocation is large enough", "statement": "c_vector_insert_n succeeds with the sequence result above whenever count fits in the spare capacity, or count > 0 and max(2*capacity, size + count - spare) >= size + count; in every other case it writes past the end of its buffer.", "quantifier": "all vectors, valid positions and counts", "why_tests_cant": "The claim ranges over unboundedly many inputs/histories; a test fixes a handful of sizes and capacities.", "anchors": ["container/c_vector.c: c_vector_insert_n, __reallocate_and_move"]}
{"id": "C04", "title": "Vector reserve changes only the capacity", "statement": "c_vector_reserve(n) makes capacity() >= n and does not change size() or the elements.", "quantifier": "all vectors and all n", "why_tests_cant": "The claim ranges over unboundedly many inputs/histories; a test fixes a handful of sizes and capacities.", "anchors": ["container/c_vector.c: c_vector_reserve"]}
{"id": "C05", "title": "Vector copy yields an equal vector", "statement": "c_vector_copy(v) returns a vector with the same size and the same elements as v.", "quantifier": "all vectors, in particular those whose capacity exceeds their size", "why_tests_cant": "The claim ranges over unboundedly many inputs/histories; a test fixes a handful of sizes and capacities.", "anchors": ["container/c_vector.c: c_vector_copy, c_vector_reserve"]}
{"id": "C06", "title": "Vector assign yields an equal vector", "statement": "After c_vector_assign(a, b) with a and b distinct, a has the same size and elements as b.", "quantifier": "all pairs of vectors", "why_tests_cant": "The claim ranges over unboundedly many inputs/histories; a test fixes a handful of sizes and capacities.", "anchors": ["container/c_vector.c: c_vector_assign, c_vector_reserve"]}
{"id": "C07", "title": "Vector positions survive modifications that do not reallocate", "statement": "push_back/insert with spare capacity, erase, erase_range, pop_back, clear and resize within capacity keep the same buffer, and each position before the modification point still refers to the same element afterwards; with no spare capacity, push_back and insert move to a fresh buffer.", "quantifier": "all vectors, positions and those operations", "why_tests_cant": "The claim ranges over unboundedly many inputs/histories; a test fixes a handful of sizes and capacities.", "anchors": ["container/c_vector.c: c_vector_push_back, c_vector_insert_n, c_vector_erase_range"]}
{"id": "C08", "title": "Deque behaves as a sequence under every history", "statement": "Starting from an empty deque, any sequence of push_back, push_front, pop_back, pop_front, insert, insert_n, erase, erase_range, clear, resize_with_value and shrink_to_fit never touches memory outside its buffer, never reads an uninitialised slot, and leaves exactly the sequence the same operations produce on a mathematical list; size() is its length.", "quantifier": "all element values, all finite histories with valid positions, all capacities and start offsets reached", "why_tests_cant": "The live block floats inside the buffer; which of the three shifting strategies runs depends on the whole history.", "anchors": ["container/c_deque.c: c_deque_push_back, c_deque_push_front, c_deque_pop_back, c_deque_pop_front, c_deque_insert_n, c_deque_erase_range, c_deque_clear, c_deque_resize_with_value, c_deque_shrink_to_fit, __insert_aux, __reallocate_and_move"]}
{"id": "C09", "title": "Deque reallocation always leaves enough room", "statement": "Whenever insert_n, push_back, push_front or resize has to reallocate, the space left at the required end (or in total for insert_n) is enough for all elements being added; no count overflows the new buffer.", "quantifier": "all deques, counts and positions", "why_tests_cant": "The claim ranges over unboundedly many inputs/histories; a test fixes a handful of sizes and capacities.", "anchors": ["container/c_deque.c: __reallocate_and_move, __insert_aux, c_deque_insert_n, c_deque_push_front, c_deque_resize_with_value"]}
{"id": "C10", "title": "Deque copy yields an equal deque", "statement": "c_deque_copy(d) returns a deque with the same size and elements as d.", "quantifier": "all deques", "why_tests_cant": "The claim ranges over unboundedly many inputs/histories; a test fixes a handful of sizes and capacities.", "anchors": ["container/c_deque.c: c_deque_copy, __reserve"]}
{"id": "C11", "title": "Deque assign yields an equal deque", "statement": "After c_deque_assign(a, b) with a and b distinct, a has the same size and elements as b.", "quantifier": "all pairs of deques", "why_tests_cant": "The claim ranges over unboundedly many inputs/histories; a test fixes a handful of sizes and capacities.", "anchors": ["container/c_deque.c: c_deque_assign, __reserve"]}
{"id": "C12", "title": "List behaves as a sequence under every history", "statement": "Starting from an empty list, any sequence of push_back, push_front, pop_back, pop_front, insert, erase, erase_range, clear, resize_with_value keeps a well-formed circular doubly linked list, never follows a dangling link, and leaves exactly the sequence the same operations produce on a mathematical list; walking forward from begin() yields it and walking backward from end() yields its reverse; size() is its length.", "quantifier": "all values, all finite histories with valid positions", "why_tests_cant": "Link consistency is an invariant over every reachable pointer graph; a test observes only sampled graphs.", "anchors": ["container/c_list.c: c_list_insert, c_list_erase, c_list_erase_range, c_list_push_back, c_list_push_front, c_list_pop_back, c_list_pop_front, c_list_clear, c_list_resize_with_value, __create_node, __pop_node"]}
{"id": "C13", "title": "List modifications keep iterators to other elements valid", "statement": "After insert, erase or splice on a list, each iterator to an element that was not erased still refers to the same element with the same value; nodes are only re-linked, never moved or copied.", "quantifier": "all lists, all positions, all other elements", "why_tests_cant": "The claim ranges over unboundedly many inputs/histories; a test fixes a handful of sizes and capacities.", "anchors": ["container/c_list.c: c_list_insert, c_list_erase, __transfer"]}
{"id": "C14", "title": "List splice moves exactly the requested elements", "statement": "splice / splice_from / splice_range remove from other exactly the designated elements and put them, in order, before pos; the rest of both lists is unchanged and both remain well formed.", "quantifier": "all pairs of lists, positions and sub-ranges (pos not inside the moved range)", "why_tests_cant": "The claim ranges over unboundedly many inputs/histories; a test fixes a handful of sizes and capacities.", "anchors": ["container/c_list.c: c_list_splice, c_list_splice_from, c_list_splice_range, __transfer"]}
{"id": "C15", "title": "List merge is a stable sorted merge", "statement": "If both lists are sorted by comp, merge_by(self, other) leaves self sorted, containing exactly the elements of both, equivalent elements of self before those of other and otherwise in original order, and other empty.", "quantifier": "all strict weak orders and all pairs of sorted lists", "why_tests_cant": "The claim ranges over unboundedly many inputs/histories; a test fixes a handful of sizes and capacities.", "anchors": ["container/c_list.c: c_list_merge_by"]}
{"id": "C16", "title": "List sort is a stable sort", "statement": "sort_by leaves a permutation of the list that is sorted by comp with equivalent elements in original order; it only re-links nodes. It is correct for every length below 2^64 - 1 or so allowed by its 64 bins.", "quantifier": "all strict weak orders, all lists", "why_tests_cant": "Bottom-up merging with a carry and 64 bins depends on the binary representation of the length.", "anchors": ["container/c_list.c: c_list_sort_by, c_list_merge_by"]}
{"id": "C17", "title": "List reverse, remove_if and unique do what they say", "statement": "reverse leaves the reversed sequence; remove_if/remove removes exactly the elements satisfying the predicate/equal to the value, keeping the order of the rest; unique_if keeps exactly the first of each group of consecutive elements for which the predicate holds with the kept one.", "quantifier": "all lists and predicates", "why_tests_cant": "The claim ranges over unboundedly many inputs/histories; a test fixes a handful of sizes and capacities.", "anchors": ["container/c_list.c: c_list_reverse, c_list_remove, c_list_remove_if, c_list_unique_if"]}
{"id": "C18", "title": "Forward list behaves as a sequence under every history", "statement": "Starting from an empty forward list, any sequence of push_front, pop_front, insert_after, erase_after, erase_after_range, clear, resize_with_value keeps a well-formed singly linked chain from before_begin to end and leaves exactly the sequence the same operations produce on a mathematical list.", "quantifier": "all values, all finite histories with valid positions", "why_tests_cant": "The claim ranges over unboundedly many inputs/histories; a test fixes a handful of sizes and capacities.", "anchors": ["container/c_forward_list.c: c_slist_insert_after, c_slist_erase_after, c_slist_erase_after_range, c_slist_push_front, c_slist_pop_front, c_slist_clear, c_slist_resize_with_value"]}
{"id": "C19", "title": "Forward list sort and merge are stable", "statement": "sort_by leaves a stably sorted permutation; merge_by of two sorted lists is the stable sorted merge and empties other.", "quantifier": "all strict weak orders, all lists", "why_tests_cant": "The claim ranges over unboundedly many inputs/histories; a test fixes a handful of sizes and capacities.", "anchors": ["container/c_forward_list.c: c_slist_sort_by, c_slist_merge_by"]}
{"id": "C20", "title": "Forward list splice, reverse, remove_if and unique do what they say", "statement": "splice_after variants move exactly the designated elements after pos; reverse reverses; remove_if removes exactly the satisfying elements; unique_if collapses consecutive groups.", "quantifier": "all forward lists, positions and predicates", "why_tests_cant": "The claim ranges over unboundedly many inputs/histories; a test fixes a handful of sizes and capacities.", "anchors": ["container/c_forward_list.c: c_slist_splice_after_range, c_slist_reverse, c_slist_remove_if, c_slist_unique_if"]}
{"id": "C21", "title": "Search tree stays ordered and balanced under every history", "statement": "After any sequence of insert_unique, insert_equal and erase starting from an empty tree, in-order traversal is sorted by the key comparison, the red-black colouring rules hold (root black, no red node with a red child, every path has the same number of black nodes), parent links mirror child links and begin()/last are the smallest/largest element; no operation follows a null or dangling link.", "quantifier": "all strict weak orders on keys, all finite histories, all values", "why_tests_cant": "Rebalancing has many symmetric pointer cases, some of them reached only by specific shapes.", "anchors": ["container/c_tree.c: c_tree_insert_unique_value, c_tree_insert_equal_value, c_tree_erase, __tree_rebalance_insert, __tree_rebalance_erase, __tree_rotate_left, __tree_rotate_right, __tree_insert"]}
{"id": "C22", "title": "Unique insertion is set insertion", "statement": "insert_unique(v) on a tree with pairwise inequivalent keys adds v exactly when no equivalent key is present, otherwise leaves the tree unchanged; the returned iterator points to the element with that key; the other elements are unchanged.", "quantifier": "all trees reachable by the API, all values", "why_tests_cant": "The claim ranges over unboundedly many inputs/histories; a test fixes a handful of sizes and capacities.", "anchors": ["container/c_tree.c: c_tree_insert_unique_value", "container/c_set.c: c_set_insert_value", "container/c_map.c: c_map_insert_value"]}
{"id": "C23", "title": "Equal insertion keeps duplicates in insertion order", "statement": "insert_equal(v) always adds v, immediately after all elements whose key is not greater than v's, so equivalent elements appear in insertion order.", "quantifier": "all trees reachable by the API, all values", "why_tests_cant": "The claim ranges over unboundedly many inputs/histories; a test fixes a handful of sizes and capacities.", "anchors": ["container/c_tree.c: c_tree_insert_equal_value"]}
{"id": "C24", "title": "Tree erase removes exactly the designated element", "statement": "erase(pos) removes exactly the element pos points to, keeps all others in order, returns the position after it, and every iterator to another element still refers to the same element.", "quantifier": "all reachable trees and positions", "why_tests_cant": "Erasure with two children relinks the successor; whether any other iterator is disturbed depends on tree shape.", "anchors": ["container/c_tree.c: c_tree_erase, __tree_rebalance_erase"]}
{"id": "C25", "title": "Tree lookup returns the right position", "statement": "lower_bound(k) is the first element whose key is not less than k, upper_bound(k) the first whose key is greater, find(k) an element equivalent to k or end() iff there is none, equal_range is the pair of bounds, count the number of equivalent elements.", "quantifier": "all reachable trees and keys", "why_tests_cant": "The claim ranges over unboundedly many inputs/histories; a test fixes a handful of sizes and capacities.", "anchors": ["container/c_tree.c: c_tree_find, c_tree_lower_bound, c_tree_upper_bound, c_tree_equal_range, c_tree_count"]}
{"id": "C26", "title": "Tree iteration visits every element once in order", "statement": "Repeated increment from begin() visits each element exactly once in sorted order and reaches end(); repeated decrement from end() visits them in reverse; increment and decrement are inverse.", "quantifier": "all reachable trees", "why_tests_cant": "The claim ranges over unboundedly many inputs/histories; a test fixes a handful of sizes and capacities.", "anchors": ["container/c_tree.c: __iter_increment, __iter_decrement, c_tree_begin, c_tree_end"]}
{"id": "C27", "title": "Tree height is logarithmic", "statement": "A reachable tree with n elements has height at most 2*log2(n+1), so lookups take O(log n) comparisons.", "quantifier": "all histories", "why_tests_cant": "The claim ranges over unboundedly many inputs/histories; a test fixes a handful of sizes and capacities.", "anchors": ["container/c_tree.c: __tree_rebalance_insert, __tree_rebalance_erase"]}
{"id": "C28", "title": "Tree hinted insertion never breaks the order", "statement": "insert_unique/insert_equal with any valid hint gives a tree holding the same elements, still sorted, as the unhinted call.", "quantifier": "all reachable trees, all hints, all values", "why_tests_cant": "The claim ranges over unboundedly many inputs/histories; a test fixes a handful of sizes and capacities.", "anchors": ["container/c_tree.c: c_tree_insert_unique, c_tree_insert_equal"]}
{"id": "C29", "title": "erase_key and erase_range remove exactly the right elements", "statement": "erase_key(k) removes all and only elements equivalent to k and returns how many; erase_range(first,last) removes exactly the elements in the range; clear empties.", "quantifier": "all reachable trees, keys and ranges", "why_tests_cant": "The claim ranges over unboundedly many inputs/histories; a test fixes a handful of sizes and capacities.", "anchors": ["container/c_tree.c: c_tree_erase_key, c_tree_erase_range, c_tree_clear"]}
{"id": "C30", "title": "Tree self-check accepts every tree the API builds", "statement": "c_tree_rb_verify returns true on every tree reachable through the API.", "quantifier": "all histories", "why_tests_cant": "The claim ranges over unboundedly many inputs/histories; a test fixes a handful of sizes and capacities.", "anchors": ["container/c_tree.c: c_tree_rb_verify"]}
{"id": "C31", "title": "Quantifier, counting and searching scans are exact", "statement": "all_of/any_of/none_of/count/count_if/find_by/find_if/find_if_not/find_first_of/adjacent_find return exactly what their definition says (first matching position or last with result false) and read only inside the given range.", "quantifier": "all ranges and predicates", "why_tests_cant": "The claim ranges over unboundedly many inputs/histories; a test fixes a handful of sizes and capacities.", "anchors": ["algorithm/c_non_modifying.c: algo_all_of, algo_any_of, algo_none_of, algo_count, algo_count_if, algo_find_by, algo_find_if, algo_find_if_not, algo_find_first_of_by, algo_adjacent_find_by"]}
{"id": "C32", "title": "mismatch and equal compare ranges position by position", "statement": "mismatch returns the first position where the ranges differ; equal returns true iff the second range starts with the elements of the first.", "quantifier": "all pairs of ranges and predicates", "why_tests_cant": "The claim ranges over unboundedly many inputs/histories; a test fixes a handful of sizes and capacities.", "anchors": ["algorithm/c_non_modifying.c: algo_mismatch_by, algo_equal_by"]}
{"id": "C33", "title": "search finds the first occurrence of a subsequence", "statement": "search sets first occurrence of the pattern in the range and returns true iff there is one; search_n the same for n consecutive equal elements; search_last/find_last_of the last occurrence.", "quantifier": "all ranges, patterns, predicates", "why_tests_cant": "The claim ranges over unboundedly many inputs/histories; a test fixes a handful of sizes and capacities.", "anchors": ["algorithm/c_non_modifying.c: algo_search_by, algo_search_n_by, algo_search_last_by, algo_find_last_of_by, algo_search_last_n_by"]}
{"id": "C34", "title": "Copy-like algorithms write exactly the specified cells", "statement": "copy, copy_if, copy_backward, fill, fill_n, transform, generate, replace(_if)(_copy), remove_copy(_if), reverse_copy, rotate_copy, swap_range write to the destination exactly the specified values and change nothing else; copy is right for destinations starting at or before the source, copy_backward for those ending at or after it.", "quantifier": "all memories, ranges, predicates, including overlapping ranges in the allowed direction", "why_tests_cant": "The claim ranges over unboundedly many inputs/histories; a test fixes a handful of sizes and capacities.", "anchors": ["algorithm/c_modifying.c: algo_copy, algo_copy_if, algo_copy_backward, algo_fill, algo_fill_n, algo_transform, algo_replace_if, algo_replace_copy_if, algo_remove_copy_if, algo_reverse_copy, algo_rotate_copy, algo_swap_range"]}
{"id": "C35", "title": "remove/remove_if compact the kept elements in order", "statement": "remove(_if) moves the elements that do not match, in order, to the front of the range, returns the new end, and leaves everything outside the range unchanged.", "quantifier": "all ranges and predicates", "why_tests_cant": "The claim ranges over unboundedly many inputs/histories; a test fixes a handful of sizes and capacities.", "anchors": ["algorithm/c_modifying.c: algo_remove, algo_remove_if"]}
{"id": "C36", "title": "reverse, rotate and shuffle permute in place", "statement": "reverse reverses the range; rotate makes n_first the first element, keeping cyclic order, and returns the new position of the old first; random_shuffle yields a permutation for every random source, and every permutation is reachable with some source.", "quantifier": "all ranges, split points and random number sequences", "why_tests_cant": "The claim ranges over unboundedly many inputs/histories; a test fixes a handful of sizes and capacities.", "anchors": ["algorithm/c_modifying.c: algo_reverse, algo_rotate, algo_random_shuffle_by"]}
{"id": "C37", "title": "unique keeps the first of each run", "statement": "unique(_copy) keeps, in order, exactly the first element of every group of consecutive equivalent elements, and returns the new end.", "quantifier": "all ranges and predicates", "why_tests_cant": "The claim ranges over unboundedly many inputs/histories; a test fixes a handful of sizes and capacities.", "anchors": ["algorithm/c_modifying.c: algo_unique_by, algo_unique_copy_by"]}
{"id": "C38", "title": "partition separates and reports the boundary", "statement": "partition permutes the range so that all elements satisfying the predicate come first and returns the boundary; is_partitioned decides that; partition_point finds the boundary; partition_copy splits in order.", "quantifier": "all ranges and predicates", "why_tests_cant": "The claim ranges over unboundedly many inputs/histories; a test fixes a handful of sizes and capacities.", "anchors": ["algorithm/c_partitioning.c: algo_partition, algo_is_partitioned, algo_partition_point, algo_partition_copy"]}
{"id": "C39", "title": "sort sorts", "statement": "algo_sort_by leaves a permutation of the range that is sorted by comp, and touches nothing outside the range.", "quantifier": "all strict weak orders and all lengths, including those above the insertion-sort threshold of 512", "why_tests_cant": "The defect appears only for ranges longer than 512 elements in particular orders.", "anchors": ["algorithm/c_sorting.c: algo_sort_by, __introspective_sort_by, __final_insertion_sort_by"]}
{"id": "C40", "title": "sort is right up to the insertion-sort threshold", "statement": "For ranges of at most 512 elements algo_sort_by leaves a sorted permutation and is moreover stable.", "quantifier": "all strict weak orders, all ranges of length <= 512", "why_tests_cant": "The claim ranges over unboundedly many inputs/histories; a test fixes a handful of sizes and capacities.", "anchors": ["algorithm/c_sorting.c: algo_sort_by, __insertion_sort_by, __linear_sort_by"]}
{"id": "C41", "title": "is_sorted decides sortedness; is_sorted_until gives the longest sorted prefix", "statement": "is_sorted returns true iff the range is sorted; is_sorted_until sets the last iterator it for which [first,it) is sorted.", "quantifier": "all strict weak orders and ranges", "why_tests_cant": "The claim ranges over unboundedly many inputs/histories; a test fixes a handful of sizes and capacities.", "anchors": ["algorithm/c_sorting.c: algo_is_sorted_by, algo_is_sorted_until_by"]}
{"id": "C42", "title": "partial_sort puts the smallest elements first", "statement": "partial_sort(first, middle, last) leaves a permutation whose first middle-first elements are the smallest ones in sorted order; partial_sort_copy writes the min(n, m) smallest, sorted, to the destination and leaves the source unchanged.", "quantifier": "all strict weak orders, ranges and middles", "why_tests_cant": "The claim ranges over unboundedly many inputs/histories; a test fixes a handful of sizes and capacities.", "anchors": ["algorithm/c_sorting.c: algo_partial_sort_by, algo_partial_sort_copy_by"]}
{"id": "C43", "title": "Heap operations maintain the max-heap property", "statement": "make_heap yields a max-heap permutation; push_heap extends a heap by its last element; pop_heap moves the largest to the end and leaves a heap before it; sort_heap turns a heap into a sorted range; all permute only the given range.", "quantifier": "all strict weak orders, all ranges", "why_tests_cant": "The claim ranges over unboundedly many inputs/histories; a test fixes a handful of sizes and capacities.", "anchors": ["algorithm/c_heap.c: algo_make_heap_by, algo_push_heap_by, algo_pop_heap_by, algo_sort_heap_by, __percolate_down, __heapify"]}
{"id": "C44", "title": "is_heap decides heapness; is_heap_until gives the longest heap prefix", "statement": "is_heap returns true iff the range is a max heap; is_heap_until sets the upper bound of the largest prefix that is a max heap.", "quantifier": "all strict weak orders and ranges", "why_tests_cant": "The claim ranges over unboundedly many inputs/histories; a test fixes a handful of sizes and capacities.", "anchors": ["algorithm/c_heap.c: algo_is_heap_by, algo_is_heap_until_by"]}
{"id": "C45", "title": "Binary search returns the partition boundary", "statement": "On a range partitioned with respect to the value, lower_bound/upper_bound return the boundary, binary_search reports presence of an equivalent element, equal_range both bounds; they read only inside the range and terminate.", "quantifier": "all ranges, values, comparison functions with the documented partition property", "why_tests_cant": "The claim ranges over unboundedly many inputs/histories; a test fixes a handful of sizes and capacities.", "anchors": ["algorithm/c_bsearch.c: algo_lower_bound_by, algo_upper_bound_by, algo_binary_search_by, algo_equal_range_by"]}
{"id": "C46", "title": "merge produces the sorted union of occurrences", "statement": "algo_merge_by of two sorted ranges writes a sorted permutation of both, returns its length.", "quantifier": "all strict weak orders and sorted ranges", "why_tests_cant": "The claim ranges over unboundedly many inputs/histories; a test fixes a handful of sizes and capacities.", "anchors": ["algorithm/c_set_op.c: algo_merge_by"]}
{"id": "C47", "title": "includes decides multiset inclusion", "statement": "includes returns true iff every element of the second sorted range is matched, with multiplicity, in the first.", "quantifier": "all strict weak orders and sorted ranges", "why_tests_cant": "The claim ranges over unboundedly many inputs/histories; a test fixes a handful of sizes and capacities.", "anchors": ["algorithm/c_set_op.c: algo_includes_by"]}
{"id": "C48", "title": "set_intersection has min(m,n) occurrences", "statement": "set_intersection writes, sorted, for every element found m and n times the first min(m,n) from the first range.", "quantifier": "all strict weak orders and sorted ranges", "why_tests_cant": "The claim ranges over unboundedly many inputs/histories; a test fixes a handful of sizes and capacities.", "anchors": ["algorithm/c_set_op.c: algo_set_intersection_by"]}
{"id": "C49", "title": "set_union has max(m,n) occurrences", "statement": "set_union writes, sorted, all m from the first range and then max(n-m,0) of the second.", "quantifier": "all strict weak orders and sorted ranges", "why_tests_cant": "The claim ranges over unboundedly many inputs/histories; a test fixes a handful of sizes and capacities.", "anchors": ["algorithm/c_set_op.c: algo_set_union_by"]}
{"id": "C50", "title": "set_difference has max(m-n,0) occurrences", "statement": "set_difference writes, sorted, every element found m and n times exactly max(m-n,0) times.", "quantifier": "all strict weak orders and sorted ranges", "why_tests_cant": "The claim ranges over unboundedly many inputs/histories; a test fixes a handful of sizes and capacities.", "anchors": ["algorithm/c_set_op.c: algo_set_difference_by"]}
{"id": "C51", "title": "set_symmetric_difference has |m-n| occurrences", "statement": "set_symmetric_difference writes, sorted, every element found m and n times exactly |m-n| times.", "quantifier": "all strict weak orders and sorted ranges", "why_tests_cant": "The claim ranges over unboundedly many inputs/histories; a test fixes a handful of sizes and capacities.", "anchors": ["algorithm/c_set_op.c: algo_set_symmetric_difference_by"]}
{"id": "C52", "title": "min/max selections are extremal", "statement": "max/min return a greatest/smallest of two, max_element/min_element/minmax_element an extremal position of a range, clamp the value forced into [lo,hi].", "quantifier": "all strict weak orders, values, ranges", "why_tests_cant": "The claim ranges over unboundedly many inputs/histories; a test fixes a handful of sizes and capacities.", "anchors": ["algorithm/c_min_max.c: algo_max_by, algo_min_by, algo_max_element_by, algo_min_element_by, algo_minmax_element_by, algo_clamp_by"]}
{"id": "C53", "title": "lexicographical_compare is lexicographic order", "statement": "lexicographical_compare returns true iff the first range is lexicographically less than the second; it is itself a strict order.", "quantifier": "all strict weak orders and ranges", "why_tests_cant": "The claim ranges over unboundedly many inputs/histories; a test fixes a handful of sizes and capacities.", "anchors": ["algorithm/c_min_max.c: algo_lexicographical_compare_by"]}
{"id": "C54", "title": "Stack is last-in first-out", "statement": "Over any of the backends, any history of push/pop/top on a stack returns elements in last-in-first-out order.", "quantifier": "all histories, backends vector, deque, list", "why_tests_cant": "The claim ranges over unboundedly many inputs/histories; a test fixes a handful of sizes and capacities.", "anchors": ["container/c_stack.c: c_stack_push, c_stack_pop, c_stack_top"]}
{"id": "C55", "title": "Queue is first-in first-out", "statement": "Over deque or list backends, any history of push/pop/front/back on a queue returns elements in first-in-first-out order; with a vector backend pop calls a null function pointer.", "quantifier": "all histories and backends", "why_tests_cant": "The claim ranges over unboundedly many inputs/histories; a test fixes a handful of sizes and capacities.", "anchors": ["container/c_queue.c: c_queue_push, c_queue_pop, c_queue_front, c_queue_back"]}
{"id": "C56", "title": "Priority queue pops in priority order", "statement": "Any history of push/pop/top on a priority queue keeps a heap: top() is always a greatest element of what was pushed and not yet popped, and pop removes exactly that one.", "quantifier": "all strict weak orders, histories", "why_tests_cant": "The claim ranges over unboundedly many inputs/histories; a test fixes a handful of sizes and capacities.", "anchors": ["container/c_priority_queue.c: c_priority_queue_push, c_priority_queue_pop, c_priority_queue_top"]}
{"id": "C57", "title": "Swapping priority queues exchanges their behaviour", "statement": "After c_priority_queue_swap(a,b), a behaves exactly as b did before and vice versa, including which element top() returns after further pushes.", "quantifier": "all pairs of priority queues, including different comparators", "why_tests_cant": "The claim ranges over unboundedly many inputs/histories; a test fixes a handful of sizes and capacities.", "anchors": ["container/c_priority_queue.c: c_priority_queue_swap"]}
{"id": "C58", "title": "Pair comparison is lexicographic", "statement": "c_pair_less is the lexicographic strict order on (first, second) and c_pair_equal is component-wise equality.", "quantifier": "all pairs and component orders", "why_tests_cant": "The claim ranges over unboundedly many inputs/histories; a test fixes a handful of sizes and capacities.", "anchors": ["container/c_pair.c: c_pair_less, c_pair_equal"]}
{"id": "C59", "title": "Map behaves as a finite map", "statement": "A map created by the API behaves as a finite map from keys to values under every history of insert, erase_key and find: insert does not overwrite an existing key, find returns the value last inserted for the key.", "quantifier": "all histories, strict weak orders on keys", "why_tests_cant": "The claim ranges over unboundedly many inputs/histories; a test fixes a handful of sizes and capacities.", "anchors": ["container/c_map.c: c_map_insert_value, c_map_erase_key, c_map_find"]}
{"id": "C60", "title": "Multiset and multimap count multiplicities", "statement": "count(k) in a multiset/multimap equals the number of insertions minus removals of keys equivalent to k under every history.", "quantifier": "all histories", "why_tests_cant": "The claim ranges over unboundedly many inputs/histories; a test fixes a handful of sizes and capacities.", "anchors": ["container/c_set.c: c_multiset_insert_value, c_multiset_erase_key, c_multiset_count", "container/c_map.c: c_multimap_insert_value"]}
{"id": "C61", "title": "Vector reserve, copy and assign: exact results", "statement": "reserve(n) with n > capacity appends default elements until size is n (and otherwise changes nothing); copy(v) yields v's elements followed by default elements up to v's capacity; assign(a,b) leaves a empty when a's capacity is at least b's, and otherwise holding b's elements followed by defaults up to b's capacity.  None of them touches memory outside its blocks.", "quantifier": "all vectors (contents and capacities) and all n", "why_tests_cant": "The claim ranges over unboundedly many states and inputs; a test fixes a handful of them.", "anchors": ["container/c_vector.c: c_vector_reserve, c_vector_copy, c_vector_assign"]}
{"id": "C62", "title": "Deque copy and assign: exact results", "statement": "copy(d) yields d's elements followed by defaults up to d's capacity; assign(a,b) with capacity(b) <= capacity(a) leaves a empty when the elements of b fit behind a's (reset) start and overflows a's buffer otherwise; with capacity(b) > capacity(a) it yields b's elements followed by defaults.", "quantifier": "all pairs of deques, all start offsets", "why_tests_cant": "The claim ranges over unboundedly many states and inputs; a test fixes a handful of them.", "anchors": ["container/c_deque.c: c_deque_copy, c_deque_assign, __reserve"]}
{"id": "C63", "title": "Vector and deque removals destroy exactly the removed elements", "statement": "pop_back, pop_front, erase, erase_range, clear, destroy and resize to a smaller size call the element destructor on exactly the elements they remove, each once and in order.", "quantifier": "all vectors and deques, all valid positions", "why_tests_cant": "The claim ranges over unboundedly many states and inputs; a test fixes a handful of them.", "anchors": ["container/c_vector.c: c_vector_pop_back, c_vector_erase, c_vector_erase_range, c_vector_clear, c_vector_destroy", "container/c_deque.c: c_deque_pop_front, c_deque_erase_range, c_deque_clear, c_deque_destroy"]}
{"id": "C64", "title": "Every element of a vector or deque is destroyed exactly once", "statement": "Over any history ended by destroy, the element destructor is called on each element that was added exactly once.", "quantifier": "all finite histories", "why_tests_cant": "The claim ranges over unboundedly many states and inputs; a test fixes a handful of them.", "anchors": ["container/c_vector.c: __reallocate_and_move, c_vector_shrink_to_fit", "container/c_deque.c: __reallocate_and_move, c_deque_shrink_to_fit"]}
{"id": "C65", "title": "An element of a vector or deque may be added to it again", "statement": "push_back(v, at(v,i)), push_front and insert(v, pos, at(v,i)) add a copy of the element the reference denoted at the call.", "quantifier": "all vectors and deques, positions and indices, with and without spare capacity", "why_tests_cant": "The claim ranges over unboundedly many states and inputs; a test fixes a handful of them.", "anchors": ["container/c_vector.c: c_vector_push_back, c_vector_insert_n", "container/c_deque.c: c_deque_push_back, c_deque_push_front"]}
{"id": "C66", "title": "Random access iterator arithmetic", "statement": "For the iterators of a vector or deque block: distinct positions are distinct iterators, less agrees with position order, ++/-- move by one position, advance(n) moves by n for positive and negative n, and distance(first,last) is the number of increments whenever last is not before first; reverse iterators mirror this.  All with 64-bit address, size_t and ptrdiff_t arithmetic.", "quantifier": "all block addresses, element sizes, capacities that fit the address space, all positions and offsets", "why_tests_cant": "The claim ranges over unboundedly many states and inputs; a test fixes a handful of them.", "anchors": ["container/c_vector.c: iter_increment, iter_decrement, iter_advance, iter_distance, iter_less, reverse_iter_*", "container/c_deque.c: the same functions"]}
{"id": "C67", "title": "Iterator distance is signed", "statement": "distance(first,last) = -distance(last,first) for vector and deque iterators, i.e. it is negative when last is before first.", "quantifier": "all blocks, element sizes and positions", "why_tests_cant": "The claim ranges over unboundedly many states and inputs; a test fixes a handful of them.", "anchors": ["container/c_vector.c: iter_distance, reverse_iter_distance", "container/c_deque.c: iter_distance, reverse_iter_distance"]}
{"id": "C68", "title": "List nodes are owned exactly once and never leak", "statement": "After any history over any number of lists, every allocated node belongs to exactly one live list, every element ever created (pushed, inserted, copied, assigned, resized in) is either in a live list or was destroyed exactly once, and once every list has been destroyed nothing remains allocated.", "quantifier": "all histories of all c_list operations over any number of lists, all allocators", "why_tests_cant": "The claim ranges over unboundedly many states and inputs; a test fixes a handful of them.", "anchors": ["container/c_list.c: all functions"]}
{"id": "C69", "title": "A list element may be removed by reference to itself", "statement": "c_list_remove(list, C_DEREF(it)) removes all elements equal to the one it denotes and keeps the others.", "quantifier": "all lists, all elements of the list", "why_tests_cant": "The claim ranges over unboundedly many states and inputs; a test fixes a handful of them.", "anchors": ["container/c_list.c: c_list_remove"]}
{"id": "C70", "title": "What removing a list element by reference to itself does", "statement": "c_list_remove(list, v) with v a reference to an element of the list behaves as specified exactly when that element is the last one of the list; otherwise it reads freed memory.", "quantifier": "all lists, all elements, all reflexive equalities", "why_tests_cant": "The claim ranges over unboundedly many states and inputs; a test fixes a handful of them.", "anchors": ["container/c_list.c: c_list_remove"]}
{"id": "C71", "title": "List sort keeps every iterator valid", "statement": "After sort_by every iterator obtained before, to an element or end(), is still valid and refers to the same element.", "quantifier": "all lists, all strict weak orders", "why_tests_cant": "The claim ranges over unboundedly many states and inputs; a test fixes a handful of them.", "anchors": ["container/c_list.c: c_list_sort_by"]}
{"id": "C72", "title": "What list sort does to end()", "statement": "sort_by on a list with at least two elements gives the list a new end() and frees the node of the old one; on a shorter list end() is unchanged.", "quantifier": "all lists, all strict weak orders, all allocators", "why_tests_cant": "The claim ranges over unboundedly many states and inputs; a test fixes a handful of them.", "anchors": ["container/c_list.c: c_list_sort_by"]}
{"id": "C73", "title": "List iterator arithmetic", "statement": "Distinct positions are distinct iterators; advance(n) moves by n for positive and negative n within the list; ++ and -- are inverse; a reverse iterator dereferences to the preceding element; distance(first,last) is the number of increments, going round through end() when last precedes first; reverse iterators mirror this.", "quantifier": "all lists, positions and offsets", "why_tests_cant": "The claim ranges over unboundedly many states and inputs; a test fixes a handful of them.", "anchors": ["container/c_list.c: iter_advance, iter_distance, iter_increment, iter_decrement, reverse_iter_*"]}
{"id": "C74", "title": "Tree ownership accounting", "statement": "Under every history of tree operations over any number of trees, every element created by an insertion is at the end either held by exactly one tree or has been destroyed exactly once, and the memory in use is exactly the nodes of the live elements, one header per live tree and one header per destroyed tree.", "quantifier": "all histories over any number of trees, all allocators", "why_tests_cant": "Needs every interleaving of insertions, erasures, swaps and destructions; leak checkers only see the runs that are tried.", "anchors": ["container/c_tree.c: __create_node, __destroy_node, __erase, c_tree_erase, c_tree_clear, c_tree_destroy"]}
{"id": "C75", "title": "Destroying all trees returns all memory", "statement": "Once every tree has been destroyed no memory allocated by the tree API is still in use.", "quantifier": "all histories", "why_tests_cant": "Same as C74. (False of the code: c_tree_destroy never frees the header node.)", "anchors": ["container/c_tree.c: c_tree_create, c_tree_destroy"]}
{"id": "C76", "title": "erase_from on a set removes exactly the listed keys", "statement": "On a set or multiset erase_from(keys) removes all and only the elements equivalent to one of the listed keys.", "quantifier": "all reachable trees, all key arrays", "why_tests_cant": "All key arrays, with duplicates and absent keys.", "anchors": ["container/c_tree.c: c_tree_erase_from", "container/c_set.c"]}
{"id": "C77", "title": "erase_from on a map removes exactly the listed keys", "statement": "On a map or multimap erase_from(keys) removes all and only the elements whose key is equivalent to a listed key and reads only the array of keys.", "quantifier": "all reachable maps, all key arrays", "why_tests_cant": "All key arrays. (False of the code: the array is walked with the size of the value type, not of the key type.)", "anchors": ["container/c_tree.c: c_tree_erase_from", "container/c_map.c: c_map_erase_from"]}
{"id": "C78", "title": "What the tree self-check decides", "statement": "On every well-linked tree with the right first and last elements c_tree_rb_verify terminates and returns true exactly when the root is black, no red node has a red child, every child is on the right side of its parent and every childless node has the black depth of the first element.", "quantifier": "all well-linked trees, sorted or not, balanced or not", "why_tests_cant": "The set of trees is infinite and ill-formed ones cannot be built through the API.", "anchors": ["container/c_tree.c: c_tree_rb_verify, __black_count"]}
{"id": "C79", "title": "Tree self-check rejects every ill-formed tree", "statement": "c_tree_rb_verify returns false on every tree that is not sorted or violates the red-black rules.", "quantifier": "all well-linked trees", "why_tests_cant": "Ill-formed trees cannot be enumerated. (False of the code: only parent-child order and the black depth of childless nodes are checked.)", "anchors": ["container/c_tree.c: c_tree_rb_verify"]}
{"id": "C80", "title": "Forward list nodes are owned exactly once and never leak", "statement": "After any history over any number of forward lists, every allocated node belongs to exactly one live list (two nodes per list plus one per element), every element ever created is either in a live list or was destroyed exactly once, and destroying all lists returns all memory.", "quantifier": "all histories over any number of forward lists", "why_tests_cant": "It must hold for every list, position and history; a test fixes a few.", "anchors": ["container/c_forward_list.c: c_slist_create, c_slist_destroy, c_slist_clear, __pop_node_after, c_slist_sort_by"]}
{"id": "C81", "title": "Forward list modifications keep iterators to other elements valid", "statement": "After insert_after, erase_after, splice_after, merge, reverse or remove_if on a forward list, each iterator to an element that was not erased still refers to the same element; spliced and merged iterators follow their elements.", "quantifier": "all forward lists, positions and other elements", "why_tests_cant": "It must hold for every list, position and history; a test fixes a few.", "anchors": ["container/c_forward_list.c: c_slist_insert_after, c_slist_erase_after, __transfer, c_slist_merge_by, c_slist_reverse, c_slist_remove_if"]}
{"id": "C82", "title": "Forward list iterator arithmetic", "statement": "Distinct positions are distinct iterators; advance(n) moves forward by n for n >= 0 and not at all for n < 0; distance(first,last) is the number of steps when last is reachable; before_begin advanced size+1 times is end.", "quantifier": "all forward lists, positions and offsets", "why_tests_cant": "It must hold for every list, position and history; a test fixes a few.", "anchors": ["container/c_forward_list.c: iter_advance, iter_distance, c_slist_before_begin, c_slist_end"]}
{"id": "C83", "title": "A forward list element may be removed by reference to itself", "statement": "c_slist_remove(list, C_DEREF(it)) removes all elements equal to the referenced one, like any other value.", "quantifier": "all forward lists and elements", "why_tests_cant": "It must hold for every list, position and history; a test fixes a few.", "anchors": ["container/c_forward_list.c: c_slist_remove"]}
{"id": "C84", "title": "What removing a forward list element by reference to itself does", "statement": "c_slist_remove with a reference to an element of the list itself works when that element is the last, and otherwise reads the destroyed element.", "quantifier": "all forward lists and elements, all equality functions reflexive on the element", "why_tests_cant": "It must hold for every list, position and history; a test fixes a few.", "anchors": ["container/c_forward_list.c: c_slist_remove"]}
{"id": "C85", "title": "Forward list sort keeps every iterator valid", "statement": "After sort_by every iterator obtained before, to an element, before_begin() or end(), is still valid.", "quantifier": "all forward lists, strict weak orders", "why_tests_cant": "It must hold for every list, position and history; a test fixes a few.", "anchors": ["container/c_forward_list.c: c_slist_sort_by"]}
{"id": "C86", "title": "What forward list sort does to before_begin() and end()", "statement": "sort_by on a list with at least two elements gives the list new before_begin() and end() nodes and frees the old ones; shorter lists are untouched.", "quantifier": "all forward lists, strict weak orders", "why_tests_cant": "It must hold for every list, position and history; a test fixes a few.", "anchors": ["container/c_forward_list.c: c_slist_sort_by, c_slist_swap"]}
{"id": "C87", "title": "Forward list merge of unsorted lists loses nothing", "statement": "merge_by of any two forward lists, sorted or not, moves every element of other into self without copying or destroying any; the resulting order is that of inserting other's elements one by one before the first remaining element they are less than, each being compared first with the one inserted before it.", "quantifier": "all pairs of forward lists, all comparison functions", "why_tests_cant": "It must hold for every list, position and history; a test fixes a few.", "anchors": ["container/c_forward_list.c: c_slist_merge_by"]}
{"id": "C88", "title": "Erasing an empty range of a forward list erases nothing", "statement": "erase_after_range on an empty range returns without erasing anything, whether the empty range is written (first, next(first)) or (first, first).", "quantifier": "all forward lists and positions", "why_tests_cant": "It must hold for every list, position and history; a test fixes a few.", "anchors": ["container/c_forward_list.c: c_slist_erase_after_range"]}
{"id": "C89", "title": "What erase_after_range(first, first) does", "statement": "erase_after_range(first, first) erases every element after first and then never returns.", "quantifier": "all forward lists and positions", "why_tests_cant": "It must hold for every list, position and history; a test fixes a few.", "anchors": ["container/c_forward_list.c: c_slist_erase_after_range"]}
{"id": "C90", "title": "Adapters free what they allocate", "statement": "When every stack (queue) a client created has been destroyed, every list node allocated by their backends has been freed.", "quantifier": "all histories of stacks and queues over vector, deque and list backends, all allocators", "why_tests_cant": "It must hold after every history of calls; a test fixes one.", "anchors": ["container/c_stack.c: c_stack_create, c_stack_destroy", "container/c_queue.c: c_queue_create, c_queue_destroy", "container/c_list.c: c_list_create_backend, backend_destroy"]}
{"id": "C91", "title": "Swapping adapters exchanges them", "statement": "c_stack_swap and c_queue_swap exchange the contents of any two adapters, whatever containers they are built on.", "quantifier": "all reachable pairs of adapters", "why_tests_cant": "It ranges over all pairs of backends and contents.", "anchors": ["container/c_stack.c: c_stack_swap", "container/c_queue.c: c_queue_swap"]}
{"id": "C92", "title": "Pushing a stack's own top pushes a copy", "statement": "c_stack_push(s, c_stack_top(s)) pushes a copy of the top element.", "quantifier": "all reachable stacks over all backends", "why_tests_cant": "Whether the block reallocates depends on the whole history.", "anchors": ["container/c_stack.c: c_stack_push, c_stack_top", "container/c_vector.c: c_vector_push_back", "container/c_deque.c: c_deque_push_back"]}
{"id": "C93", "title": "A priority queue over a list is unusable", "statement": "A priority queue created over a list backend can never be pushed to or popped: the heap algorithms assert a random access iterator.", "quantifier": "all heaps, comparators and values", "why_tests_cant": "It must hold in every state of memory.", "anchors": ["container/c_priority_queue.c: c_priority_queue_push, c_priority_queue_pop"]}
{"id": "C94", "title": "Priority queues lose nothing whatever the comparator", "statement": "For any comparators, even inconsistent ones, and any swaps between queues over the same kind of container, every call returns, push adds exactly the value pushed, pop removes exactly the element top() showed and swap exchanges the elements.", "quantifier": "all comparators, all histories", "why_tests_cant": "It must hold after every history of calls; a test fixes one.", "anchors": ["container/c_priority_queue.c: c_priority_queue_push, c_priority_queue_pop, c_priority_queue_swap", "algorithm/c_heap.c: algo_push_heap_by, algo_pop_heap_by"]}
{"id": "C95", "title": "Heap algorithms are safe for any comparator", "statement": "make_heap, push_heap, pop_heap and sort_heap terminate, stay inside the range and only permute it, for any comparison function (not only strict weak orders) and any contents (not only heaps); pop_heap moves the first element to the end.", "quantifier": "all functions as comparators, all ranges", "why_tests_cant": "Comparators and contents are unboundedly many.", "anchors": ["algorithm/c_heap.c: algo_make_heap_by, algo_push_heap_by, algo_pop_heap_by, algo_sort_heap_by"]}
{"id": "C96", "title": "Sort is safe for any comparator", "statement": "algo_sort_by terminates, stays inside the range and only permutes it for any comparison function, not only strict weak orders.", "quantifier": "all functions as comparators, all ranges", "why_tests_cant": "Comparators and contents are unboundedly many.", "anchors": ["algorithm/c_sorting.c: algo_sort_by"]}
{"id": "C97", "title": "Merge and set operations are safe for any input", "statement": "For any comparison function and any ranges, sorted or not, merge writes an interleaving of its two inputs (each element exactly once, each input in its order), set_union and set_symmetric_difference write only elements of the inputs, none more often than it occurs, set_intersection and set_difference write a subsequence of the first range, and includes returns; nothing else in memory changes.", "quantifier": "all functions as comparators, all ranges and non-overlapping destinations", "why_tests_cant": "Comparators and contents are unboundedly many.", "anchors": ["algorithm/c_set_op.c: algo_merge_by, algo_set_union_by, algo_set_symmetric_difference_by, algo_set_intersection_by, algo_set_difference_by, algo_includes_by"]}
{"id": "C98", "title": "Pairs are values", "statement": "Copying a pair gives a new pair with equal components in memory of its own; under every history of creating, copying, assigning, changing and destroying pairs no two pairs share a component, each reads as if pairs were plain values, and no component leaks. (Blocks handed to create and copy are zeroed.)", "quantifier": "all histories over any number of pairs, all component types", "why_tests_cant": "Histories, orders and memory states are unboundedly many.", "anchors": ["container/c_pair.c: c_pair_create, c_pair_copy, c_pair_assign, c_pair_destroy, c_make_pair"]}
{"id": "C99", "title": "What memory a pair can be copied into", "statement": "Copy-constructing a pair succeeds exactly if the destination block holds null component pointers and aborts otherwise; the block of a destroyed pair, reused unchanged, always makes the next copy into it abort.", "quantifier": "all blocks, pairs and memory states", "why_tests_cant": "Histories, orders and memory states are unboundedly many.", "anchors": ["container/c_pair.c: c_pair_copy, c_pair_destroy"]}
{"id": "C100", "title": "Set behaves as a finite set", "statement": "A set created by the API behaves as a finite set of keys under every history of insertions (plain, hinted, bulk), erasures by key and by position, clear, swap and destroy: iteration is sorted and lists each key once, and count, find, size, empty and erase_key agree with the contents.", "quantifier": "all histories over any number of sets, strict weak orders on keys", "why_tests_cant": "Histories, orders and memory states are unboundedly many.", "anchors": ["container/c_set.c: c_set_*"]}
{"id": "C101", "title": "Multiset behaves as a finite multiset", "statement": "A multiset created by the API behaves as a finite multiset under every history of insertions (plain, bulk), erasures by key, clear, swap and destroy: iteration is sorted and lists equivalent keys in insertion order, and count, find, size, empty and erase_key agree with the contents.", "quantifier": "all histories over any number of multisets, strict weak orders on keys", "why_tests_cant": "Histories, orders and memory states are unboundedly many.", "anchors": ["container/c_set.c: c_multiset_*"]}
{"id": "C102", "title": "Out of memory while copying a pair", "statement": "If the second component cannot be allocated, a pair copy leaks nothing, but the pair left behind refers to the already released first component, so destroying it is a double free.", "quantifier": "all memory states, pairs and allocators", "why_tests_cant": "Histories, orders and memory states are unboundedly many.", "anchors": ["container/c_pair.c: c_pair_copy, c_pair_destroy"]}
{"id": "C103", "title": "Built-in integer types: create, copy, assign, compare", "statement": "For every built-in integer element type, the type-info operations behave like the C operators on values of that type: create yields zero, copy and assign reproduce the value, less is the numeric order of the type (a strict total order) and equal is numeric equality.", "quantifier": "all values of every integer width and signedness", "why_tests_cant": "2^64 values per type, and order laws quantify over triples", "anchors": ["prime/c_prime_internal.h: __C_TYPE_OPERATIONS", "prime/c_primes.c: integer types"]}
{"id": "C104", "title": "Built-in floating point types give usable orders", "statement": "For float and double elements, less is a strict weak order and equal an equivalence, so that sorting and tree containers may be used with them.", "quantifier": "all pairs/triples of floating point values including NaN, infinities and zeros", "why_tests_cant": "order laws quantify over triples of 2^64 values; the failing triples involve NaN", "anchors": ["prime/c_prime_internal.h: __C_TYPE_OPERATIONS", "prime/c_primes.c: float, double"]}
{"id": "C105", "title": "Binary search and heap operations take logarithmically many steps", "statement": "lower_bound/upper_bound on a range of n elements make at most log2(n)+2 loop iterations, and push_heap, pop_heap and each percolate-down of make_heap make at most log2(n)+2, whatever the contents and even if the comparator is not an order.", "quantifier": "all ranges, contents, comparators", "why_tests_cant": "termination and step bounds for every length and every (even inconsistent) comparator", "anchors": ["algorithm/c_bsearch.c: algo_lower_bound_by, algo_upper_bound_by", "algorithm/c_heap.c: algo_push_heap_by, algo_pop_heap_by, __percolate_down"]}
{"id": "C106", "title": "Vectors and deques survive failed growth", "statement": "When malloc returns null while a vector or deque grows (push, insert, insert_n, resize, reserve), the operation has no effect and the container stays valid: after any history it holds exactly the sequence given by the operations that were not dropped, an operation is dropped only if malloc failed during it and it needed more room than the capacity, and a failed vector insert returns end().", "quantifier": "all histories and all patterns of malloc failures, all element values", "why_tests_cant": "which malloc fails, and in which state of which container, is outside the tests' control; every pattern of failures in every history must be covered", "anchors": ["container/c_vector.c: __reallocate_and_move, c_vector_insert_n, c_vector_resize_with_value, c_vector_reserve, c_vector_push_back", "container/c_deque.c: __reallocate_and_move, c_deque_insert_n, c_deque_push_front, c_deque_push_back"]}
{"id": "C107", "title": "Copying, creating and assigning vectors and deques out of memory is safe", "statement": "When memory runs out while a vector or deque is copied, created from an array or with n elements, or assigned, the call returns null or leaves valid containers: it never accesses memory it does not own.", "quantifier": "all sources and targets, all patterns of malloc failures", "why_tests_cant": "which malloc fails, and in which state of which container, is outside the tests' control; every pattern of failures in every history must be covered", "anchors": ["container/c_vector.c: c_vector_copy, c_vector_create_from_array, c_vector_create_n, c_vector_assign", "container/c_deque.c: c_deque_copy, c_deque_create_from, c_deque_assign"]}
{"id": "C108", "title": "Lists survive running out of memory", "statement": "Whatever calls of malloc fail in a history over any number of lists, every list stays well-formed: an element that could not be allocated is missing, a list that could not be created is null, insert returns the position it was given, sort without memory for its temporaries leaves the list and its iterators as they were, nothing is leaked and nothing destroyed twice; if no call fails, everything is done.", "quantifier": "all histories over any number of lists and all patterns of malloc failures", "why_tests_cant": "which malloc fails, and in which state of which container, is outside the tests' control; every pattern of failures in every history must be covered", "anchors": ["container/c_list.c: __create_node, c_list_create, c_list_insert, c_list_push_back, c_list_push_front, c_list_resize_with_value, c_list_copy, c_list_assign, c_list_sort_by"]}
{"id": "C109", "title": "Forward lists survive running out of memory", "statement": "Whatever calls of malloc fail in a history over any number of forward lists, every list stays well-formed: an element that could not be allocated is missing, a list that could not be created is null (also if only some of its three blocks could be had), insert_after returns the position it was given, sort without memory for its temporaries leaves the list and its iterators as they were, nothing is leaked and nothing destroyed twice; if no call fails, everything is done.", "quantifier": "all histories over any number of forward lists and all patterns of malloc failures", "why_tests_cant": "which malloc fails, and in which state of which container, is outside the tests' control; every pattern of failures in every history must be covered", "anchors": ["container/c_forward_list.c: __create_node, c_slist_create, c_slist_insert_after, c_slist_push_front, c_slist_resize_with_value, c_slist_copy, c_slist_assign, c_slist_sort_by"]}
{"id": "C110", "title": "Sets and maps survive running out of memory", "statement": "Whatever calls of malloc fail in a history over any number of search trees (the sets and maps), every tree stays a sorted red-black tree that holds the elements whose insertion found memory; an insertion that finds none changes neither tree nor memory and returns an iterator with a null node; a tree that could not be created is null and nothing of it is kept.", "quantifier": "all histories over any number of trees and all patterns of malloc failures", "why_tests_cant": "which malloc fails, and in which state of which container, is outside the tests' control; every pattern of failures in every history must be covered", "anchors": ["container/c_tree.c: __create_node, __insert, c_tree_create, c_tree_insert_unique_value, c_tree_insert_unique, c_tree_insert_equal_value, c_tree_insert_equal, c_tree_insert_unique_range, c_tree_insert_equal_range"]}
{"id": "C111", "title": "Bounds, ranges and reverse iteration of sets and maps", "statement": "After any completed history of a client's sets, multisets, maps or multimaps (including erasing ranges delimited by lower_bound, upper_bound and equal_range, inserting from and erasing the keys of an array, and hinted insertion), rbegin..rend lists the elements of begin..end backwards, and for every key k the positions lower_bound(k) and upper_bound(k), which equal_range(k) returns too, cut the sequence into the elements with a smaller key, exactly those with an equivalent key in their order of insertion (an element inserted with the hint lower_bound(k) comes first), and those with a greater key; erasing a range removes exactly the elements in it.", "quantifier": "all histories over any number of containers of each kind, all strict weak orders, all keys", "why_tests_cant": "positions depend on the whole shape of the tree the history built; tests look at a few keys of a few trees", "anchors": ["container/c_set.c: c_set_lower_bound, c_set_upper_bound, c_set_equal_range, c_set_erase_range, c_set_erase_from, c_set_insert_from, c_set_rbegin, c_set_rend, c_multiset_lower_bound, c_multiset_upper_bound, c_multiset_equal_range", "container/c_map.c: c_map_lower_bound, c_map_upper_bound, c_map_equal_range, c_map_erase_range, c_map_insert_from, c_multimap_lower_bound, c_multimap_upper_bound, c_multimap_equal_range", "container/c_tree.c: c_tree_lower_bound, c_tree_upper_bound, c_tree_equal_range, c_tree_erase_range, c_tree_insert_unique_from, c_tree_insert_equal_from"]}
{"id": "C112", "title": "Questions about a range, asked through iterators of any container", "statement": "algo_all_of, algo_any_of, algo_none_of, algo_count_if and algo_count, called with two iterators that delimit a range of any container (forward or reverse), return the right answer about the elements of the range; the call changes no container, leaves the caller's iterators where they were and frees every iterator copy it makes, even if both arguments are the same iterator object.", "quantifier": "all memories with any number of lists, forward lists, vectors, deques, sets and maps; all containers and directions; all ranges; all callbacks", "why_tests_cant": "a wrong move of a shadow copy, a missed free or a changed caller iterator shows only for some container, category, position or aliasing of the arguments; tests run one container and one range", "anchors": ["algorithm/c_non_modifying.c: algo_all_of, algo_any_of, algo_none_of, algo_count_if, algo_count", "include/c_internal.h: __C_ALGO_BEGIN_2, __C_ALGO_END_2", "include/c_def.h: C_ITER_COPY, C_ITER_INC, C_ITER_DEREF, C_ITER_NE"]}
{"id": "C113", "title": "Searches through iterators of any container, with their out parameter", "statement": "algo_find_if, algo_find_if_not, algo_find_by, algo_find_first_of_by, algo_find_last_of_by, algo_adjacent_find_by, algo_search_by, algo_search_last_by, algo_search_n_by and algo_search_last_n_by return whether there is a match, and leave the position of the first (last) match, or the end of the range, in the out parameter: nothing when it is null, a newly allocated iterator when the variable is null, the given iterator object when it is not (even if that object is one of the arguments of the call). Containers and all other iterator objects are untouched and every copy is freed. The two ranges may be in different kinds of containers.", "quantifier": "all memories with any number of lists, forward lists, vectors, deques, sets and maps; all containers and directions; all ranges; all callbacks; all uses of the out parameter", "why_tests_cant": "a wrong move of a shadow copy, a missed free or a changed caller iterator shows only for some container, category, position or aliasing of the arguments; tests run one container and one range", "anchors": ["algorithm/c_non_modifying.c: algo_find_if, algo_find_if_not, algo_find_by, algo_find_first_of_by, algo_find_last_of_by, algo_adjacent_find_by, algo_search_by, algo_search_last_by, algo_search_n_by, algo_search_last_n_by", "include/c_internal.h: __c_iter_copy_or_assign, __C_ALGO_BEGIN_4"]}
{"id": "C114", "title": "Comparing two ranges through iterators", "statement": "algo_equal_by and algo_mismatch_by on a range of one container and a position of another (or the same) container with enough elements after it give the right answer; mismatch leaves both positions of the first mismatch (or the ends) in its out parameters, and nothing else changes.", "quantifier": "all memories with any number of lists, forward lists, vectors, deques, sets and maps; all containers and directions; all ranges; all callbacks; all uses of both out parameters, even the same iterator object for both", "why_tests_cant": "a wrong move of a shadow copy, a missed free or a changed caller iterator shows only for some container, category, position or aliasing of the arguments; tests run one container and one range", "anchors": ["algorithm/c_non_modifying.c: algo_equal_by, algo_mismatch_by"]}
{"id": "C115", "title": "Visiting elements through iterators", "statement": "algo_for_each calls the function on each element of the range once, in order, and returns their number; algo_for_each_n does it for n elements and leaves the position after them in its out parameter. Elements changed by the function keep their positions, other elements and all other containers are unchanged, and every iterator copy is freed.", "quantifier": "all memories with any number of lists, forward lists, vectors, deques, sets and maps; all containers and directions; all ranges; all callbacks; functions with a state that may change the element (not for sets and maps)", "why_tests_cant": "a wrong move of a shadow copy, a missed free or a changed caller iterator shows only for some container, category, position or aliasing of the arguments; tests run one container and one range", "anchors": ["algorithm/c_non_modifying.c: algo_for_each, algo_for_each_n"]}
{"id": "C116", "title": "Copying between containers through iterators", "statement": "algo_copy, algo_copy_if, algo_copy_backward, algo_remove_copy(_if), algo_replace_copy(_if), algo_transform, algo_reverse_copy, algo_rotate_copy and (with a non-null out parameter) algo_unique_copy_by write exactly the specified elements of a range of any container over the elements at a position of any mutable container, return their number and leave the end of what was written in the out parameter (null, null variable or any iterator object of that kind). Both ranges may lie in the same container and overlap in the direction the function supports. Nothing else in memory changes, the caller's other iterators keep their positions and every copy is freed.", "quantifier": "all memories with any number of lists, forward lists, vectors, deques, sets and maps; all containers and directions; all ranges; all callbacks; all destinations with enough room; all uses of the out parameter", "why_tests_cant": "a wrong move of a shadow copy, a missed free or a changed caller iterator shows only for some container, category, position, overlap or aliasing of the arguments; tests run one container and one range", "anchors": ["algorithm/c_modifying.c: algo_copy, algo_copy_if, algo_copy_backward, algo_remove_copy, algo_remove_copy_if, algo_replace_copy, algo_replace_copy_if, algo_transform, algo_reverse_copy, algo_rotate_copy, algo_unique_copy_by", "include/c_def.h: C_ITER_DEREF_ASSIGN"]}
{"id": "C117", "title": "Filling, replacing and removing through iterators", "statement": "algo_fill(_n), algo_generate(_n), algo_replace(_if), algo_remove(_if) and algo_unique_by, called on a range of any mutable container, change exactly the elements the English description says: filled or generated elements in order, replaced matches, kept elements moved to the front with the new end left in the out parameter; they return the right count. Nothing else in memory changes, other iterators keep their positions and every copy is freed.", "quantifier": "all memories with any number of lists, forward lists, vectors, deques, sets and maps; all containers and directions; all ranges; all callbacks; all generators as state transformers; all uses of the out parameter", "why_tests_cant": "a wrong move of a shadow copy, a missed free or a changed caller iterator shows only for some container, category, position, overlap or aliasing of the arguments; tests run one container and one range", "anchors": ["algorithm/c_modifying.c: algo_fill, algo_fill_n, algo_generate, algo_generate_n, algo_replace, algo_replace_if, algo_remove, algo_remove_if, algo_unique_by"]}
{"id": "C118", "title": "Reversing, rotating, shuffling and swapping through iterators", "statement": "algo_reverse (bidirectional containers), algo_rotate (any mutable container), algo_random_shuffle_by (vectors and deques, any random function within its bound), algo_swap_range and algo_iter_swap (within one container or between two different ones, of any kinds) leave exactly the reversed, rotated, permuted or exchanged elements; rotate leaves the new position of the first element in its out parameter; nothing else changes and every iterator copy is freed.", "quantifier": "all memories with any number of lists, forward lists, vectors, deques, sets and maps; all containers and directions; all ranges; all callbacks; all random functions within bounds; all uses of the out parameter", "why_tests_cant": "a wrong move of a shadow copy, a missed free or a changed caller iterator shows only for some container, category, position, overlap or aliasing of the arguments; tests run one container and one range", "anchors": ["algorithm/c_modifying.c: algo_reverse, algo_rotate, algo_random_shuffle_by, algo_swap_range, algo_iter_swap, algo_swap"]}
{"id": "C119", "title": "Partitioning through iterators", "statement": "algo_is_partitioned, algo_partition_point, algo_partition and algo_partition_copy, called on iterators of any container (mutable where written), answer whether a boundary exists, find the first element failing the predicate, move the satisfying elements in order to the front (the others follow in some order, none lost) and leave the boundary in the out parameter, or copy the two parts in order to two destinations in one or two other containers. Nothing else in memory changes, other iterators keep their positions and every copy is freed.", "quantifier": "all memories with any number of lists, forward lists, vectors, deques, sets and maps; all containers and directions; all ranges; all callbacks; all destinations with room; all uses of the out parameters", "why_tests_cant": "a wrong move of a shadow copy, a missed free or a changed caller iterator shows only for some container, category, position, overlap or aliasing of the arguments; tests run one container and one range", "anchors": ["algorithm/c_partition.c: algo_is_partitioned, algo_partition, algo_partition_copy, algo_partition_point"]}
{"id": "C120", "title": "Binary search through iterators", "statement": "algo_lower_bound_by, algo_upper_bound_by, algo_equal_range_by and algo_binary_search_by, called on any range of any container that is partitioned by the value (every sorted range is), store the exact boundaries through their out parameters or answer exactly whether an equivalent element exists; on any other range they still stay inside it and change nothing. Given a null out parameter algo_equal_range_by and algo_minmax_element_by do nothing at all. No element is changed and every iterator copy is freed.", "quantifier": "all memories with any number of lists, forward lists, vectors, deques, sets and maps; all containers and directions; all ranges; all callbacks; all values; all comparators; all uses of the out parameters", "why_tests_cant": "a wrong move of a shadow copy, a missed free or a changed caller iterator shows only for some container, category, position, overlap or aliasing of the arguments; tests run one container and one range", "anchors": ["algorithm/c_binary_search.c: algo_lower_bound_by, algo_upper_bound_by, algo_equal_range_by, algo_binary_search_by", "algorithm/c_min_max.c: algo_minmax_element_by"]}
{"id": "C121", "title": "Extreme elements, sortedness, lexicographical order and inclusion through iterators", "statement": "On iterators of any containers algo_min_element_by, algo_max_element_by and algo_minmax_element_by store the position of a least and a greatest element (the start on an empty range); algo_is_sorted_by answers exactly whether the range is sorted; algo_is_sorted_until_by stores last on a sorted range and otherwise the position of the last element of the longest sorted prefix; algo_lexicographical_compare_by and algo_includes_by answer exactly for two ranges of the same or different containers. No element and no other iterator is changed and every copy is freed.", "quantifier": "all memories with any number of lists, forward lists, vectors, deques, sets and maps; all containers and directions; all ranges; all callbacks; all strict weak orders (any comparator for lexicographical comparison); all uses of the out parameters", "why_tests_cant": "a wrong move of a shadow copy, a missed free or a changed caller iterator shows only for some container, category, position, overlap or aliasing of the arguments; tests run one container and one range", "anchors": ["algorithm/c_min_max.c: algo_min_element_by, algo_max_element_by, algo_minmax_element_by, algo_lexicographical_compare_by", "algorithm/c_sorting.c: algo_is_sorted_by, algo_is_sorted_until_by", "algorithm/c_set_op.c: algo_includes_by"]}
{"id": "C122", "title": "Merging and set operations through iterators", "statement": "algo_merge_by, algo_set_union_by, algo_set_intersection_by and algo_set_symmetric_difference_by, called on two sorted ranges of the same or different containers and a destination in any mutable container with room, write exactly the sorted sequence with the right elements of each equivalence class from the right range in the right order, return its length and leave its end in the out parameter. algo_set_difference_by writes a sorted subsequence of the first range, which is the difference when no element below one of the first range occurs more often in the second. Nothing else changes and every iterator copy is freed.", "quantifier": "all memories with any number of lists, forward lists, vectors, deques, sets and maps; all containers and directions; all ranges; all callbacks; all pairs of sorted ranges, strict weak orders and destinations that do not overlap the sources; all uses of the out parameter", "why_tests_cant": "a wrong move of a shadow copy, a missed free or a changed caller iterator shows only for some container, category, position, overlap or aliasing of the arguments; tests run one container and one range", "anchors": ["algorithm/c_set_op.c: algo_merge_by, algo_set_union_by, algo_set_intersection_by, algo_set_difference_by, algo_set_symmetric_difference_by"]}
{"id": "C123", "title": "Heap operations through iterators", "statement": "On iterators of any vector or deque, algo_push_heap_by turns a heap followed by one element into a heap, algo_pop_heap_by moves a greatest element to the end and leaves a heap before it, algo_sort_heap_by leaves the heap's elements sorted, algo_is_heap_by answers exactly whether the range is a heap, and algo_is_heap_until_by stores the position of the first parent smaller than one of its children, or last. The elements are permuted, nothing outside the range changes, no iterator leaves the block of the container, the caller's iterators keep their positions and every copy is freed.", "quantifier": "all memories with any number of containers; all vectors and deques, read in either direction; all ranges; all strict weak orders (any comparator for the two questions); all uses of the out parameter", "why_tests_cant": "a wrong child index, a move outside the range, a missed free or a changed caller iterator shows only for some lengths, contents and positions; tests run a few vectors", "anchors": ["algorithm/c_heap.c: algo_push_heap_by, algo_pop_heap_by, algo_sort_heap_by, algo_is_heap_by, algo_is_heap_until_by"]}
{"id": "C124", "title": "make_heap through iterators", "statement": "On iterators of any vector or deque algo_make_heap_by permutes the range into a heap, changes nothing outside it, never moves an iterator outside the block of the container, leaves the caller's iterators in place and frees every copy.", "quantifier": "all memories with any number of containers; all vectors and deques, read in either direction; all ranges; all strict weak orders", "why_tests_cant": "a wrong child index, a move outside the range, a missed free or a changed caller iterator shows only for some lengths, contents and positions; tests run a few vectors", "anchors": ["algorithm/c_heap.c: algo_make_heap_by, __heapify, __percolate_down"]}
{"id": "C125", "title": "sort through iterators, up to the insertion-sort threshold", "statement": "On iterators of any vector or deque algo_sort_by rearranges a range of at most 512 elements into sorted order, keeping the order of equivalent elements, changes nothing outside it, never moves an iterator outside the block, leaves the caller's iterators in place and frees every copy.", "quantifier": "all memories with any number of containers; all vectors and deques, read in either direction; all ranges; all strict weak orders of at most 512 elements", "why_tests_cant": "a wrong child index, a move outside the range, a missed free or a changed caller iterator shows only for some lengths, contents and positions; tests run a few vectors", "anchors": ["algorithm/c_sorting.c: algo_sort_by, __introspective_sort_by, __final_insertion_sort_by, __insertion_sort_by, __linear_sort_by, __unguarded_linear_sort_by"]}
{"id": "C126", "title": "sort and partial sort through iterators, any length", "statement": "On iterators of vectors and deques of any length algo_sort_by leaves a sorted permutation of the range; algo_partial_sort_by puts the smallest elements, sorted, before middle and the others after it; algo_partial_sort_copy_by writes the smallest elements of a range of any container, sorted, to the destination, returns their number and leaves their end in the out parameter. Nothing else changes, no iterator leaves its block, the caller's iterators keep their positions and every copy is freed.", "quantifier": "all memories with any number of containers; all vectors and deques, read in either direction; all ranges; all strict weak orders; all middles; all destinations that do not overlap the source; all uses of the out parameter", "why_tests_cant": "a wrong child index, a move outside the range, a missed free or a changed caller iterator shows only for some lengths, contents and positions; tests run a few vectors", "anchors": ["algorithm/c_sorting.c: algo_sort_by, algo_partial_sort_by, algo_partial_sort_copy_by, __partition_by, __introspective_sort_by"]}
{"id": "C127", "title": "A vector's memory and reallocation cost are bounded by its largest size", "statement": "After any history of operations from an empty vector the capacity is at most twice the largest number of elements it ever held. Without shrink_to_fit, all reallocations together move at most twice that number of elements, and there are at most 1 + log2 of twice that number of reallocations (growth is amortised constant per element).", "quantifier": "all histories of vector operations, all element types; all bounds on the size", "why_tests_cant": "capacity depends on the whole history; tests look at sizes and contents of short histories and never at how the block grows over a long life", "anchors": ["container/c_vector.c: c_vector_push_back, c_vector_insert, c_vector_resize_with_value, c_vector_shrink_to_fit, __reallocate_and_move"]}
{"id": "C128", "title": "A deque's memory is bounded by its largest size", "statement": "After any history of operations from an empty deque the capacity is at most a constant times the largest number of elements it ever held; so is the memory of a queue over a deque.", "quantifier": "all histories of deque operations, all element types; all bounds on the size", "why_tests_cant": "capacity depends on the whole history; tests look at sizes and contents of short histories and never at how the block grows over a long life", "anchors": ["container/c_deque.c: c_deque_push_back, c_deque_push_front, c_deque_pop_back, c_deque_pop_front, __reallocate_and_move", "container/c_queue.c: c_queue_push, c_queue_pop"]}
{"id": "C129", "title": "Growing a vector or deque by any count is safe", "statement": "Growing a vector or a deque to, or by, any count a size_t can hold is safe: the call takes effect, or malloc fails and the container is unchanged; it never writes outside the block it got.", "quantifier": "all vectors and deques, all counts below 2^64, all element sizes, all outcomes of malloc", "why_tests_cant": "the offending counts exceed what a test machine can allocate if the arithmetic is right; tests use small counts only", "anchors": ["container/c_vector.c: c_vector_resize_with_value, c_vector_insert, c_vector_push_back, __reallocate_and_move", "container/c_deque.c: c_deque_resize_with_value, c_deque_insert_n, c_deque_push_back, c_deque_push_front, __reallocate_and_move, __insert_aux"]}
{"id": "C130", "title": "insert_range inserts the elements of any range", "statement": "Inserting the range [first, last) of any container into a vector or a deque inserts its elements in order in front of the given position, and returns the position after them; if malloc fails on the way, the elements before are inserted and end() is returned; with an invalid position nothing changes.", "quantifier": "all vectors, deques, positions, source containers and ranges, all outcomes of malloc", "why_tests_cant": "ranges range over all containers and positions; the tests never call these functions", "anchors": ["container/c_vector.c: c_vector_insert_range", "container/c_deque.c: c_deque_insert_range", "include/c_def.h: c_iterator_t"]}
{"id": "C131", "title": "Sorting a list loses nothing, whatever the comparator", "statement": "Sorting a list or forward list with any comparator, also one that is not an order (less-or-equal, cyclic, constant), terminates, and the result is a well-formed list made of the same nodes with the same elements; no element is copied, freed or duplicated, and no memory outside the list changes.", "quantifier": "all lists, forward lists, comparators and outcomes of malloc that do not fail", "why_tests_cant": "a comparator is an arbitrary function; tests use a few well-behaved ones", "anchors": ["container/c_list.c: c_list_sort_by, c_list_sort, c_list_merge_by", "container/c_forward_list.c: c_slist_sort_by, c_slist_sort, c_slist_merge_by"]}
{"id": "C132", "title": "Sets and maps lose nothing, whatever the comparator", "statement": "A tree (and so a set or map) whose comparator is not an order may hold its elements in an unspecified order, but every call returns, no element is lost, duplicated or leaked, size() and both directions of iteration agree, and the tree stays a well-formed red-black tree.", "quantifier": "all comparators, all histories of calls on a tree", "why_tests_cant": "a comparator is an arbitrary function and the damage shows only after a particular history; tests use a few well-behaved ones", "anchors": ["container/c_tree.c: c_tree_insert_unique_value, c_tree_insert_unique, c_tree_insert_equal_value, c_tree_insert_equal, c_tree_erase, c_tree_erase_key, c_tree_erase_range, c_tree_clear, c_tree_find, c_tree_count, c_tree_lower_bound, c_tree_upper_bound"]}
{"id": "C133", "title": "Algorithms survive running out of memory", "statement": "An algorithm called when malloc fails returns normally and leaves the caller's containers and iterators intact (it may report failure or do nothing).", "quantifier": "all algorithms, all containers, all arguments, all patterns of failing allocations", "why_tests_cant": "which of the many small allocations inside an algorithm fails is up to the system; tests never make malloc fail", "anchors": ["include/c_internal.h: __C_ALGO_BEGIN_2, __C_ALGO_END_2, __c_iter_copy_or_assign, __c_iter_copy_and_move", "algorithm/*.c: every function that takes iterators", "container/c_vector.c: iter_alloc_and_copy", "container/c_list.c: iter_alloc_and_copy", "container/c_deque.c: iter_alloc_and_copy", "container/c_forward_list.c: iter_alloc_and_copy", "container/c_tree.c: iter_alloc_and_copy"]}
{"id": "C134", "title": "All iterators implement one interface", "statement": "For the iterators of every container, forward and reverse: equality is equality of positions, less is their order, distance is their difference, advance moves by its argument, ++ and -- are inverse, dereferencing gives the element at the position; post-increment and post-decrement move the iterator by one and return an iterator (allocated, or the temporary passed in) that stays at the old position and is independent of it, so that reading through the results of successive post-increments reads the elements in order. Without memory for the temporary a null pointer is returned and the iterator moves all the same.", "quantifier": "all containers and both directions, all positions, all temporaries", "why_tests_cant": "nine implementations of twelve operations on unboundedly many positions; tests try a few positions of a few containers", "anchors": ["container/c_list.c: iter_post_increment, iter_post_decrement, reverse_iter_post_increment, reverse_iter_post_decrement", "container/c_vector.c: iter_post_increment, iter_post_decrement, reverse_iter_post_increment, reverse_iter_post_decrement", "container/c_deque.c: iter_post_increment, iter_post_decrement, reverse_iter_post_increment, reverse_iter_post_decrement", "container/c_forward_list.c: iter_post_increment", "container/c_tree.c: iter_post_increment, iter_post_decrement, reverse_iter_post_increment, reverse_iter_post_decrement"]}
{"id": "C135", "title": "References to deque elements survive modifications that do not reallocate", "statement": "A reference (c_deque_at, iterator position) to an element of a deque still refers to that element after a push or pop at either end (of other elements), after erasing elements behind it, after resizing that keeps it, and after an insertion behind it that finds room in the block; when the block is replaced every reference dangles. Over any history of pushes and pops at the ends that keeps the block, a reference reads its element until it is popped.", "quantifier": "all deques, positions, counts, and all histories of end operations", "why_tests_cant": "which slots move depends on the room at both ends, an unbounded family of layouts; a stale reference often reads plausible data", "anchors": ["container/c_deque.c: c_deque_push_back, c_deque_push_front, c_deque_pop_back, c_deque_pop_front, c_deque_insert_n, c_deque_erase, c_deque_erase_range, c_deque_resize, c_deque_resize_with_value, c_deque_shrink_to_fit, c_deque_at"]}
{"id": "C136", "title": "Stacks and queues survive running out of memory", "statement": "When any of the calls of malloc return null, creating a stack or queue gives null and leaves nothing allocated, a push that finds no memory leaves the adapter as it was, and every other operation does what it should: along any history the adapters created hold, in order, exactly the elements whose push succeeded, and when they have been destroyed no object and no list node is left.", "quantifier": "all histories over any number of stacks or queues on vectors, deques and lists, and all sequences of outcomes of malloc", "why_tests_cant": "every position of every failing call would have to be injected in every history", "anchors": ["container/c_stack.c: c_stack_create, c_stack_push, c_stack_destroy", "container/c_queue.c: c_queue_create, c_queue_push, c_queue_destroy", "container/c_vector.c: c_vector_create_backend, backend_push_back", "container/c_deque.c: c_deque_create_backend, backend_push_back", "container/c_list.c: c_list_create_backend, backend_push_back"]}
{"id": "C137", "title": "Priority queues survive running out of memory", "statement": "When calls of malloc return null, a priority queue still shows a greatest of its elements on top, a push adds its value or nothing, and a pop removes the element on top.", "quantifier": "all histories over any number of priority queues on vectors and deques, and all sequences of outcomes of malloc", "why_tests_cant": "every position of every failing call would have to be injected in every history", "anchors": ["container/c_priority_queue.c: c_priority_queue_create, c_priority_queue_push, c_priority_queue_pop", "container/c_vector.c: backend_begin, backend_end", "container/c_deque.c: backend_begin, backend_end"]}
{"id": "C138", "title": "A range of another set or map is copied exactly", "statement": "Inserting the elements between two iterators (forward or reverse) of one set, map, multiset or multimap into another one inserts exactly these elements, one after the other in the order of the range; the collection the range comes from and all others are unchanged.", "quantifier": "all histories building the collections, all pairs of different collections, all ranges and both directions", "why_tests_cant": "the contents, shapes and ranges of two trees are unbounded", "anchors": ["container/c_tree.c: c_tree_insert_unique_range, c_tree_insert_equal_range", "container/c_set.c: c_set_insert_range, c_multiset_insert_range", "container/c_map.c: c_map_insert_range, c_multimap_insert_range"]}
{"id": "C139", "title": "A set or map given its own range is unchanged", "statement": "Inserting a range of a set's or map's own elements into itself (forward or reverse iterators) returns and changes nothing.", "quantifier": "all histories building the collection, all its ranges and both directions", "why_tests_cant": "the iterator walks the tree it inserts into, for all contents and shapes", "anchors": ["container/c_tree.c: c_tree_insert_unique_range, c_tree_insert_equal_range", "container/c_set.c: c_set_insert_range, c_multiset_insert_range", "container/c_map.c: c_map_insert_range, c_multimap_insert_range"]}
{"id": "C140", "title": "A multiset or multimap can be given its own range", "statement": "Inserting a range of a multiset's or multimap's own elements into itself returns, and one copy of each element of the range has been added.", "quantifier": "all histories building the collection, all its ranges and both directions", "why_tests_cant": "a call that does not return cannot be told from a slow one by running it", "anchors": ["container/c_tree.c: c_tree_insert_unique_range, c_tree_insert_equal_range", "container/c_set.c: c_set_insert_range, c_multiset_insert_range", "container/c_map.c: c_map_insert_range, c_multimap_insert_range"]}
{"id": "C141", "title": "Merging a list with itself does nothing", "statement": "c_list_merge and c_list_merge_by with the same sorted list as both arguments return and leave the list as it was.", "quantifier": "all sorted lists, all strict weak orders", "why_tests_cant": "a call that does not return cannot be told from a slow one by running it, and whether it returns depends on the whole contents", "anchors": ["container/c_list.c: c_list_merge_by, __transfer"]}
{"id": "C142", "title": "Merging a forward list with itself does nothing", "statement": "c_slist_merge and c_slist_merge_by with the same sorted forward list as both arguments return and leave the list as it was.", "quantifier": "all sorted forward lists, all strict weak orders", "why_tests_cant": "a call that does not return cannot be told from a slow one by running it, and what happens depends on the whole contents", "anchors": ["container/c_forward_list.c: c_slist_merge_by, __transfer"]}
{"id": "C143", "title": "Algorithms destroy and free their temporary elements", "statement": "algo_swap, algo_iter_swap, algo_swap_range, algo_reverse, algo_rotate, algo_random_shuffle_by, algo_partition, algo_transform, algo_make_heap_by, algo_pop_heap_by, algo_sort_heap_by and algo_sort_by construct each temporary element in storage of its own, use it only while it is alive, destroy it exactly once and free its storage, so after the call every element and every block that was alive before is alive and nothing else is; their effect on the containers is that of the same algorithm on plain values. algo_max_by and algo_min_by hand the caller one new element.", "quantifier": "all containers and iterators, all lengths, all comparators, predicates and operations, all random choices, and any temporaries of the caller", "why_tests_cant": "whether a temporary is lost or destroyed twice depends on the path taken through the partitioning, heap and insertion steps, for every length and order of the elements", "anchors": ["algorithm/c_modifying.c: algo_swap, algo_swap_range, algo_reverse, algo_rotate, algo_random_shuffle_by, algo_transform", "algorithm/c_partitioning.c: algo_partition", "algorithm/c_heap.c: algo_make_heap_by, algo_pop_heap_by, algo_sort_heap_by", "algorithm/c_sorting.c: algo_sort_by, __introspective_sort_by, __linear_sort_by", "algorithm/c_min_max.c: algo_max_by, algo_min_by"]}
{"id": "C144", "title": "generate, push_heap and partial_sort lose no element", "statement": "algo_generate, algo_generate_n, algo_push_heap_by, algo_partial_sort_by and algo_partial_sort_copy_by destroy every temporary element they construct, whatever the range, also an empty one.", "quantifier": "all containers and iterators, all lengths, all generators and comparators", "why_tests_cant": "a leak per round or per replaced element shows only with element types that own resources, and only for some lengths and orders", "anchors": ["algorithm/c_modifying.c: algo_generate, algo_generate_n", "algorithm/c_heap.c: algo_push_heap_by", "algorithm/c_sorting.c: algo_partial_sort_by, algo_partial_sort_copy_by"]}
{"id": "C145", "title": "Splicing within one list only changes the order of its elements", "statement": "c_list_splice, c_list_splice_from and c_list_splice_range with the list itself as the other list move the designated elements in front of the position and lose none, wherever the position lies, also inside the moved range.", "quantifier": "all lists, all ranges [m, n), all positions", "why_tests_cant": "the outcome depends on where the position lies relative to the range, for every length and every pair of bounds; the lost elements show only in one direction of iteration or as a leak", "anchors": ["container/c_list.c: __transfer, c_list_splice, c_list_splice_from, c_list_splice_range, c_list_destroy"]}
{"id": "C146", "title": "Splicing within one forward list only changes the order of its elements", "statement": "c_slist_splice_after, c_slist_splice_after_from and c_slist_splice_after_range with the list itself as the other list move the designated elements after the position and lose none, wherever the position lies, also inside the moved range.", "quantifier": "all forward lists, all open ranges, all positions", "why_tests_cant": "the outcome depends on where the position lies relative to the range, for every length and every pair of bounds", "anchors": ["container/c_forward_list.c: __transfer, c_slist_splice_after, c_slist_splice_after_from, c_slist_splice_after_range, c_slist_destroy"]}
{"id": "C147", "title": "Iterating over a whole set or map takes linear time", "statement": "Going from begin() to end() of a tree of n elements with ++, or from end() to begin() with --, follows at most 2n links more than one per step: the loops inside ++ (or --) run at most 2n times together, and at most 2 log2(n+1) + 2 times in any single step.", "quantifier": "all trees any history can build, all sizes, both directions", "why_tests_cant": "an amortised bound over every shape of tree; a test sees a few shapes and no complexity", "anchors": ["container/c_tree.c: iter_increment, iter_decrement, __minimum, __maximum"]}
{"id": "C148", "title": "Sorting and merging lists takes few comparisons", "statement": "c_list_merge calls the comparator fewer times than there are elements in the two lists, and not at all if one is empty; c_list_sort of n elements calls it at most n log2 n + 2n times. For forward lists the bounds are one more comparison per element moved, and 3/2 (n log2 n + 2n). The bounds hold whatever the comparator answers.", "quantifier": "all lists and forward lists, all lengths, all comparators", "why_tests_cant": "a worst case over all inputs and comparators; a test sees single inputs and seldom counts comparisons", "anchors": ["container/c_list.c: c_list_merge_by, c_list_sort_by", "container/c_forward_list.c: c_slist_merge_by, c_slist_sort_by"]}
{"id": "C149", "title": "Heap algorithms and partial sorts make few comparisons", "statement": "On n elements c_algo_make_heap calls the comparator at most 2(n-1) times, push_heap log2 n times, pop_heap 2 log2(n-1) times, sort_heap 2 n log2 n times; partial_sort and partial_sort_copy of the k least of n elements call it at most 2k + (n-k)(1 + 3 log2 k) + 2k log2 k times. Except for partial_sort_copy, this holds whatever the comparator answers.", "quantifier": "all ranges, lengths, contents, comparators", "why_tests_cant": "a worst case over all inputs and comparators; a test sees single inputs and seldom counts comparisons", "anchors": ["algorithm/c_heap.c: algo_make_heap_by, algo_push_heap_by, algo_pop_heap_by, algo_sort_heap_by", "algorithm/c_sorting.c: algo_partial_sort_by, algo_partial_sort_copy_by"]}
{"id": "C150", "title": "Sorting never gets quadratic", "statement": "c_algo_sort of n elements with a strict weak order calls the comparator at most 5 n log2 n + 259 n times, whatever their order: the depth of its quicksort is limited to twice log2 n, a heap sort takes over where the limit is reached, and insertion takes over below 512 elements.", "quantifier": "all ranges, lengths, contents, strict weak orders", "why_tests_cant": "quadratic behaviour of a quicksort shows only on adversarial inputs, of which there are few among all inputs", "anchors": ["algorithm/c_sorting.c: algo_sort_by, __introspective_sort_by, __partition_by, __final_insertion_sort_by, __lg"]}
{"id": "C151", "title": "Lookups and insertions in sets and maps make logarithmically many comparisons", "statement": "In a tree of n elements, after any history, find calls the key comparator at most 4 log2(n+1) times, lower_bound and upper_bound 2 log2(n+1) times, equal_range and erase_key 4 log2(n+1) times, count 2r + 8 log2(n+1) times where r is its result, unique and multi insertion 2 log2(n+1) + 2 and + 1 times, two more with a hint; with a hint at the right place at most 3 times, whatever the size.", "quantifier": "all histories of tree operations, keys, values, hints, strict weak orders", "why_tests_cant": "a worst case over all histories; a tree that is slightly out of balance still answers correctly, only slower, which tests do not see", "anchors": ["container/c_tree.c: c_tree_find, c_tree_count, c_tree_lower_bound, c_tree_upper_bound, c_tree_equal_range, c_tree_erase_key, c_tree_insert_unique, c_tree_insert_unique_value, c_tree_insert_equal, c_tree_insert_equal_value, __insert"]}
{"id": "C152", "title": "Binary searches, merges, set operations and extreme elements make few comparisons", "statement": "Whatever the comparator answers: lower_bound and upper_bound among n > 0 elements call the comparator at most log2 n + 1 times, binary_search once more, equal_range twice as often; merge and set_difference of n1 and n2 elements at most n1 + n2 - 1 times, the other set operations at most 2(n1 + n2 - 1) times, includes at most 2 n1 times; max_element, min_element, is_sorted and is_sorted_until at most n - 1 times, minmax_element 2(n - 1) times, lexicographical_compare 2 min(n1, n2) times.", "quantifier": "all ranges, lengths, contents, comparators", "why_tests_cant": "a worst case over all inputs and comparators; a test sees single inputs and seldom counts comparisons", "anchors": ["algorithm/c_bsearch.c: algo_lower_bound_by, algo_upper_bound_by, algo_binary_search_by, algo_equal_range_by", "algorithm/c_set_op.c: algo_merge_by, algo_includes_by, algo_set_difference_by, algo_set_intersection_by, algo_set_symmetric_difference_by, algo_set_union_by", "algorithm/c_min_max.c: algo_max_element_by, algo_min_element_by, algo_minmax_element_by, algo_lexicographical_compare_by", "algorithm/c_sorting.c: algo_is_sorted_by, algo_is_sorted_until_by"]}
{"id": "C153", "title": "Insertion, erasure and iterator steps in sets and maps take logarithmic time", "statement": "In a tree of n elements, after any history, no loop run by a unique or multi insertion without a hint, by the erasure of any element or by one step ++ or -- of an iterator (the descent, the rebalancing, the search for the first or last node of a subtree, the climb to an ancestor) goes round more than 2 log2(n+1) + 1 times.", "quantifier": "all histories of tree operations, values, positions, strict weak orders", "why_tests_cant": "a worst case over all histories and positions; a tree that rebalances too slowly still gives the right answers, which is all a test sees", "anchors": ["container/c_tree.c: c_tree_insert_unique_value, c_tree_insert_equal_value, c_tree_erase, __insert, __rebalance_insert, __rebalance_erase, __minimum, __maximum, iter_increment, iter_decrement"]}
