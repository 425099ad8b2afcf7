{
 "C39": "False of the code above 512 elements: __unguarded_insertion_sort_by passes a reference to the cell it overwrites, so elements are lost and duplicated (C39_sort_refuted, witness of 513 elements). Proved for every length: terminates, in bounds, sorted, only input elements, nothing outside the range changes. C40 is the full claim up to 512.",
 "C41": "is_sorted proved. is_sorted_until is off by one (C41_is_sorted_until_refuted, [1;3;2] gives 1 instead of 2); the exact value computed is C41_is_sorted_until_partial.",
 "C44": "is_heap proved. is_heap_until returns the parent instead of the offending child (C44_is_heap_until_refuted, [5;4;6] gives 0 instead of 2); the exact value computed is C44_is_heap_until_partial.",
 "C50": "False of the code: when an element of the second range is smaller than the current one of the first, both are skipped ({5} minus {1} is empty). Proved under the exact-inclusion condition and, for all inputs, sortedness/safety/subsequence.",
 "C36": "The random source's double arithmetic is modelled by exact rationals.",
 "C02": "False of the code: the reallocation asks only for the missing slots on top of size, so a large count overflows (C02_insert_n_refuted: capacity 4, size 2, count 10). Proved when count fits in the spare capacity or in twice the capacity; C03 is the exact condition.",
 "C04": "False of the code: reserve beyond the capacity appends default elements (C04_reserve_refuted). Exact behaviour: C61_reserve.",
 "C05": "False of the code for vectors with spare capacity (C05_copy_refuted). Proved when capacity = size; exact behaviour: C61_copy.",
 "C06": "False of the code (C06_assign_refuted: the target ends up empty). Proved when the target is smaller and the source full; exact behaviour: C61_assign.",
 "C10": "False of the code for deques with spare capacity (C10_copy_refuted). Exact behaviour: C62_copy.",
 "C11": "False of the code: the target ends up empty, or its buffer is overflowed (C11_assign_refuted). Exact behaviour: C62_assign.",
 "C64": "False of the code: reallocation and shrink_to_fit move the elements bitwise and then call destroy on them (refuted by two push_backs). Proved: exact accounting per operation, and exactly-once for histories that never reallocate.",
 "C65": "False of the code when the call reallocates (use after free) or, for insert, when the element lies behind the position (its predecessor is copied). Exact behaviour proved for push_back, push_front and vector insert; deque insert_n of an own element not covered.",
 "C67": "False of the code for multi-byte elements: the division is unsigned. Exact value proved.",
 "C12": "history theorem over any number of lists with arbitrary allocator; contract violations are excluded by lhist_spec = Some",
 "C16": "for every length below 2^64; strict weak order required",
 "C69": "refuted: the element is freed and then compared with; proved only for the last element; see C70",
 "C71": "refuted for end(); proved for element iterators; see C72",
 "C21": "Any number of trees with arbitrary interleavings of create/destroy/swap/clear/insert (unique, equal, hinted, ranges)/erase/erase_range/erase_key; arguments may be references into elements of any tree.  Precondition of range insertion: the range is outside the tree.",
 "C27": "Height bound for every reachable tree, and the search loops of find/lower_bound/upper_bound/insert end within 2*log2(n+1)+1 iterations with the same result.",
 "C75": "False of the code: the header of every destroyed tree leaks (C75_no_leak_refuted); proved: everything else is released, one node per destroyed tree remains.",
 "C77": "False of the code: the array of keys is walked with the value size (C77_erase_from_map_refuted); the exact behaviour when the value size is a multiple of the key size is C77_erase_from_map_partial.",
 "C79": "False of the code: C79_verify_rejects_refuted is an unsorted, unbalanced tree it accepts; C79_verify_rejects_partial says what acceptance does guarantee, C78 is the exact verdict.",
 "C83": "refuted: the referenced node is freed and then compared with (C83_remove_own_refuted); proved for the last element; see C84",
 "C85": "elements proved; before_begin() and end() refuted (C85_sort_ends_refuted): their nodes are replaced and freed; see C86",
 "C88": "written (first, next(first)): proved; written (first, first): refuted, never returns (C88_erase_empty_range_refuted); see C89",
 "C55": "FIFO over deque and list; over a vector pop is undefined in every reachable state (C55_queue_vector_pop).",
 "C57": "False of the code: c_priority_queue_swap leaves the comparators (C57_swap_refuted). Proved: same comparator and backend kind exchange exactly, in every reachable state.",
 "C91": "False of the code between different backends (C91_swap_refuted: undefined in every reachable state); proved for equal kinds.",
 "C92": "False of the code: a full vector or deque reallocates first (C92_push_own_top_refuted). The exact condition is proved for every reachable stack.",
 "C96": "False of the code above 512 elements: an always-true comparator runs past the end of any range (C96_sort_any_refuted). Proved up to 512 elements.",
 "C59": "False of the code: c_pair_copy asserts that the malloc'd block it initialises has null pointers, so insert after erase aborts when malloc recycles the block (C59_map_refuted). Proved: a map either aborts there or behaves as a finite map.",
 "C60": "Full for multisets (C60_multiset_ledger, C60_multiset_count); multimaps store pairs and can abort like maps (C60_multimap_refuted), otherwise they count correctly (C60_multimap_partial).",
 "C103": "All integer widths and signedness of c_primes.c; objects are their bytes (little endian, two's complement).",
 "C104": "Refuted: with NaN less is irreflexive and transitive but incomparability is not transitive (C104_float_order_refuted exhibits a sort that leaves [1;3;NaN;2]); C104_float_order_partial proves the order laws for all non-NaN values.",
 "C105": "Loops are fuelled: a loop with fuel n makes at most n iterations or returns NoFuel; the theorems show that log2(n)+2 units of fuel are enough for the same result.",
 "C106": "Each operation carries whether malloc succeeds during it. Indices are Nat; copies of elements are value copies (copying never allocates; the copy operations of owning types are C98-C102).",
 "C107": "Refuted: c_vector_copy, c_vector_create_from_array, c_vector_assign, c_deque_copy and c_deque_create_from memcpy into storage that was not obtained. The _partial theorems say exactly when: null object, empty source and sufficient storage are fine, anything else is an out-of-bounds write; create_n returns an empty vector.",
 "C108": "The outcomes of the malloc calls to come are an arbitrary list of booleans consumed call by call; fhist_may/lhist_may in SpecOom.v is the specification.",
 "C109": "As C108.",
 "C110": "As C108; the header leaked by destroy (C75) is counted.",
 "C111": "Maps and multimaps: for histories that pair copying does not abort (C59). erase_from in the histories has keys and elements of the same size; the other case is C77.",
 "C112": "Iterator-level model Iter*.v: the program text of each function, run in a world whose function table is the one of the containers.",
 "C113": "Iterator-level model Iter*.v: the program text of each function, run in a world whose function table is the one of the containers.",
 "C114": "Iterator-level model Iter*.v: the program text of each function, run in a world whose function table is the one of the containers.",
 "C115": "Iterator-level model Iter*.v: the program text of each function, run in a world whose function table is the one of the containers.",
 "C116": "Value arguments do not alias elements of the ranges. With a null d_last algo_unique_copy_by returns 0 and copies nothing (C116_unique_copy_by_null).",
 "C121": "The position is_sorted_until stores on unsorted ranges is what the code computes; it differs from the documented one (C41).",
 "C122": "set_difference is stated with the condition under which the code is right; without it it is refuted (C50).",
 "C124": "False in the strict reading of pointer arithmetic: __percolate_down forms the iterators of children that do not exist (up to twice the length past the range) before it compares the index, so on a full vector it moves a pointer behind the block (refuted). Proved for the reading in which only dereferencing outside the block matters.",
 "C126": "sort loses elements above 512 (refuted; what remains is proved) and, through make_heap, partial_sort and partial_sort_copy form pointers outside the block (C124_make_heap_refuted); proved for the tolerant reading.",
 "C128": "False: push_back reallocates (doubling) whenever the end of the block is reached although the front is free, and pop_front never gives the room back, so n rounds of push_back/pop_front leave a block of n to 2n slots although the deque never has more than one element (refuted; also the mirror image and at the level of c_queue). Proved: at most four times the largest size for histories that do not fill at one end and empty at the other; at most eight times the number of elements ever added for all histories.",
 "C129": "False: cap * value_size wraps around for vectors (element size 2 or more) and count * 2 for deques (any element size), so malloc succeeds with a small block and the fill runs outside it (refuted, for arbitrary vectors and deques, also at 2^64). Proved: as long as the sizes are small enough every operation and every history behaves as with unbounded numbers.",
 "C130": "False for every valid position and every range, even an empty one: first and last are c_iterator_t parameters passed by value, which do not contain the position, so the comparison reads outside the parameters (refuted). Proved: with an invalid position nothing changes; if the iterators were passed whole, the loop would do what is claimed.",
 "C131": "Proved with no condition on the comparator; the sorted and stable part under a strict weak order is C16 and C19.",
 "C132": "Proved for every comparator for insertion without a hint, insertion of duplicates with a hint, erasure by position, clear and the lookups, for one call and for histories (C132_partial, C132_history_partial); hinted unique insertion and erasure by key are proved for every asymmetric comparator, transitive or not (C132_asymmetric_partial). False for those two with a reflexive comparator such as less-or-equal: the first overwrites a link and loses an element (C132_hint_refuted), the second follows a null pointer or never ends (C132_erase_key_refuted).",
 "C133": "False of the code: no algorithm looks whether its copies of the caller's iterators were made. For every algorithm, every container and all arguments (the range not empty where empty ranges return early) the call does not return normally when its first allocation fails (C133_*_refuted, 72 functions); when the second fails it can return a wrong answer (C133_wrong_answer_refuted). C133_enough_memory_partial: when no allocation fails the calls behave exactly as in the theorems C112-C126, in both directions.",
 "C134": "Proved for all containers. The returned iterator is the old position unless the caller passes the iterator itself as the temporary (C134_post_self says what happens then).",
 "C135": "False for insertions: when the room is at the front, an insertion moves the elements before the position although the block is kept, and a reference to them reads another element (C135_insert_before_refuted); a push without room at its own end reallocates even with room at the other (C135_push_keeps_refuted). The exact behaviour of every operation is proved.",
 "C136": "Histories that count on an adapter that was not created stop at the first call on a missing adapter; a vector's or deque's block belongs to its container object.",
 "C137": "False: push and pop do not check the iterators they allocate for the heap algorithms, which then silently do nothing: a push leaves a greater element below, a pop removes an element other than the top (C137_priority_refuted). Proved: every call returns, the contents are right as collections, nothing is leaked, and without failures the run is that of C56. Failures inside the heap algorithms dereference null and are not followed further.",
 "C140": "False of the code: with forward iterators the copy of an element is inserted in front of the iterator, at the end of the elements with that key, and the iterator never gets past them. C140_own_range_refuted: begin to end of any non-empty tree never returns. C140_forward_exact_partial: the call returns iff the element at the last position has the key of the first, and then the copies are exact. C140_backward_exact_partial: with reverse iterators it always returns, but each element that is the last with its key is copied twice.",
 "C141": "False of the code. C141_self_merge_refuted: the list 1, 1, 2 merged with itself never returns. C141_self_merge_exact_partial: a sorted list is left alone iff no two equivalent neighbours are less than the last element, and otherwise the call never returns (the equivalent elements rotate in front of the next greater one). C141_distinct_partial: strictly increasing lists are left alone.",
 "C142": "False of the code for every non-empty list. C142_self_merge_refuted: 1, 2 merged with itself never returns; 7, 7 merged with itself returns empty, with its elements still allocated. C142_self_merge_exact_partial: a sorted forward list of equivalent elements comes back empty and leaks every element; any other never returns.",
 "C144": "False of the code. algo_push_heap_by on two or more elements frees its copy without destroying it (exactly one element lost per call, so a priority queue loses one per push); algo_generate and algo_generate_n over n >= 1 elements lose n - 1 (memset over a constructed element), and algo_generate on an empty range destroys storage in which nothing was constructed: refutation and exact counts proved. partial_sort and partial_sort_copy lose exactly one element per replacement in their heap of the n smallest, for n >= 2 (counted over the input by SortCount.replacements; build without the pointer check, as C126); for every call all storage is freed and nothing is destroyed twice.",
 "C145": "False of the code, which does not test for a position inside the range. Positions outside: C14_splice_within. Inside, exactly: for m < k < n the list is left well formed without the range, whose elements stay allocated for ever; for k = m the range disappears when walking forward but not backward; splicing a whole list into itself empties it (at its end: no effect).",
 "C146": "False of the code. Positions outside: C20_splice_within. After one of the moved elements, exactly: the list is left well formed without the range, whose elements stay allocated and are not freed when the list is destroyed; splicing a whole list after one of its own elements empties it (after before-begin: no effect)."
}