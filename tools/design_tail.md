## 5. What the code does not do (found while modelling; each is a theorem)

Sequence containers: vector `insert_n` overflows its buffer when the count exceeds what the reallocation gives (C02, C03); `reserve` appends default elements
(C04); vector and deque `copy` take size = capacity (C05, C10) and `assign` leaves the target empty or overflows (C06, C11); reallocation destroys the
elements it moved bitwise (C64); inserting an element of the container itself reads freed or shifted memory (C65); iterator `distance` divides unsigned (C67);
copies, creations and assignments write through null or short blocks when memory runs out (C107).
Lists: `remove` with a reference to an element of the list reads it after freeing it (C69, C70, C83, C84); `sort` replaces the sentinel, so end() is freed
(C71, C72, C85, C86); forward list `erase_after_range(first, first)` erases everything after `first` and never returns (C88, C89).
Trees: `destroy` leaks the header (C75); `erase_from` walks an array of keys with the size of the values (C77); `rb_verify` accepts trees that are neither sorted nor
balanced (C78, C79). With a comparator that is reflexive, hinted insertion into a set overwrites a link and loses elements, and `erase_key` follows null pointers or
never ends (C132); all other tree functions are safe with every comparator.
Algorithms: `sort` loses elements above 512 (C39) and runs out of the range there with a comparator that is not an order (C96); `is_sorted_until` and `is_heap_until`
are off (C41, C44); `set_difference` drops elements (C50); `make_heap` and with it `partial_sort` move iterators outside the block (C124); `merge` takes the second range's element on ties (C46).
Deques: a block used first-in-first-out grows with the number of pushes, not with the number of elements (C128), and with it a queue over a deque. An insertion that finds room only at the front moves the elements before the position without reallocating, so references to them silently read other elements (C135).
`insert_range` of vectors and deques takes its iterators by value as `c_iterator_t`, without their positions, and reads outside of them (C130).
Counts near the limits of size_t: `resize` of vectors and `resize` and `insert_n` of deques compute the size of the new block modulo 2^64 and write outside it (C129).
Adapters and dictionaries: queue over vector cannot pop (C55), priority queue over list cannot work (C93), `swap` of priority queues keeps the comparators (C57), `swap` between different backends
corrupts (C91), pushing the own top (C92); map insertion aborts when malloc returns a recycled block, because `c_pair_copy` asserts on uninitialised memory (C59, C60, C99); floating point `less` with NaN (C104).
Not modelled as theorems, but visible in the text: the out-parameter assertions of `c_modifying.c` apply `C_ITER_AT_LEAST` to the variable's address instead of the iterator in it;
`algo_unique_copy_by` with a null `d_last` does nothing (theorem `C116_unique_copy_by_null`).
`algo_generate` on an empty range destroys a temporary that was never initialised; `algo_generate` and `algo_generate_n` clear their temporary with memset each round without destroying
the previous value, and `algo_push_heap_by` frees its copy of the value without destroying it: leaks for types that own memory, one per push of a priority queue (C144).
Priority queues do not check the iterators they allocate: without memory for them a push leaves the queue out of order and a pop removes an element other than the top (C137).
If malloc of an iterator copy fails the algorithms follow a null pointer or read past the range (C133).
A multiset or multimap given a range of its own elements never returns, except inside one run of equal keys; with reverse iterators it copies the last element of each run twice (C140).
Merging a list with itself never returns if two equal elements are less than the last one (C141); merging a forward list with itself never returns, or empties it and leaks its elements (C142).
Splicing a range of a list, or a forward list, to a place inside that range unlinks the range and leaks it (C145, C146).
- C153 bounds the rounds of every loop of insertion (without a hint), erasure and single iterator steps; the straight-line code between loops is constant. Insertion with a hint is not covered by C153 (its comparisons are, by C151).
