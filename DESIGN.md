# DESIGN — a Rocq (Coq 8.16.1) model of matrixjoeq/c_container

## 1. Approach

The C sources under `/repo/container`, `/repo/algorithm` and `/repo/prime` are modelled function by function as
executable Gallina.  Every definition of the model cites the file and lines it models.  A call that the C code would not
survive (access outside an object, following a null, dangling or uninitialised pointer, a failed `assert`: the build sets
no `NDEBUG`) has the outcome `UB`; a loop is a recursion on explicit fuel and running out of it is the separate outcome
`NoFuel`.  Theorems state an `Ok` outcome, so each includes memory safety and termination.

Memory models, each the least abstract one that lets the properties be stated:

* **Flat cells** (`/repo/algorithm`): memory is one `list A` of cells, an iterator is a cell index.  All the ranges of a
  call live in the same memory, so overlap and "nothing else changes" are expressible.
* **Iterators over containers** (`Iter*.v`): the same algorithms over an abstract iterator interface (the C function
  table), instantiated with the iterators of list, forward list, tree, vector and deque; the simulation theorem carries
  the flat-cell theorems over to containers.
* **Blocks** (vector, deque): a malloc'd block is a `list (option A)` (`None` = not initialised); the object holds the
  block and its offsets.  Destroyed elements are recorded, so double destruction and leaks are expressible.
* **Pointers** (list, forward list, tree, pair): a heap is a finite map from locations to nodes with their real
  `prev/next/parent/left/right` links; `free` removes the node.  The allocator is an arbitrary function that returns a
  location not in use.
* **Bytes and machine words**: iterator arithmetic of vector and deque (`RandomIter.v`, addresses modulo 2^64, element
  size `es`) and the built-in types (`Prime.v`: little-endian bytes, two's complement, IEEE floats via the standard
  library's `SpecFloat`, which needs no axiom).
* **Failing malloc** (`*Oom.v`): the functions that allocate, again, with an arbitrary list of the outcomes of the calls
  of malloc to come.

Element types (`c_type_info_t`) are a type `A` with a default value and comparison functions that are parameters of each
theorem; `StrictWeakOrder comp` is a hypothesis exactly where it is needed, and C95-C97 say what remains true without it.
Arguments that are references (`c_ref_t`) may point into the containers themselves wherever this can make a difference
(C65, C69, C70, C83, C84, C92 and all histories over lists and trees).

**Histories.** Container properties are proved for every finite sequence of API calls over any number of objects
(`lhist_*`, `fhist_*`, `thist_*`, `vec_run`, `deq_run`, adapters and dictionaries likewise): a specification on
mathematical sequences (`Spec*.v`, independent of the models), one simulation lemma per operation, induction on the history.

**Refuted claims.** Where the code does not do what its user relies on, the property keeps its full statement, a
`_refuted` theorem exhibits the failing call, and `_partial` theorems or a companion property state the exact behaviour.
Every partial status in MANIFEST.json is of this kind.

## 2. Layout (all under `rocq/theories`)

| files | contents |
|---|---|
| `Base`, `Facts` | outcome monad `res`, cells, generic lemmas |
| `Spec`, `SpecSeq`, `SpecListOps`, `SpecSlistOps`, `SpecTreeOps`, `SpecAdapters`, `SpecDict`, `SpecPair`, `SpecOom` | what is claimed: orders, stability, occurrences, sequence operations, histories, stacks/queues/priority queues, finite maps, failures of malloc.  Nothing here refers to the models |
| `SpecList`, `SpecSlist`, `SpecTree` | well-formedness of a heap: lists, forward lists, red-black trees |
| `AlgoNonMod`, `AlgoMod`, `AlgoOrd`, `AlgoHeap`, `AlgoSort` (+ `*Proofs`, `AlgoSetProofs`) | `/repo/algorithm/*.c` on flat cells |
| `AlgoHeapAny`, `AlgoSortAny`, `AlgoCost` | arbitrary comparators; iteration counts |
| `Iter`, `IterFlat`, `IterWp`, `IterWorld`, `IterWorldProofs`, `IterLift`, `IterLift3`, `IterLocals`, `IterStuck` | programs over iterator objects; flat memory and real containers as two worlds; the lifting from one to the other |
| `IterNonMod`, `IterMod`, `IterOrd`, `IterHeap`, `IterSort` (+ `*Proofs*`, `*Lift`, `IterSetProofs`, `IterPscProofs`, `SortLen`) | `/repo/algorithm/*.c` as such programs |
| `SpecIter`, `SpecIterOrd` | what it means that iterators point into containers, and what a call may change |
| `Buffer`, `Vector`, `Deque` (+ `*Proofs`), `RandomIter` | `c_vector.c`, `c_deque.c` |
| `DList`, `DListCore`, `DListProofs`, `DListAlgo`, `DListSort`, `DListRun`, `DListRunProofs`, `MergeFacts`, `SortFacts`, `Path` | `c_list.c` |
| `Slist`, `SlistCore`, `SlistProofs`, `SlistAlgo`, `SlistSort`, `SlistRun`, `SlistRunProofs` | `c_forward_list.c` |
| `Tree`, `TreeRep`, `TreeInsert`, `TreeErase`, `TreeIter`, `TreeUnlink`, `TreeApi`, `TreeOps`, `TreeLookup`, `TreeMod`, `TreeCheck`, `TreeVerify`, `TreeRun`, `TreeRunProofs` | `c_tree.c` |
| `Adapters`, `AdapterObs`, `AdapterProofs`, `AdapterPQ` | `c_stack.c`, `c_queue.c`, `c_priority_queue.c`, backend tables |
| `Pair`, `PairProofs`, `Dict`, `DictProofs` | `c_pair.c`, `c_set.c`, `c_map.c` |
| `Prime` | `/repo/prime` |
| `OomSeq`, `DListOom`, `SlistOom`, `TreeOom` (+ `*Proofs`) | the allocating functions when malloc fails |
| `Properties*` | the property theorems, each with its `Print Assumptions`, and examples meeting their hypotheses |

`tools/manifest.py` regenerates `MANIFEST.json` from the names of the theorems in `Properties*.v`; `tools/design.py`
regenerates this file from `tools/design_head.md`, `properties.jsonl` and `MANIFEST.json`.  `seeded/LOG.jsonl` records the wrong programs the theorems
were tested against.

## 3. Trusted base

* Coq 8.16.1's kernel, including its conversion by virtual machine (`vm_compute` is used for concrete witnesses).
* `Print Assumptions` says **"Closed under the global context"** for every property theorem: no axiom is used, neither
  ours (there are none) nor the standard library's.  (vcheck lists seven constants of `Coq.ssr.ssrunder.Under_rel`: these are
  fields of a module type of the ssreflect library loaded by std++; no theorem depends on them.)
* Libraries: Coq's standard library and std++ (lists, finite maps); both only contribute checked proofs.
* The reading of the C code: that the definitions of the model say what the cited lines do.  Nothing is extracted or
  generated from the C text.

**Modelled**: every function of `/repo/algorithm/*.c`, `/repo/container/*.c` and `/repo/prime/*` except those below.

**Not modelled, or simplified**:

* Sizes and indices are unbounded naturals, except where overflow matters: iterator arithmetic (C66, C67), the sizes of the blocks of vectors and deques (C129), list sizes below 2^64 for the
  sorts' 64 bins (C16, C19), built-in types (C103, C104).  A container of 2^64 elements does not fit in memory.
* Elements are values; copying an element yields an equal element and does not fail.  Types that own memory are
  covered by the pair model (C98-C102, C59, C60) and by the destruction ledgers (C63, C64, C68, C74, C80).
* Callbacks (comparators, predicates, unary operations) are pure total functions.
* In the container and algorithm models other than `Iter*.v`, iterator objects are their positions.  In `Iter*.v` the algorithms
  are programs over iterator objects (heap copies, frees, out parameters, function table, category asserts); there
  malloc of an iterator copy succeeds and value_type is not represented.  Whether merely forming a pointer outside a block is undefined is a
  parameter (`Checked`): theorems hold for both readings unless they assume `checked = false`.
* `vector/deque insert_range` take `c_iterator_t` by value: the C call slices the iterator object and reads out of bounds; not
  modelled (there is no behaviour to state).
* `max_size` (constants), `c_vector_data`, `c_get_*_type_info` accessors, `__c_get_time_ms`, the random seed.
* No concurrency: the library has none and claims none.

## 4. Each property: what is modelled and how it is proved

Status P = proved as stated, R = refuted as stated: the failing call is a theorem `_refuted`, the exact or restricted claim is proved in `_partial` theorems (or a companion property).

| id | property | status | model | proof |
|---|---|---|---|---|
| C01 | Vector behaves as a sequence under every history | P | Vector, Buffer | vrep (block = elements ++ spare); simulation lemma per operation against the sequence specification, induction on the history |
| C02 | Vector insert_n inserts exactly count copies | R | Vector, Buffer | vrep; direct computation of the reallocation sizes, witnesses by vm_compute — False of the code: the reallocation asks only for the missing slots on top of size, so a large count overflows (C02_insert_n_refuted: capacity 4, size 2, count 10). Proved when count fits in the spare capacity or in twice the capacity; C03 is the exact condition. |
| C03 | Vector insert_n is safe exactly when the reallocation is large enough | P | Vector, Buffer | vrep; direct computation of the reallocation sizes, witnesses by vm_compute |
| C04 | Vector reserve changes only the capacity | R | Vector, Buffer | vrep; direct computation of the reallocation sizes, witnesses by vm_compute — False of the code: reserve beyond the capacity appends default elements (C04_reserve_refuted). Exact behaviour: C61_reserve. |
| C05 | Vector copy yields an equal vector | R | Vector, Buffer | vrep; direct computation of the reallocation sizes, witnesses by vm_compute — False of the code for vectors with spare capacity (C05_copy_refuted). Proved when capacity = size; exact behaviour: C61_copy. |
| C06 | Vector assign yields an equal vector | R | Vector, Buffer | vrep; direct computation of the reallocation sizes, witnesses by vm_compute — False of the code (C06_assign_refuted: the target ends up empty). Proved when the target is smaller and the source full; exact behaviour: C61_assign. |
| C07 | Vector positions survive modifications that do not reallocate | P | Vector, Buffer | vrep; direct computation of the reallocation sizes, witnesses by vm_compute |
| C08 | Deque behaves as a sequence under every history | P | Deque, Buffer | drep; simulation lemma per operation against the sequence specification, induction on the history |
| C09 | Deque reallocation always leaves enough room | P | Deque, Buffer | drep; arithmetic of the reallocation, witnesses by vm_compute |
| C10 | Deque copy yields an equal deque | R | Deque, Buffer | drep; arithmetic of the reallocation, witnesses by vm_compute — False of the code for deques with spare capacity (C10_copy_refuted). Exact behaviour: C62_copy. |
| C11 | Deque assign yields an equal deque | R | Deque, Buffer | drep; arithmetic of the reallocation, witnesses by vm_compute — False of the code: the target ends up empty, or its buffer is overflowed (C11_assign_refuted). Exact behaviour: C62_assign. |
| C12 | List behaves as a sequence under every history | P | DList, DListRun | is_list (closed doubly linked path through the sentinel); simulation lemma per operation against the sequence specification, induction on the history — history theorem over any number of lists with arbitrary allocator; contract violations are excluded by lhist_spec = Some |
| C13 | List modifications keep iterators to other elements valid | P | DList | segment lemmas for link/unlink/transfer; merge and the 64-bin sort by loop invariant (bin i empty or holding 2^i elements in order) |
| C14 | List splice moves exactly the requested elements | P | DList | segment lemmas for link/unlink/transfer; merge and the 64-bin sort by loop invariant (bin i empty or holding 2^i elements in order) |
| C15 | List merge is a stable sorted merge | P | DList | segment lemmas for link/unlink/transfer; merge and the 64-bin sort by loop invariant (bin i empty or holding 2^i elements in order) |
| C16 | List sort is a stable sort | P | DList | segment lemmas for link/unlink/transfer; merge and the 64-bin sort by loop invariant (bin i empty or holding 2^i elements in order) — for every length below 2^64; strict weak order required |
| C17 | List reverse, remove_if and unique do what they say | P | DList | segment lemmas for link/unlink/transfer; merge and the 64-bin sort by loop invariant (bin i empty or holding 2^i elements in order) |
| C18 | Forward list behaves as a sequence under every history | P | Slist, SlistRun | is_slist; simulation lemma per operation against the sequence specification, induction on the history |
| C19 | Forward list sort and merge are stable | P | Slist | as C13-C17 |
| C20 | Forward list splice, reverse, remove_if and unique do what they say | P | Slist | as C13-C17 |
| C21 | Search tree stays ordered and balanced under every history | P | Tree, TreeRun | rep: memory = address-annotated functional tree; simulation lemma per operation against the sequence specification, induction on the history — Any number of trees with arbitrary interleavings of create/destroy/swap/clear/insert (unique, equal, hinted, ranges)/erase/erase_range/erase_key; arguments may be references into elements of any tree.  Precondition of range insertion: the range is outside the tree. |
| C22 | Unique insertion is set insertion | P | Tree | rep + red-black invariant; rotations and both rebalancing loops by induction on the zipper context from node to root |
| C23 | Equal insertion keeps duplicates in insertion order | P | Tree | rep + red-black invariant; rotations and both rebalancing loops by induction on the zipper context from node to root |
| C24 | Tree erase removes exactly the designated element | P | Tree | rep + red-black invariant; rotations and both rebalancing loops by induction on the zipper context from node to root |
| C25 | Tree lookup returns the right position | P | Tree | rep + red-black invariant; rotations and both rebalancing loops by induction on the zipper context from node to root |
| C26 | Tree iteration visits every element once in order | P | Tree | rep + red-black invariant; rotations and both rebalancing loops by induction on the zipper context from node to root |
| C27 | Tree height is logarithmic | P | Tree | rep + red-black invariant; rotations and both rebalancing loops by induction on the zipper context from node to root — Height bound for every reachable tree, and the search loops of find/lower_bound/upper_bound/insert end within 2*log2(n+1)+1 iterations with the same result. |
| C28 | Tree hinted insertion never breaks the order | P | Tree | rep + red-black invariant; rotations and both rebalancing loops by induction on the zipper context from node to root |
| C29 | erase_key and erase_range remove exactly the right elements | P | Tree | rep + red-black invariant; rotations and both rebalancing loops by induction on the zipper context from node to root |
| C30 | Tree self-check accepts every tree the API builds | P | Tree | rep + red-black invariant; rotations and both rebalancing loops by induction on the zipper context from node to root |
| C31 | Quantifier, counting and searching scans are exact | P | AlgoNonMod | loop invariants by induction on the range |
| C32 | mismatch and equal compare ranges position by position | P | AlgoNonMod | loop invariants by induction on the range |
| C33 | search finds the first occurrence of a subsequence | P | AlgoNonMod | loop invariants by induction on the range |
| C34 | Copy-like algorithms write exactly the specified cells | P | AlgoMod | loop invariants by induction on the range; frame (all other cells unchanged) |
| C35 | remove/remove_if compact the kept elements in order | P | AlgoMod | loop invariants by induction on the range; frame (all other cells unchanged) |
| C36 | reverse, rotate and shuffle permute in place | P | AlgoMod | loop invariants by induction on the range; frame (all other cells unchanged) — The random source's double arithmetic is modelled by exact rationals. |
| C37 | unique keeps the first of each run | P | AlgoMod | loop invariants by induction on the range; frame (all other cells unchanged) |
| C38 | partition separates and reports the boundary | P | AlgoOrd | loop invariants by induction on the range |
| C39 | sort sorts | R | AlgoSort, AlgoHeap | loop invariants by induction on the range; introsort by induction on depth and length — False of the code above 512 elements: __unguarded_insertion_sort_by passes a reference to the cell it overwrites, so elements are lost and duplicated (C39_sort_refuted, witness of 513 elements). Proved for every length: terminates, in bounds, sorted, only input elements, nothing outside the range changes. C40 is the full claim up to 512. |
| C40 | sort is right up to the insertion-sort threshold | P | AlgoSort, AlgoHeap | loop invariants by induction on the range; introsort by induction on depth and length |
| C41 | is_sorted decides sortedness; is_sorted_until gives the longest sorted prefix | R | AlgoSort, AlgoHeap | loop invariants by induction on the range; introsort by induction on depth and length — is_sorted proved. is_sorted_until is off by one (C41_is_sorted_until_refuted, [1;3;2] gives 1 instead of 2); the exact value computed is C41_is_sorted_until_partial. |
| C42 | partial_sort puts the smallest elements first | P | AlgoSort, AlgoHeap | loop invariants by induction on the range; introsort by induction on depth and length |
| C43 | Heap operations maintain the max-heap property | P | AlgoHeap | percolation invariants on the index tree |
| C44 | is_heap decides heapness; is_heap_until gives the longest heap prefix | R | AlgoHeap | percolation invariants on the index tree — is_heap proved. is_heap_until returns the parent instead of the offending child (C44_is_heap_until_refuted, [5;4;6] gives 0 instead of 2); the exact value computed is C44_is_heap_until_partial. |
| C45 | Binary search returns the partition boundary | P | AlgoOrd | halving invariant |
| C46 | merge produces the sorted union of occurrences | P | AlgoOrd | two-range loop invariant, counting occurrences per equivalence class |
| C47 | includes decides multiset inclusion | P | AlgoOrd | two-range loop invariant, counting occurrences per equivalence class |
| C48 | set_intersection has min(m,n) occurrences | P | AlgoOrd | two-range loop invariant, counting occurrences per equivalence class |
| C49 | set_union has max(m,n) occurrences | P | AlgoOrd | two-range loop invariant, counting occurrences per equivalence class |
| C50 | set_difference has max(m-n,0) occurrences | R | AlgoOrd | two-range loop invariant, counting occurrences per equivalence class — False of the code: when an element of the second range is smaller than the current one of the first, both are skipped ({5} minus {1} is empty). Proved under the exact-inclusion condition and, for all inputs, sortedness/safety/subsequence. |
| C51 | set_symmetric_difference has |m-n| occurrences | P | AlgoOrd | two-range loop invariant, counting occurrences per equivalence class |
| C52 | min/max selections are extremal | P | AlgoOrd | loop invariants by induction on the range |
| C53 | lexicographical_compare is lexicographic order | P | AlgoOrd | loop invariants by induction on the range |
| C54 | Stack is last-in first-out | P | Adapters (over Vector, Deque, DList, AlgoHeap) | refinement to the abstract adapter, induction on the history |
| C55 | Queue is first-in first-out | P | Adapters (over Vector, Deque, DList, AlgoHeap) | refinement to the abstract adapter, induction on the history — FIFO over deque and list; over a vector pop is undefined in every reachable state (C55_queue_vector_pop). |
| C56 | Priority queue pops in priority order | P | Adapters (over Vector, Deque, DList, AlgoHeap) | refinement to the abstract adapter, induction on the history |
| C57 | Swapping priority queues exchanges their behaviour | R | Adapters (over Vector, Deque, DList, AlgoHeap) | refinement to the abstract adapter, induction on the history — False of the code: c_priority_queue_swap leaves the comparators (C57_swap_refuted). Proved: same comparator and backend kind exchange exactly, in every reachable state. |
| C58 | Pair comparison is lexicographic | P | Pair | case analysis on the component comparisons |
| C59 | Map behaves as a finite map | R | Dict, Pair, Tree | Dict refines the tree history; finite map/multiset specification; witness with a recycling allocator — False of the code: c_pair_copy asserts that the malloc'd block it initialises has null pointers, so insert after erase aborts when malloc recycles the block (C59_map_refuted). Proved: a map either aborts there or behaves as a finite map. |
| C60 | Multiset and multimap count multiplicities | R | Dict, Pair, Tree | Dict refines the tree history; finite map/multiset specification; witness with a recycling allocator — Full for multisets (C60_multiset_ledger, C60_multiset_count); multimaps store pairs and can abort like maps (C60_multimap_refuted), otherwise they count correctly (C60_multimap_partial). |
| C61 | Vector reserve, copy and assign: exact results | P | Vector, Deque, Buffer | exact symbolic execution of each function from vrep/drep; ledger of destroyed elements |
| C62 | Deque copy and assign: exact results | P | Vector, Deque, Buffer | exact symbolic execution of each function from vrep/drep; ledger of destroyed elements |
| C63 | Vector and deque removals destroy exactly the removed elements | P | Vector, Deque, Buffer | exact symbolic execution of each function from vrep/drep; ledger of destroyed elements |
| C64 | Every element of a vector or deque is destroyed exactly once | R | Vector, Deque, Buffer | exact symbolic execution of each function from vrep/drep; ledger of destroyed elements — False of the code: reallocation and shrink_to_fit move the elements bitwise and then call destroy on them (refuted by two push_backs). Proved: exact accounting per operation, and exactly-once for histories that never reallocate. |
| C65 | An element of a vector or deque may be added to it again | R | Vector, Deque, Buffer | exact symbolic execution of each function from vrep/drep; ledger of destroyed elements — False of the code when the call reallocates (use after free) or, for insert, when the element lies behind the position (its predecessor is copied). Exact behaviour proved for push_back, push_front and vector insert; deque insert_n of an own element not covered. |
| C66 | Random access iterator arithmetic | P | RandomIter | modular arithmetic over Z |
| C67 | Iterator distance is signed | R | RandomIter | modular arithmetic over Z — False of the code for multi-byte elements: the division is unsigned. Exact value proved. |
| C68 | List nodes are owned exactly once and never leak | P | DList, DListRun | world invariant: the heap is exactly the nodes of the lists; exact execution of the aliasing cases |
| C69 | A list element may be removed by reference to itself | R | DList, DListRun | world invariant: the heap is exactly the nodes of the lists; exact execution of the aliasing cases — refuted: the element is freed and then compared with; proved only for the last element; see C70 |
| C70 | What removing a list element by reference to itself does | P | DList, DListRun | world invariant: the heap is exactly the nodes of the lists; exact execution of the aliasing cases |
| C71 | List sort keeps every iterator valid | R | DList, DListRun | world invariant: the heap is exactly the nodes of the lists; exact execution of the aliasing cases — refuted for end(); proved for element iterators; see C72 |
| C72 | What list sort does to end() | P | DList, DListRun | world invariant: the heap is exactly the nodes of the lists; exact execution of the aliasing cases |
| C73 | List iterator arithmetic | P | DList, DListRun | world invariant: the heap is exactly the nodes of the lists; exact execution of the aliasing cases |
| C74 | Tree ownership accounting | P | Tree, TreeVerify | world invariant; structural recursion of the self-check |
| C75 | Destroying all trees returns all memory | R | Tree, TreeVerify | world invariant; structural recursion of the self-check — False of the code: the header of every destroyed tree leaks (C75_no_leak_refuted); proved: everything else is released, one node per destroyed tree remains. |
| C76 | erase_from on a set removes exactly the listed keys | P | Tree, TreeVerify | world invariant; structural recursion of the self-check |
| C77 | erase_from on a map removes exactly the listed keys | R | Tree, TreeVerify | world invariant; structural recursion of the self-check — False of the code: the array of keys is walked with the value size (C77_erase_from_map_refuted); the exact behaviour when the value size is a multiple of the key size is C77_erase_from_map_partial. |
| C78 | What the tree self-check decides | P | Tree, TreeVerify | world invariant; structural recursion of the self-check |
| C79 | Tree self-check rejects every ill-formed tree | R | Tree, TreeVerify | world invariant; structural recursion of the self-check — False of the code: C79_verify_rejects_refuted is an unsorted, unbalanced tree it accepts; C79_verify_rejects_partial says what acceptance does guarantee, C78 is the exact verdict. |
| C80 | Forward list nodes are owned exactly once and never leak | P | Slist, SlistRun | as C68-C73; divergence: NoFuel for every fuel |
| C81 | Forward list modifications keep iterators to other elements valid | P | Slist, SlistRun | as C68-C73; divergence: NoFuel for every fuel |
| C82 | Forward list iterator arithmetic | P | Slist, SlistRun | as C68-C73; divergence: NoFuel for every fuel |
| C83 | A forward list element may be removed by reference to itself | R | Slist, SlistRun | as C68-C73; divergence: NoFuel for every fuel — refuted: the referenced node is freed and then compared with (C83_remove_own_refuted); proved for the last element; see C84 |
| C84 | What removing a forward list element by reference to itself does | P | Slist, SlistRun | as C68-C73; divergence: NoFuel for every fuel |
| C85 | Forward list sort keeps every iterator valid | R | Slist, SlistRun | as C68-C73; divergence: NoFuel for every fuel — elements proved; before_begin() and end() refuted (C85_sort_ends_refuted): their nodes are replaced and freed; see C86 |
| C86 | What forward list sort does to before_begin() and end() | P | Slist, SlistRun | as C68-C73; divergence: NoFuel for every fuel |
| C87 | Forward list merge of unsorted lists loses nothing | P | Slist, SlistRun | as C68-C73; divergence: NoFuel for every fuel |
| C88 | Erasing an empty range of a forward list erases nothing | R | Slist, SlistRun | as C68-C73; divergence: NoFuel for every fuel — written (first, next(first)): proved; written (first, first): refuted, never returns (C88_erase_empty_range_refuted); see C89 |
| C89 | What erase_after_range(first, first) does | P | Slist, SlistRun | as C68-C73; divergence: NoFuel for every fuel |
| C90 | Adapters free what they allocate | P | Adapters | world invariant; exact conditions by cases on the backend |
| C91 | Swapping adapters exchanges them | R | Adapters | world invariant; exact conditions by cases on the backend — False of the code between different backends (C91_swap_refuted: undefined in every reachable state); proved for equal kinds. |
| C92 | Pushing a stack's own top pushes a copy | R | Adapters | world invariant; exact conditions by cases on the backend — False of the code: a full vector or deque reallocates first (C92_push_own_top_refuted). The exact condition is proved for every reachable stack. |
| C93 | A priority queue over a list is unusable | P | Adapters | world invariant; exact conditions by cases on the backend |
| C94 | Priority queues lose nothing whatever the comparator | P | Adapters | world invariant; exact conditions by cases on the backend |
| C95 | Heap algorithms are safe for any comparator | P | AlgoHeapAny, AlgoSortAny | permutation and bounds invariants that do not use the order |
| C96 | Sort is safe for any comparator | R | AlgoHeapAny, AlgoSortAny | permutation and bounds invariants that do not use the order — False of the code above 512 elements: an always-true comparator runs past the end of any range (C96_sort_any_refuted). Proved up to 512 elements. |
| C97 | Merge and set operations are safe for any input | P | AlgoHeapAny, AlgoSortAny | permutation and bounds invariants that do not use the order |
| C98 | Pairs are values | P | Pair, Dict | heap with separately owned components; cases on the outcome of malloc |
| C99 | What memory a pair can be copied into | P | Pair, Dict | heap with separately owned components; cases on the outcome of malloc |
| C100 | Set behaves as a finite set | P | Pair, Dict | heap with separately owned components; cases on the outcome of malloc |
| C101 | Multiset behaves as a finite multiset | P | Pair, Dict | heap with separately owned components; cases on the outcome of malloc |
| C102 | Out of memory while copying a pair | P | Pair, Dict | heap with separately owned components; cases on the outcome of malloc |
| C103 | Built-in integer types: create, copy, assign, compare | P | Prime | byte/word round trips over Z; SpecFloat comparison — All integer widths and signedness of c_primes.c; objects are their bytes (little endian, two's complement). |
| C104 | Built-in floating point types give usable orders | R | Prime | byte/word round trips over Z; SpecFloat comparison — Refuted: with NaN less is irreflexive and transitive but incomparability is not transitive (C104_float_order_refuted exhibits a sort that leaves [1;3;NaN;2]); C104_float_order_partial proves the order laws for all non-NaN values. |
| C105 | Binary search and heap operations take logarithmically many steps | P | AlgoCost | halving measure — Loops are fuelled: a loop with fuel n makes at most n iterations or returns NoFuel; the theorems show that log2(n)+2 units of fuel are enough for the same result. |
| C106 | Vectors and deques survive failed growth | P | OomSeq | operation = done or dropped; induction on the history — Each operation carries whether malloc succeeds during it. Indices are Nat; copies of elements are value copies (copying never allocates; the copy operations of owning types are C98-C102). |
| C107 | Copying, creating and assigning vectors and deques out of memory is safe | R | OomSeq | operation = done or dropped; induction on the history — Refuted: c_vector_copy, c_vector_create_from_array, c_vector_assign, c_deque_copy and c_deque_create_from memcpy into storage that was not obtained. The _partial theorems say exactly when: null object, empty source and sufficient storage are fine, anything else is an out-of-bounds write; create_n returns an empty vector. |
| C108 | Lists survive running out of memory | P | DListOom | as C12 with the outcomes of malloc as input; allowed results lhist_may — The outcomes of the malloc calls to come are an arbitrary list of booleans consumed call by call; fhist_may/lhist_may in SpecOom.v is the specification. |
| C109 | Forward lists survive running out of memory | P | SlistOom | as C108 — As C108. |
| C110 | Sets and maps survive running out of memory | P | TreeOom | as C108: an insertion tracks the succeeding one or changes nothing — As C108; the header leaked by destroy (C75) is counted. |
| C111 | Bounds, ranges and reverse iteration of sets and maps | P | Dict, Tree | simulation of the client of Dict.v by the client of the trees; walk lemmas between positions; classes of a sorted sequence are its segments — Maps and multimaps: for histories that pair copying does not abort (C59). erase_from in the histories has keys and elements of the same size; the other case is C77. |
| C112 | Questions about a range, asked through iterators of any container | P | Iter, IterNonMod, IterWorld | weakest preconditions on flat cells, linked to AlgoNonMod; simulation of flat cells by every container (views); store of iterator objects as a finite map — Iterator-level model Iter*.v: the program text of each function, run in a world whose function table is the one of the containers. |
| C113 | Searches through iterators of any container, with their out parameter | P | Iter, IterNonMod, IterWorld | weakest preconditions on flat cells, linked to AlgoNonMod; simulation of flat cells by every container (views); store of iterator objects as a finite map — Iterator-level model Iter*.v: the program text of each function, run in a world whose function table is the one of the containers. |
| C114 | Comparing two ranges through iterators | P | Iter, IterNonMod, IterWorld | weakest preconditions on flat cells, linked to AlgoNonMod; simulation of flat cells by every container (views); store of iterator objects as a finite map — Iterator-level model Iter*.v: the program text of each function, run in a world whose function table is the one of the containers. |
| C115 | Visiting elements through iterators | P | Iter, IterNonMod, IterWorld | weakest preconditions on flat cells, linked to AlgoNonMod; simulation of flat cells by every container (views); store of iterator objects as a finite map — Iterator-level model Iter*.v: the program text of each function, run in a world whose function table is the one of the containers. |
| C116 | Copying between containers through iterators | P | Iter, IterMod, IterWorld | as C112-C115, with the written cells given by the flat theorems of AlgoMod — Value arguments do not alias elements of the ranges. With a null d_last algo_unique_copy_by returns 0 and copies nothing (C116_unique_copy_by_null). |
| C117 | Filling, replacing and removing through iterators | P | Iter, IterMod, IterWorld | as C112-C115, with the written cells given by the flat theorems of AlgoMod |
| C118 | Reversing, rotating, shuffling and swapping through iterators | P | Iter, IterMod, IterWorld | as C112-C115, with the written cells given by the flat theorems of AlgoMod |
| C119 | Partitioning through iterators | P | Iter, IterOrd, IterWorld | as C112-C118, with three containers at a time (IterLift3) and the flat theorems of AlgoOrd, AlgoSet and AlgoSort |
| C120 | Binary search through iterators | P | Iter, IterOrd, IterWorld | as C112-C118, with three containers at a time (IterLift3) and the flat theorems of AlgoOrd, AlgoSet and AlgoSort |
| C121 | Extreme elements, sortedness, lexicographical order and inclusion through iterators | P | Iter, IterOrd, IterWorld | as C112-C118, with three containers at a time (IterLift3) and the flat theorems of AlgoOrd, AlgoSet and AlgoSort — The position is_sorted_until stores on unsorted ranges is what the code computes; it differs from the documented one (C41). |
| C122 | Merging and set operations through iterators | P | Iter, IterOrd, IterWorld | as C112-C118, with three containers at a time (IterLift3) and the flat theorems of AlgoOrd, AlgoSet and AlgoSort — set_difference is stated with the condition under which the code is right; without it it is refuted (C50). |
| C123 | Heap operations through iterators | P | Iter, IterHeap, IterSort, IterWorld | as C112-C122: the iterator programs are shown to compute on flat cells what AlgoHeap and AlgoSort compute on lists (IterHeapProofs, IterSortProofs, IterPscProofs; local iterator variables that start as null pointers in IterLocals), then lifted to vectors and deques; refutations by running the programs (IterStuck: undefined behaviour excludes any outcome) |
| C124 | make_heap through iterators | R | Iter, IterHeap, IterSort, IterWorld | as C112-C122: the iterator programs are shown to compute on flat cells what AlgoHeap and AlgoSort compute on lists (IterHeapProofs, IterSortProofs, IterPscProofs; local iterator variables that start as null pointers in IterLocals), then lifted to vectors and deques; refutations by running the programs (IterStuck: undefined behaviour excludes any outcome) — False in the strict reading of pointer arithmetic: __percolate_down forms the iterators of children that do not exist (up to twice the length past the range) before it compares the index, so on a full vector it moves a pointer behind the block (refuted). Proved for the reading in which only dereferencing outside the block matters. |
| C125 | sort through iterators, up to the insertion-sort threshold | P | Iter, IterHeap, IterSort, IterWorld | as C112-C122: the iterator programs are shown to compute on flat cells what AlgoHeap and AlgoSort compute on lists (IterHeapProofs, IterSortProofs, IterPscProofs; local iterator variables that start as null pointers in IterLocals), then lifted to vectors and deques; refutations by running the programs (IterStuck: undefined behaviour excludes any outcome) |
| C126 | sort and partial sort through iterators, any length | R | Iter, IterHeap, IterSort, IterWorld | as C112-C122: the iterator programs are shown to compute on flat cells what AlgoHeap and AlgoSort compute on lists (IterHeapProofs, IterSortProofs, IterPscProofs; local iterator variables that start as null pointers in IterLocals), then lifted to vectors and deques; refutations by running the programs (IterStuck: undefined behaviour excludes any outcome) — sort loses elements above 512 (refuted; what remains is proved) and, through make_heap, partial_sort and partial_sort_copy form pointers outside the block (C124_make_heap_refuted); proved for the tolerant reading. |
| C127 | A vector's memory and reallocation cost are bounded by its largest size | P | the vector and deque models of Vector.v and Deque.v; the capacity is the length of the block, a reallocation is a change of block identity | block-shape lemmas for every operation (Growth.v), then invariants over the history: capacity <= 2 peak for vectors; front and back gap at most half of the block for deques |
| C128 | A deque's memory is bounded by its largest size | R | the vector and deque models of Vector.v and Deque.v; the capacity is the length of the block, a reallocation is a change of block identity | block-shape lemmas for every operation (Growth.v), then invariants over the history: capacity <= 2 peak for vectors; front and back gap at most half of the block for deques — False: push_back reallocates (doubling) whenever the end of the block is reached although the front is free, and pop_front never gives the room back, so n rounds of push_back/pop_front leave a block of n to 2n slots although the deque never has more than one element (refuted; also the mirror image and at the level of c_queue). Proved: at most four times the largest size for histories that do not fill at one end and empty at the other; at most eight times the number of elements ever added for all histories. |
| C129 | Growing a vector or deque by any count is safe | R | the growing functions of vector and deque again, with arithmetic modulo the number of values of size_t (SizeT.v) | for small sizes step by step equal to the model without wraparound, then C106; the refutation computes the size of the block malloc gives and shows that the fill leaves it — False: cap * value_size wraps around for vectors (element size 2 or more) and count * 2 for deques (any element size), so malloc succeeds with a small block and the fill runs outside it (refuted, for arbitrary vectors and deques, also at 2^64). Proved: as long as the sizes are small enough every operation and every history behaves as with unbounded numbers. |
| C130 | insert_range inserts the elements of any range | R | InsertRange.v: the insertion loops over iterators of IterWorld.v; a parameter passed by value has no position field | reading the missing field is undefined behaviour; with whole parameters induction over the range — False for every valid position and every range, even an empty one: first and last are c_iterator_t parameters passed by value, which do not contain the position, so the comparison reads outside the parameters (refuted). Proved: with an invalid position nothing changes; if the iterators were passed whole, the loop would do what is claimed. |
| C131 | Sorting a list loses nothing, whatever the comparator | P | the models of C16 and C19 | the sort proof is generic in what a merge preserves (DListSort.v, SlistSort.v: record merging); instantiated with permutation only — Proved with no condition on the comparator; the sorted and stable part under a strict weak order is C16 and C19. |
| C132 | Sets and maps lose nothing, whatever the comparator | R | the tree model of C21; any_tree (TreeAny.v) is the tree invariant without order | functions that do not compare: reduced to the ordered case with the constant comparator; insertion: the side a new node is linked on is the side the search left on, for any comparator; bounds: simultaneous induction for asymmetric comparators; then induction over histories — Proved for every comparator for insertion without a hint, insertion of duplicates with a hint, erasure by position, clear and the lookups, for one call and for histories (C132_partial, C132_history_partial); hinted unique insertion and erasure by key are proved for every asymmetric comparator, transitive or not (C132_asymmetric_partial). False for those two with a reflexive comparator such as less-or-equal: the first overwrites a link and loses an element (C132_hint_refuted), the second follows a null pointer or never ends (C132_erase_key_refuted). |
| C133 | Algorithms survive running out of memory | R | the iterator programs of C112-C126 run with an oracle for malloc (IterOom.v: run_m); a variable whose allocation failed is null | a program-logic rule set for a null variable (nul, kept), applied to each program by a tactic; copy_backward loops for ever because the comparison with a null iterator is false; conservativity by induction over programs — False of the code: no algorithm looks whether its copies of the caller's iterators were made. For every algorithm, every container and all arguments (the range not empty where empty ranges return early) the call does not return normally when its first allocation fails (C133_*_refuted, 72 functions); when the second fails it can return a wrong answer (C133_wrong_answer_refuted). C133_enough_memory_partial: when no allocation fails the calls behave exactly as in the theorems C112-C126, in both directions. |
| C134 | All iterators implement one interface | P | IterPost.v: the post_increment and post_decrement entries on a store of iterator objects, for all nine iterator kinds (IterWorld.v) | the uniform view of containers (IterWorldProofs.v: sview) gives every operation; induction over the number of reads — Proved for all containers. The returned iterator is the old position unless the caller passes the iterator itself as the temporary (C134_post_self says what happens then). |
| C135 | References to deque elements survive modifications that do not reallocate | R | the deque model of C08; a reference is the block and the slot, dereferencing it after the block is freed is undefined | the first slot after each operation is computed; reading a slot gives the element of the new sequence at that distance; induction over histories of end operations — False for insertions: when the room is at the front, an insertion moves the elements before the position although the block is kept, and a reference to them reads another element (C135_insert_before_refuted); a push without room at its own end reallocates even with room at the other (C135_push_keeps_refuted). The exact behaviour of every operation is proved. |
| C136 | Stacks and queues survive running out of memory | P | AdapterOom.v: the adapters of Adapters.v with an oracle for the outcomes of malloc and a count of the objects on the heap | each operation either does what it does with memory or leaves the state of one adapter alone; simulation of the histories, for priority queues up to permutation — Histories that count on an adapter that was not created stop at the first call on a missing adapter; a vector's or deque's block belongs to its container object. |
| C137 | Priority queues survive running out of memory | R | AdapterOom.v: the adapters of Adapters.v with an oracle for the outcomes of malloc and a count of the objects on the heap | each operation either does what it does with memory or leaves the state of one adapter alone; simulation of the histories, for priority queues up to permutation — False: push and pop do not check the iterators they allocate for the heap algorithms, which then silently do nothing: a push leaves a greater element below, a pop removes an element other than the top (C137_priority_refuted). Proved: every call returns, the contents are right as collections, nothing is leaked, and without failures the run is that of C56. Failures inside the heap algorithms dereference null and are not followed further. |
| C138 | A range of another set or map is copied exactly | P | TreeRange.v: the insertion of a range of tree iterators, which move in the tree as it grows | the loop invariant splits the source at the iterator; for the own range the inserted node's place relative to the iterator is the end of the run of equivalent keys; non-termination by induction on the fuel |
| C139 | A set or map given its own range is unchanged | P | TreeRange.v: the insertion of a range of tree iterators, which move in the tree as it grows | the loop invariant splits the source at the iterator; for the own range the inserted node's place relative to the iterator is the end of the run of equivalent keys; non-termination by induction on the fuel |
| C140 | A multiset or multimap can be given its own range | R | TreeRange.v: the insertion of a range of tree iterators, which move in the tree as it grows | the loop invariant splits the source at the iterator; for the own range the inserted node's place relative to the iterator is the end of the run of equivalent keys; non-termination by induction on the fuel — False of the code: with forward iterators the copy of an element is inserted in front of the iterator, at the end of the elements with that key, and the iterator never gets past them. C140_own_range_refuted: begin to end of any non-empty tree never returns. C140_forward_exact_partial: the call returns iff the element at the last position has the key of the first, and then the copies are exact. C140_backward_exact_partial: with reverse iterators it always returns, but each element that is the last with its key is copied twice. |
| C141 | Merging a list with itself does nothing | R | DList.v and Slist.v: the merge functions with the same list as both arguments | the run of equivalent elements in front of a greater one is rotated by each transfer: non-termination by induction on the fuel with the rotated list as invariant — False of the code. C141_self_merge_refuted: the list 1, 1, 2 merged with itself never returns. C141_self_merge_exact_partial: a sorted list is left alone iff no two equivalent neighbours are less than the last element, and otherwise the call never returns (the equivalent elements rotate in front of the next greater one). C141_distinct_partial: strictly increasing lists are left alone. |
| C142 | Merging a forward list with itself does nothing | R | DList.v and Slist.v: the merge functions with the same list as both arguments | the run of equivalent elements in front of a greater one is rotated by each transfer: non-termination by induction on the fuel with the rotated list as invariant — False of the code for every non-empty list. C142_self_merge_refuted: 1, 2 merged with itself never returns; 7, 7 merged with itself returns empty, with its elements still allocated. C142_self_merge_exact_partial: a sorted forward list of equivalent elements comes back empty and leaks every element; any other never returns. |
| C143 | Algorithms destroy and free their temporary elements | P | The functions of /repo/algorithm that make temporary elements, as programs with storage for the temporaries (IterTemp.v): raw or holding an element, a count of elements lost. | A simulation of the program with temporaries by the program with local values (IterTempProofs.v), rule by rule; for algo_sort a frame argument that make_heap moves only its own iterators, so that the heap-sort case replaces no element (IterTempSort.v). The number of elements lost by partial_sort and partial_sort_copy: programs without temporaries that count the pushes yield the programs with temporaries, and the count is an invariant of the selection loop (SortCount.v, IterTempCount.v). |
| C144 | generate, push_heap and partial_sort lose no element | R | The functions of /repo/algorithm that make temporary elements, as programs with storage for the temporaries (IterTemp.v): raw or holding an element, a count of elements lost. | A simulation of the program with temporaries by the program with local values (IterTempProofs.v), rule by rule; for algo_sort a frame argument that make_heap moves only its own iterators, so that the heap-sort case replaces no element (IterTempSort.v). The number of elements lost by partial_sort and partial_sort_copy: programs without temporaries that count the pushes yield the programs with temporaries, and the count is an invariant of the selection loop (SortCount.v, IterTempCount.v). — False of the code. algo_push_heap_by on two or more elements frees its copy without destroying it (exactly one element lost per call, so a priority queue loses one per push); algo_generate and algo_generate_n over n >= 1 elements lose n - 1 (memset over a constructed element), and algo_generate on an empty range destroys storage in which nothing was constructed: refutation and exact counts proved. partial_sort and partial_sort_copy lose exactly one element per replacement in their heap of the n smallest, for n >= 2 (counted over the input by SortCount.replacements; build without the pointer check, as C126); for every call all storage is freed and nothing is destroyed twice. |
| C145 | Splicing within one list only changes the order of its elements | R | The same list models (DList.v, Slist.v), the splice functions called with the list itself as the other list and a position inside the moved range. | The links after the call are computed segment by segment (ListInsideProofs.v, SlistInsideProofs.v); for the position at the start of the range the next links are those of a smaller list and the prev links are unchanged. — False of the code, which does not test for a position inside the range. Positions outside: C14_splice_within. Inside, exactly: for m < k < n the list is left well formed without the range, whose elements stay allocated for ever; for k = m the range disappears when walking forward but not backward; splicing a whole list into itself empties it (at its end: no effect). |
| C146 | Splicing within one forward list only changes the order of its elements | R | The same list models (DList.v, Slist.v), the splice functions called with the list itself as the other list and a position inside the moved range. | The links after the call are computed segment by segment (ListInsideProofs.v, SlistInsideProofs.v); for the position at the start of the range the next links are those of a smaller list and the prev links are unchanged. — False of the code. Positions outside: C20_splice_within. After one of the moved elements, exactly: the list is left well formed without the range, whose elements stay allocated and are not freed when the list is destroyed; splicing a whole list after one of its own elements empties it (after before-begin: no effect). |
| C147 | Iterating over a whole set or map takes linear time | P | The tree model (Tree.v); ++ and -- once more with the number of iterations of their loop as a bound (TreeSteps.v), equal to the model's functions. | The exact cost of each step as a function of the tree's shape (number of links to the successor); the costs of a subtree add up to at most twice its size by induction on the tree; a single step is bounded by the height. |
| C148 | Sorting and merging lists takes few comparisons | P | The merge and sort functions of the list models once more, also returning the number of calls of the comparator (DListCount.v, SlistCount.v); forgetting the number gives the model's functions, for every input and memory. | The invariants of the sorts with the number added: what the carry loop spends is paid by the elements moving up a bin (a merge in bin i of 2^i and 2^i elements costs at most what 2^(i+1) elements gain), and an element in bin i with 2^i <= n has moved up at most log2 n times; the last merges double at most. |
| C149 | Heap algorithms and partial sorts make few comparisons | P | The heap functions, partial_sort, partial_sort_copy and sort of the models once more, also returning the number of calls of the comparator (HeapCount.v, IntroCount.v); forgetting the number gives the model's functions, for every comparator, input and memory. | A loop that starts at hole i of n elements goes down at most log2 (n/(i+1)) levels with two comparisons each, and these heights sum up to less than n (halving n). A partition of n elements makes at most n + 2 comparisons: the two scans meet with an overlap of at most one element. The parts of a partition are disjoint, so every level of the quicksort costs at most 3n/2, there are 2 log2 n levels, and the heap sorts at the bottom are of disjoint parts. Insertion into a sorted run of i elements makes at most i + 1; the insertion of elements beyond the 512th makes at most 2, as it reads the cell it overwrites (C39). |
| C150 | Sorting never gets quadratic | P | The heap functions, partial_sort, partial_sort_copy and sort of the models once more, also returning the number of calls of the comparator (HeapCount.v, IntroCount.v); forgetting the number gives the model's functions, for every comparator, input and memory. | A loop that starts at hole i of n elements goes down at most log2 (n/(i+1)) levels with two comparisons each, and these heights sum up to less than n (halving n). A partition of n elements makes at most n + 2 comparisons: the two scans meet with an overlap of at most one element. The parts of a partition are disjoint, so every level of the quicksort costs at most 3n/2, there are 2 log2 n levels, and the heap sorts at the bottom are of disjoint parts. Insertion into a sorted run of i elements makes at most i + 1; the insertion of elements beyond the 512th makes at most 2, as it reads the cell it overwrites (C39). |
| C151 | Lookups and insertions in sets and maps make logarithmically many comparisons | P | TreeCount.v: the lookups and insertions of Tree.v once more, also counting the calls of the key comparator; forgetting the counts gives the model's functions | the count is at most the height of the subtree searched (twice for find, per level of each boundary path for count), and the height is at most 2 log2(n+1) by the red-black rules; right hints by cases on the place of the hint |
| C152 | Binary searches, merges, set operations and extreme elements make few comparisons | P | OrdCount.v: the functions of AlgoOrd.v and the sortedness checks of AlgoSort.v once more, also counting the calls of the comparator; forgetting the counts gives the model's functions | induction on the loops: a binary search halves the range per comparison; every round of a two-range loop leaves at least one element less, and none is made when a range is used up; the linear scans make one or two comparisons per element after the first. Stated for every returning call; that the calls return is C40 to C50 and C97. |
| C153 | Insertion, erasure and iterator steps in sets and maps take logarithmic time | P | TreeTime.v: the functions of Tree.v with a budget of rounds for every loop | each budgeted loop agrees with the model's when both succeed; the path from the root is no longer than the height, which is logarithmic; the budgeted operations succeed on every red-black tree |

## 5. What the code does not do (found while modelling; each is a theorem)

Sequence containers: vector `insert_n` overflows its buffer when the count exceeds what the reallocation gives (C02, C03); `reserve` appends default elements
(C04); vector and deque `copy` take size = capacity (C05, C10) and `assign` leaves the target empty or overflows (C06, C11); reallocation destroys the
elements it moved bitwise (C64); inserting an element of the container itself reads freed or shifted memory (C65); iterator `distance` divides unsigned (C67);
copies, creations and assignments write through null or short blocks when memory runs out (C107).
Lists: `remove` with a reference to an element of the list reads it after freeing it (C69, C70, C83, C84); `sort` replaces the sentinel, so end() is freed
(C71, C72, C85, C86); forward list `erase_after_range(first, first)` erases everything after `first` and never returns (C88, C89).
Trees: `destroy` leaks the header (C75); `erase_from` walks an array of keys with the size of the values (C77); `rb_verify` accepts trees that are neither sorted nor
balanced (C78, C79). With a comparator that is reflexive, hinted insertion into a set overwrites a link and loses elements, and `erase_key` follows null pointers or
never ends (C132); all other tree functions are safe with every comparator.
Algorithms: `sort` loses elements above 512 (C39) and runs out of the range there with a comparator that is not an order (C96); `is_sorted_until` and `is_heap_until`
are off (C41, C44); `set_difference` drops elements (C50); `make_heap` and with it `partial_sort` move iterators outside the block (C124); `merge` takes the second range's element on ties (C46).
Deques: a block used first-in-first-out grows with the number of pushes, not with the number of elements (C128), and with it a queue over a deque. An insertion that finds room only at the front moves the elements before the position without reallocating, so references to them silently read other elements (C135).
`insert_range` of vectors and deques takes its iterators by value as `c_iterator_t`, without their positions, and reads outside of them (C130).
Counts near the limits of size_t: `resize` of vectors and `resize` and `insert_n` of deques compute the size of the new block modulo 2^64 and write outside it (C129).
Adapters and dictionaries: queue over vector cannot pop (C55), priority queue over list cannot work (C93), `swap` of priority queues keeps the comparators (C57), `swap` between different backends
corrupts (C91), pushing the own top (C92); map insertion aborts when malloc returns a recycled block, because `c_pair_copy` asserts on uninitialised memory (C59, C60, C99); floating point `less` with NaN (C104).
Not modelled as theorems, but visible in the text: the out-parameter assertions of `c_modifying.c` apply `C_ITER_AT_LEAST` to the variable's address instead of the iterator in it;
`algo_unique_copy_by` with a null `d_last` does nothing (theorem `C116_unique_copy_by_null`).
`algo_generate` on an empty range destroys a temporary that was never initialised; `algo_generate` and `algo_generate_n` clear their temporary with memset each round without destroying
the previous value, and `algo_push_heap_by` frees its copy of the value without destroying it: leaks for types that own memory, one per push of a priority queue (C144).
Priority queues do not check the iterators they allocate: without memory for them a push leaves the queue out of order and a pop removes an element other than the top (C137).
If malloc of an iterator copy fails the algorithms follow a null pointer or read past the range (C133).
A multiset or multimap given a range of its own elements never returns, except inside one run of equal keys; with reverse iterators it copies the last element of each run twice (C140).
Merging a list with itself never returns if two equal elements are less than the last one (C141); merging a forward list with itself never returns, or empties it and leaks its elements (C142).
Splicing a range of a list, or a forward list, to a place inside that range unlinks the range and leaks it (C145, C146).
- C153 bounds the rounds of every loop of insertion (without a hint), erasure and single iterator steps; the straight-line code between loops is constant. Insertion with a hint is not covered by C153 (its comparisons are, by C151).
