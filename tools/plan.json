[
[
1,
1,
"Vector, Buffer",
"vrep (block = elements ++ spare); simulation lemma per operation against the sequence specification, induction on the history"
],
[
2,
7,
"Vector, Buffer",
"vrep; direct computation of the reallocation sizes, witnesses by vm_compute"
],
[
8,
8,
"Deque, Buffer",
"drep; simulation lemma per operation against the sequence specification, induction on the history"
],
[
9,
11,
"Deque, Buffer",
"drep; arithmetic of the reallocation, witnesses by vm_compute"
],
[
12,
12,
"DList, DListRun",
"is_list (closed doubly linked path through the sentinel); simulation lemma per operation against the sequence specification, induction on the history"
],
[
13,
17,
"DList",
"segment lemmas for link/unlink/transfer; merge and the 64-bin sort by loop invariant (bin i empty or holding 2^i elements in order)"
],
[
18,
18,
"Slist, SlistRun",
"is_slist; simulation lemma per operation against the sequence specification, induction on the history"
],
[
19,
20,
"Slist",
"as C13-C17"
],
[
21,
21,
"Tree, TreeRun",
"rep: memory = address-annotated functional tree; simulation lemma per operation against the sequence specification, induction on the history"
],
[
22,
30,
"Tree",
"rep + red-black invariant; rotations and both rebalancing loops by induction on the zipper context from node to root"
],
[
31,
33,
"AlgoNonMod",
"loop invariants by induction on the range"
],
[
34,
37,
"AlgoMod",
"loop invariants by induction on the range; frame (all other cells unchanged)"
],
[
38,
38,
"AlgoOrd",
"loop invariants by induction on the range"
],
[
39,
42,
"AlgoSort, AlgoHeap",
"loop invariants by induction on the range; introsort by induction on depth and length"
],
[
43,
44,
"AlgoHeap",
"percolation invariants on the index tree"
],
[
45,
45,
"AlgoOrd",
"halving invariant"
],
[
46,
51,
"AlgoOrd",
"two-range loop invariant, counting occurrences per equivalence class"
],
[
52,
53,
"AlgoOrd",
"loop invariants by induction on the range"
],
[
54,
57,
"Adapters (over Vector, Deque, DList, AlgoHeap)",
"refinement to the abstract adapter, induction on the history"
],
[
58,
58,
"Pair",
"case analysis on the component comparisons"
],
[
59,
60,
"Dict, Pair, Tree",
"Dict refines the tree history; finite map/multiset specification; witness with a recycling allocator"
],
[
61,
65,
"Vector, Deque, Buffer",
"exact symbolic execution of each function from vrep/drep; ledger of destroyed elements"
],
[
66,
67,
"RandomIter",
"modular arithmetic over Z"
],
[
68,
73,
"DList, DListRun",
"world invariant: the heap is exactly the nodes of the lists; exact execution of the aliasing cases"
],
[
74,
79,
"Tree, TreeVerify",
"world invariant; structural recursion of the self-check"
],
[
80,
89,
"Slist, SlistRun",
"as C68-C73; divergence: NoFuel for every fuel"
],
[
90,
94,
"Adapters",
"world invariant; exact conditions by cases on the backend"
],
[
95,
97,
"AlgoHeapAny, AlgoSortAny",
"permutation and bounds invariants that do not use the order"
],
[
98,
102,
"Pair, Dict",
"heap with separately owned components; cases on the outcome of malloc"
],
[
103,
104,
"Prime",
"byte/word round trips over Z; SpecFloat comparison"
],
[
105,
105,
"AlgoCost",
"halving measure"
],
[
106,
107,
"OomSeq",
"operation = done or dropped; induction on the history"
],
[
108,
108,
"DListOom",
"as C12 with the outcomes of malloc as input; allowed results lhist_may"
],
[
109,
109,
"SlistOom",
"as C108"
],
[
110,
110,
"TreeOom",
"as C108: an insertion tracks the succeeding one or changes nothing"
],
[
111,
111,
"Dict, Tree",
"simulation of the client of Dict.v by the client of the trees; walk lemmas between positions; classes of a sorted sequence are its segments"
],
[
112,
115,
"Iter, IterNonMod, IterWorld",
"weakest preconditions on flat cells, linked to AlgoNonMod; simulation of flat cells by every container (views); store of iterator objects as a finite map"
],
[
116,
118,
"Iter, IterMod, IterWorld",
"as C112-C115, with the written cells given by the flat theorems of AlgoMod"
],
[
119,
122,
"Iter, IterOrd, IterWorld",
"as C112-C118, with three containers at a time (IterLift3) and the flat theorems of AlgoOrd, AlgoSet and AlgoSort"
],
[
123,
126,
"Iter, IterHeap, IterSort, IterWorld",
"as C112-C122: the iterator programs are shown to compute on flat cells what AlgoHeap and AlgoSort compute on lists (IterHeapProofs, IterSortProofs, IterPscProofs; local iterator variables that start as null pointers in IterLocals), then lifted to vectors and deques; refutations by running the programs (IterStuck: undefined behaviour excludes any outcome)"
],
[
127,
128,
"the vector and deque models of Vector.v and Deque.v; the capacity is the length of the block, a reallocation is a change of block identity",
"block-shape lemmas for every operation (Growth.v), then invariants over the history: capacity <= 2 peak for vectors; front and back gap at most half of the block for deques"
],
[
129,
129,
"the growing functions of vector and deque again, with arithmetic modulo the number of values of size_t (SizeT.v)",
"for small sizes step by step equal to the model without wraparound, then C106; the refutation computes the size of the block malloc gives and shows that the fill leaves it"
],
[
130,
130,
"InsertRange.v: the insertion loops over iterators of IterWorld.v; a parameter passed by value has no position field",
"reading the missing field is undefined behaviour; with whole parameters induction over the range"
],
[
131,
131,
"the models of C16 and C19",
"the sort proof is generic in what a merge preserves (DListSort.v, SlistSort.v: record merging); instantiated with permutation only"
],
[
132,
132,
"the tree model of C21; any_tree (TreeAny.v) is the tree invariant without order",
"functions that do not compare: reduced to the ordered case with the constant comparator; insertion: the side a new node is linked on is the side the search left on, for any comparator; bounds: simultaneous induction for asymmetric comparators; then induction over histories"
],
[
133,
133,
"the iterator programs of C112-C126 run with an oracle for malloc (IterOom.v: run_m); a variable whose allocation failed is null",
"a program-logic rule set for a null variable (nul, kept), applied to each program by a tactic; copy_backward loops for ever because the comparison with a null iterator is false; conservativity by induction over programs"
],
[
134,
134,
"IterPost.v: the post_increment and post_decrement entries on a store of iterator objects, for all nine iterator kinds (IterWorld.v)",
"the uniform view of containers (IterWorldProofs.v: sview) gives every operation; induction over the number of reads"
],
[
135,
135,
"the deque model of C08; a reference is the block and the slot, dereferencing it after the block is freed is undefined",
"the first slot after each operation is computed; reading a slot gives the element of the new sequence at that distance; induction over histories of end operations"
],
[
136,
137,
"AdapterOom.v: the adapters of Adapters.v with an oracle for the outcomes of malloc and a count of the objects on the heap",
"each operation either does what it does with memory or leaves the state of one adapter alone; simulation of the histories, for priority queues up to permutation"
],
[
138,
140,
"TreeRange.v: the insertion of a range of tree iterators, which move in the tree as it grows",
"the loop invariant splits the source at the iterator; for the own range the inserted node's place relative to the iterator is the end of the run of equivalent keys; non-termination by induction on the fuel"
],
[
141,
142,
"DList.v and Slist.v: the merge functions with the same list as both arguments",
"the run of equivalent elements in front of a greater one is rotated by each transfer: non-termination by induction on the fuel with the rotated list as invariant"
],
[
143,
144,
"The functions of /repo/algorithm that make temporary elements, as programs with storage for the temporaries (IterTemp.v): raw or holding an element, a count of elements lost.",
"A simulation of the program with temporaries by the program with local values (IterTempProofs.v), rule by rule; for algo_sort a frame argument that make_heap moves only its own iterators, so that the heap-sort case replaces no element (IterTempSort.v). The number of elements lost by partial_sort and partial_sort_copy: programs without temporaries that count the pushes yield the programs with temporaries, and the count is an invariant of the selection loop (SortCount.v, IterTempCount.v)."
],
[
145,
146,
"The same list models (DList.v, Slist.v), the splice functions called with the list itself as the other list and a position inside the moved range.",
"The links after the call are computed segment by segment (ListInsideProofs.v, SlistInsideProofs.v); for the position at the start of the range the next links are those of a smaller list and the prev links are unchanged."
],
[
147,
147,
"The tree model (Tree.v); ++ and -- once more with the number of iterations of their loop as a bound (TreeSteps.v), equal to the model's functions.",
"The exact cost of each step as a function of the tree's shape (number of links to the successor); the costs of a subtree add up to at most twice its size by induction on the tree; a single step is bounded by the height."
],
[
148,
148,
"The merge and sort functions of the list models once more, also returning the number of calls of the comparator (DListCount.v, SlistCount.v); forgetting the number gives the model's functions, for every input and memory.",
"The invariants of the sorts with the number added: what the carry loop spends is paid by the elements moving up a bin (a merge in bin i of 2^i and 2^i elements costs at most what 2^(i+1) elements gain), and an element in bin i with 2^i <= n has moved up at most log2 n times; the last merges double at most."
],
[
149,
150,
"The heap functions, partial_sort, partial_sort_copy and sort of the models once more, also returning the number of calls of the comparator (HeapCount.v, IntroCount.v); forgetting the number gives the model's functions, for every comparator, input and memory.",
"A loop that starts at hole i of n elements goes down at most log2 (n/(i+1)) levels with two comparisons each, and these heights sum up to less than n (halving n). A partition of n elements makes at most n + 2 comparisons: the two scans meet with an overlap of at most one element. The parts of a partition are disjoint, so every level of the quicksort costs at most 3n/2, there are 2 log2 n levels, and the heap sorts at the bottom are of disjoint parts. Insertion into a sorted run of i elements makes at most i + 1; the insertion of elements beyond the 512th makes at most 2, as it reads the cell it overwrites (C39)."
],
[
151,
151,
"TreeCount.v: the lookups and insertions of Tree.v once more, also counting the calls of the key comparator; forgetting the counts gives the model's functions",
"the count is at most the height of the subtree searched (twice for find, per level of each boundary path for count), and the height is at most 2 log2(n+1) by the red-black rules; right hints by cases on the place of the hint"
],
[
152,
152,
"OrdCount.v: the functions of AlgoOrd.v and the sortedness checks of AlgoSort.v once more, also counting the calls of the comparator; forgetting the counts gives the model's functions",
"induction on the loops: a binary search halves the range per comparison; every round of a two-range loop leaves at least one element less, and none is made when a range is used up; the linear scans make one or two comparisons per element after the first. Stated for every returning call; that the calls return is C40 to C50 and C97."
],
[
153,
153,
"TreeTime.v: the functions of Tree.v with a budget of rounds for every loop",
"each budgeted loop agrees with the model's when both succeed; the path from the root is no longer than the height, which is logarithmic; the budgeted operations succeed on every red-black tree"
]
]