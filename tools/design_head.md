# DESIGN — a Rocq (Coq 8.16.1) model of matrixjoeq/c_container

## 1. Approach

The C sources under `/repo/container`, `/repo/algorithm` and `/repo/prime` are modelled function by function as
executable Gallina.  Every definition of the model cites the file and lines it models.  A call that the C code would not
survive (access outside an object, following a null, dangling or uninitialised pointer, a failed `assert`: the build sets
no `NDEBUG`) has the outcome `UB`; a loop is a recursion on explicit fuel and running out of it is the separate outcome
`NoFuel`.  Theorems state an `Ok` outcome, so each includes memory safety and termination.

Memory models, each the least abstract one that lets the properties be stated:

* **Flat cells** (`/repo/algorithm`): memory is one `list A` of cells, an iterator is a cell index.  All the ranges of a
  call live in the same memory, so overlap and "nothing else changes" are expressible.
* **Iterators over containers** (`Iter*.v`): the same algorithms over an abstract iterator interface (the C function
  table), instantiated with the iterators of list, forward list, tree, vector and deque; the simulation theorem carries
  the flat-cell theorems over to containers.
* **Blocks** (vector, deque): a malloc'd block is a `list (option A)` (`None` = not initialised); the object holds the
  block and its offsets.  Destroyed elements are recorded, so double destruction and leaks are expressible.
* **Pointers** (list, forward list, tree, pair): a heap is a finite map from locations to nodes with their real
  `prev/next/parent/left/right` links; `free` removes the node.  The allocator is an arbitrary function that returns a
  location not in use.
* **Bytes and machine words**: iterator arithmetic of vector and deque (`RandomIter.v`, addresses modulo 2^64, element
  size `es`) and the built-in types (`Prime.v`: little-endian bytes, two's complement, IEEE floats via the standard
  library's `SpecFloat`, which needs no axiom).
* **Failing malloc** (`*Oom.v`): the functions that allocate, again, with an arbitrary list of the outcomes of the calls
  of malloc to come.

Element types (`c_type_info_t`) are a type `A` with a default value and comparison functions that are parameters of each
theorem; `StrictWeakOrder comp` is a hypothesis exactly where it is needed, and C95-C97 say what remains true without it.
Arguments that are references (`c_ref_t`) may point into the containers themselves wherever this can make a difference
(C65, C69, C70, C83, C84, C92 and all histories over lists and trees).

**Histories.** Container properties are proved for every finite sequence of API calls over any number of objects
(`lhist_*`, `fhist_*`, `thist_*`, `vec_run`, `deq_run`, adapters and dictionaries likewise): a specification on
mathematical sequences (`Spec*.v`, independent of the models), one simulation lemma per operation, induction on the history.

**Refuted claims.** Where the code does not do what its user relies on, the property keeps its full statement, a
`_refuted` theorem exhibits the failing call, and `_partial` theorems or a companion property state the exact behaviour.
Every partial status in MANIFEST.json is of this kind.

## 2. Layout (all under `rocq/theories`)

| files | contents |
|---|---|
| `Base`, `Facts` | outcome monad `res`, cells, generic lemmas |
| `Spec`, `SpecSeq`, `SpecListOps`, `SpecSlistOps`, `SpecTreeOps`, `SpecAdapters`, `SpecDict`, `SpecPair`, `SpecOom` | what is claimed: orders, stability, occurrences, sequence operations, histories, stacks/queues/priority queues, finite maps, failures of malloc.  Nothing here refers to the models |
| `SpecList`, `SpecSlist`, `SpecTree` | well-formedness of a heap: lists, forward lists, red-black trees |
| `AlgoNonMod`, `AlgoMod`, `AlgoOrd`, `AlgoHeap`, `AlgoSort` (+ `*Proofs`, `AlgoSetProofs`) | `/repo/algorithm/*.c` on flat cells |
| `AlgoHeapAny`, `AlgoSortAny`, `AlgoCost` | arbitrary comparators; iteration counts |
| `Iter`, `IterFlat`, `IterWp`, `IterWorld`, `IterWorldProofs`, `IterLift`, `IterLift3`, `IterLocals`, `IterStuck` | programs over iterator objects; flat memory and real containers as two worlds; the lifting from one to the other |
| `IterNonMod`, `IterMod`, `IterOrd`, `IterHeap`, `IterSort` (+ `*Proofs*`, `*Lift`, `IterSetProofs`, `IterPscProofs`, `SortLen`) | `/repo/algorithm/*.c` as such programs |
| `SpecIter`, `SpecIterOrd` | what it means that iterators point into containers, and what a call may change |
| `Buffer`, `Vector`, `Deque` (+ `*Proofs`), `RandomIter` | `c_vector.c`, `c_deque.c` |
| `DList`, `DListCore`, `DListProofs`, `DListAlgo`, `DListSort`, `DListRun`, `DListRunProofs`, `MergeFacts`, `SortFacts`, `Path` | `c_list.c` |
| `Slist`, `SlistCore`, `SlistProofs`, `SlistAlgo`, `SlistSort`, `SlistRun`, `SlistRunProofs` | `c_forward_list.c` |
| `Tree`, `TreeRep`, `TreeInsert`, `TreeErase`, `TreeIter`, `TreeUnlink`, `TreeApi`, `TreeOps`, `TreeLookup`, `TreeMod`, `TreeCheck`, `TreeVerify`, `TreeRun`, `TreeRunProofs` | `c_tree.c` |
| `Adapters`, `AdapterObs`, `AdapterProofs`, `AdapterPQ` | `c_stack.c`, `c_queue.c`, `c_priority_queue.c`, backend tables |
| `Pair`, `PairProofs`, `Dict`, `DictProofs` | `c_pair.c`, `c_set.c`, `c_map.c` |
| `Prime` | `/repo/prime` |
| `OomSeq`, `DListOom`, `SlistOom`, `TreeOom` (+ `*Proofs`) | the allocating functions when malloc fails |
| `Properties*` | the property theorems, each with its `Print Assumptions`, and examples meeting their hypotheses |

`tools/manifest.py` regenerates `MANIFEST.json` from the names of the theorems in `Properties*.v`; `tools/design.py`
regenerates this file from `tools/design_head.md`, `properties.jsonl` and `MANIFEST.json`.  `seeded/LOG.jsonl` records the wrong programs the theorems
were tested against.

## 3. Trusted base

* Coq 8.16.1's kernel, including its conversion by virtual machine (`vm_compute` is used for concrete witnesses).
* `Print Assumptions` says **"Closed under the global context"** for every property theorem: no axiom is used, neither
  ours (there are none) nor the standard library's.  (vcheck lists seven constants of `Coq.ssr.ssrunder.Under_rel`: these are
  fields of a module type of the ssreflect library loaded by std++; no theorem depends on them.)
* Libraries: Coq's standard library and std++ (lists, finite maps); both only contribute checked proofs.
* The reading of the C code: that the definitions of the model say what the cited lines do.  Nothing is extracted or
  generated from the C text.

**Modelled**: every function of `/repo/algorithm/*.c`, `/repo/container/*.c` and `/repo/prime/*` except those below.

**Not modelled, or simplified**:

* Sizes and indices are unbounded naturals, except where overflow matters: iterator arithmetic (C66, C67), the sizes of the blocks of vectors and deques (C129), list sizes below 2^64 for the
  sorts' 64 bins (C16, C19), built-in types (C103, C104).  A container of 2^64 elements does not fit in memory.
* Elements are values; copying an element yields an equal element and does not fail.  Types that own memory are
  covered by the pair model (C98-C102, C59, C60) and by the destruction ledgers (C63, C64, C68, C74, C80).
* Callbacks (comparators, predicates, unary operations) are pure total functions.
* In the container and algorithm models other than `Iter*.v`, iterator objects are their positions.  In `Iter*.v` the algorithms
  are programs over iterator objects (heap copies, frees, out parameters, function table, category asserts); there
  malloc of an iterator copy succeeds and value_type is not represented.  Whether merely forming a pointer outside a block is undefined is a
  parameter (`Checked`): theorems hold for both readings unless they assume `checked = false`.
* `vector/deque insert_range` take `c_iterator_t` by value: the C call slices the iterator object and reads out of bounds; not
  modelled (there is no behaviour to state).
* `max_size` (constants), `c_vector_data`, `c_get_*_type_info` accessors, `__c_get_time_ms`, the random seed.
* No concurrency: the library has none and claims none.

