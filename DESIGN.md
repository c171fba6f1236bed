# Formal model of sfl-library in Rocq (Coq 8.16.1)

## Approach

The member functions of the containers are transcribed into total Gallina functions in a small
state monad (`Lang.v`).  A run ends in `Ok`, `Exn` (a C++ exception reached the caller) or `UB`
(undefined behaviour: use of a dead object, construction over a live one, out-of-bounds access,
bad deallocation, violated `SFL_ASSERT`).  The heap is a finite map from (block, offset) to cells
that are raw memory, a live element, a pointer, or an allocation header (allocator id and size).
Which element operation or allocation throws is decided by an oracle that is universally
quantified in every theorem, as are the element type, the value left behind by a move, and the
values left behind by a throwing assignment.

Theorems are Hoare triples with two postconditions (normal/exceptional) over an *exact* heap
footprint with an arbitrary frame, so that "no leak" and "no double destroy" are part of every
statement; on top of them history theorems quantify over all finite sequences of operations.
The proofs use the Iris proof mode on a plain heap logic defined in `Sep.v`; no Iris ghost state.

Where a property turned out to be false of the code, the model contains a `*_refuted` theorem with
a concrete run, and the finding is described in the section Findings.

## Plan per property

* **C01** vector behaves as a mathematical sequence — Vector.v models every member function; one triple per function against list functions of Spec.v (separation logic over exact heaps).
* **C02** vector never reads, writes, constructs or destroys an object outside its lifetime — Same triples: UB is a distinct outcome, the heap footprint after each call is exactly the representation of the vector.
* **C03** vector: basic exception guarantee at every throw point — Same triples, exceptional postcondition, throw oracle universally quantified.
* **C04** vector: strong guarantee where documented — Stronger exceptional postcondition (identical heap and fields) for reserve, shrink_to_fit, emplace_back.
* **C05** vector: capacity laws — Capacity functions modelled with wrap-around arithmetic mod 2^64; arithmetic theorems plus capacity equations in the triples.
* **C06** vector: arguments may refer to elements of the same vector — Arguments are modelled as locations that may lie inside the container (ACopy/AMove).
* **C07** vector: copy/move/swap respect allocator propagation — Two-object monad for copy/move assignment and swap, allocator ids and trait bits.
* **C08** vector: pushing n elements costs O(n) element moves — Potential argument over the capacity recurrence of emplace_back.
* **C09** vector: references and iterators stay valid when no reallocation is needed — Capacity/pointer equations in the triples (same first pointer when no reallocation).
* **C10** vector: any history of operations is safe and leak free — Induction over operation lists from the triples.
* **C11** static_vector behaves as a bounded sequence and never exceeds its buffer — StaticVector.v, as C01/C02.
* **C12** static_vector: exception safety — as C03.
* **C13** static_vector: swap exchanges contents of different sizes — two-object swap triple.
* **C14** compact_vector: sequence semantics with capacity == size — Compact.v, as C01/C02.
* **C15** compact_vector: exception safety of operations — as C03.
* **C16** compact_vector: assign is exception safe — expected false: refuted by a concrete run of the model.
* **C17** compact_vector: resize(n, value) appends copies of value even if value is an element — expected false: refuted by a concrete run of the model.
* **C18** small_vector: sequence semantics in internal and external storage — SmallVector.v, as C01/C02 with two storage cases.
* **C19** small_vector: exception safety — as C03.
* **C20** small_vector: move construction, move assignment and swap — two-object triples.
* **C21** small_vector: swap keeps each block with its allocator even on exceptions — expected false for throwing moves: refuted by a concrete run; positive part for non-throwing moves.
* **C22** devector: double-ended sequence semantics — Devector.v, triples per function.
* **C23** devector: exception safety of insertion in the middle — expected false in two geometric cases: refuted by concrete runs; remaining cases by triples.
* **C24** devector: assignment releases the storage it allocated — expected false when front capacity > 0: refuted by a concrete run.
* **C25** devector: value arguments may refer to elements — expected false: refuted by concrete runs.
* **C26** segmented iterators are lawful random access iterators — SegIter.v: integer model of (segment, offset) pairs, algebraic laws.
* **C27** segmented containers never move existing elements on push_back/pop_back — SegVector.v triples with address of elements.
* **C28** segmented_vector: sequence semantics and memory safety — SegVector.v triples.
* **C29** segmented containers: swap keeps each block with its allocator — expected false for propagating swap: refuted.
* **C30** segmented_devector: inserting a range anywhere is memory safe — expected false at end(): refuted.
* **C31** segmented containers: size never exceeds max_size() — expected false (wrap-around test in grow_storage): refuted.
* **C32** ordered flat sets/maps stay strictly sorted and duplicate free — Flat models on top of the static/small storage models; sortedness invariant.
* **C33** ordered flat lookup is correct — binary search model of std::lower_bound/upper_bound.
* **C34** ordered flat insertion semantics — triples for insert/emplace.
* **C35** insertion hints never affect correctness — triples for hinted insertion.
* **C36** flat map element access and insert_or_assign/try_emplace — triples for map operations.
* **C37** flat multisets/multimaps keep every inserted element in sorted order — triples for multi containers.
* **C38** assigning an initializer list keeps container invariants — expected false for the static containers: refuted; small containers proved.
* **C39** flat set insertion and exceptions — triples with exceptional postcondition; sortedness refuted.
* **C40** unordered flat sets/maps hold at most one element per key — Unordered models and triples.
* **C41** unordered flat erase removes exactly the requested elements — triples.
* **C42** unordered flat multiset erase(key) may be given a reference to an element — expected false: refuted.
* **C43** unordered flat equality ignores order — permutation theorem for the is_permutation model.
* **C44** relocation algorithms are correct for overlapping ranges — Algo.v/AlgoProofs.v for ordinary iterators, SegAlgo.v/SegMoves.v/SegShift.v/SegTwo.v/CopyBack.v for iterators of segmented containers; theorems in AlgoThms.v and SegAlgoThms.v.
* **C45** at() is bounds checked — triples.
* **C46** erase/erase_if free functions — triples.
* **C47** inserting into an unordered flat container has no effect if it throws — triples with exceptional postcondition; expected false for `emplace` where the key equality throws after the element was constructed: refuted, positive part for the searches-first functions.
* **C48** devector: resize(n) adds and removes at the end — expected false: refuted by a concrete run; exact result proved.
* **C49** devector: adding one element has no effect if it throws — expected false for throwing moves: refuted; positive part.
* **C50** devector: growth up to max_size() — expected false: refuted; positive part.
* **C51** segmented_devector works as a queue of bounded size — expected false: refuted by a concrete run.
* **C52** segmented_devector: double-ended sequence semantics and memory safety — triples per function against lists (`Seg*.v`), histories.
* **C53** segmented_devector: resize(n) adds and removes at the end — expected false: refuted; exact result proved.
* **C54** devector: push_front and push_back take constant time, amortised — lower and upper bounds of the number of operations per call (`DevCost.v`), potential function over sequences of pushes; with pops expected false: refuted by an invariant of a cycle of calls (`DevCycle.v`).
* **C55** small_vector: push_back takes constant time, amortised — as for vector (`SmallCost.v`).
* **C56** flat sets and maps: lookup makes a logarithmic number of comparisons — bounds of the binary searches by induction on the digits of the size (`FlatCost.v`).
* **C57** unordered flat containers: lookup is linear, erase(pos) moves at most one element — as above.
* **C58** segmented containers: push at an end has a constant worst case and moves no element — compositional bounds (`SegCost.v`).
* **C59** ordered flat containers with a transparent comparator: lookup by an argument of another type — the argument is modelled by how it compares with the elements (`HetSpec.v`); triples as for the ordinary functions (`HetModel.v`, `HetProofs.v`).
* **C60** the same: insertion, assignment and removal; agreement with the functions that take a key — as above, and a comparison with the specification of the ordinary functions.
* **C61** the same: count(x) and erase(x) concern all equivalent elements — true for the multi containers; expected false for sets and maps: refuted by a concrete run.
* **C62** unordered flat containers with a transparent key equality: lookup by an argument of another type — the argument is modelled by the elements it is equal to (`UHetSpec.v`); triples as for the ordinary functions (`UHetModel.v`, `UHetProofs.v`).
* **C63** the same: insertion, assignment and removal; agreement with the functions that take a key — as above, and a comparison with `UnordSpec.v`.
* **C64** the same: count(x) and erase(x) concern all equal elements — true for the multi containers; expected false for sets and maps, as C61: refuted by a concrete run.
* **C65** segmented containers: resize(n, value) may be given an element of the container — growing a segmented container does not move elements, so expected true (unlike C17 and C25): the fill algorithms are proved for values read from the window they do not write.
* **C66** ordered flat containers: construction from a range is linear — the constructors insert one element after the other at its place, so expected false: a quadratic lower bound for descending ranges by induction over the loop (`FlatRange.v`), a quadratic upper bound for all ranges, n log n for ascending ranges in the static containers.
* **C67** unordered flat containers: insertion is O(1), construction from a range is linear — true for the multi containers; expected false for sets and maps, which look for the key first (`UnordRange.v`).
* **C68** erase_if is linear — the sequences and the unordered flat containers by bounds on `remove_if_` and `uerase_loop`; expected false for the ordered flat containers, which erase one element at a time (`EraseCost.v`).
* **C69** insertion and erasure are linear in the elements inserted plus the distance to the end — exact costs of the functions that work in place, an upper bound with reallocation; expected false for input iterators, which insert one element at a time (`InsertSpec.v`, `InsertCost.v`).
* **C70** devector: insertion and erasure are linear in the distance to the nearer end — cost of each of the
  23 branches of `insert_aux` and its helpers (DevInsertCost.v); expected false without room at the nearer end.
* **C71** Segmented containers: insertion and erasure are linear in the distance to the end — exact cost of the
  segmented algorithms by the positions of their iterators (SegMid.v), of the members (SegInsertCost.v);
  expected false for input iterators.
* **C72** assign(n, value) accepts an element of the container as value — the fill loops read the element again
  for every copy; invariant: it keeps its value, also after it has been assigned to itself, until the tail is
  destroyed (OwnFill.v, OwnContig.v, OwnDev.v, OwnSeg.v); expected false when the storage is replaced.
* **C73** The constructors of the sequence containers are linear — exact number of element operations and
  allocations for every constructor (CtorCost.v, SegCtorCost.v); from input iterators by the amortised bounds of C55, expected
  false for compact_vector, which has no spare capacity.
* **C74** assign and the assignment operators of the contiguous containers are linear — number of element operations
  and allocations of each path (AssignCost.v, AssignMore.v); from input iterators by splitting the source where the
  old elements end and the amortised bounds of C55 for the rest.
* **C75** assign of the segmented containers is linear — the parts of each branch counted by the positions of the
  iterators in the segment table, as in C71 (SegAssignCost.v).
* **C76** resize, reserve, shrink_to_fit — counted branch by branch from the size and the capacity that the
  representation predicate gives (ResizeSpec.v, ResizeCost.v); the segmented containers as in C75 (SegResizeCost.v).
* **C77** swap, move assignment of the segmented containers — the pointer swaps leave the world unchanged, the
  element-wise ones are counted from the sizes (SwapCost.v, SegSwapCost.v).
* **C78** relational operators — `!=`, `>`, `<=`, `>=` as the code derives them from `==` and `<` (RelModel.v); what
  they should say is in RelSpec.v, the order of sequences in RelLists.v, the sequence containers in
  RelThms.v, the flat containers in FlatRel.v.
* **C79** copy and element-wise move assignment of the segmented containers — the source lies in the frame of the
  destination, so its table survives whatever the destination does to its own storage (SegCopyCost.v).
* **C80** relational operators, cost — the loops of `std::equal` and `std::lexicographical_compare` are bounded by the
  sizes, which are read first (RelCost.v, FlatRelCost.v).
* **C81** `nth`, `index_of` — contiguous containers: directly from the representation predicates; segmented containers:
  the program logic shows that the calls succeed, the lemmas on iterator positions that nothing changes (NthModel.v,
  NthThms.v); flat containers: their layout is that of static_vector and small_vector (NthFlat.v).
* **C82** iterators at different positions — different offsets in one block; for the segmented containers the segments are
  different blocks, and an iterator never points to the end of a segment (NthEq.v).

Nothing in the list turned out to be inexpressible in the model; the properties whose status is
`partial` in MANIFEST.json are those of which some part is false (a `_refuted` theorem beside the
positive part).

## Findings

Each of these is a theorem about the model (name in brackets); the line numbers are those of the
code modelled.  "Run" theorems are concrete executions evaluated by the kernel (`vm_compute`).

1. **compact_vector::assign, exception while constructing** (compact_vector.hpp 1206-1210,
   1267-1271).  The catch block calls `clear()`, which gives the new block back with the size
   `size() == 0` instead of the size it was allocated with: `deallocate(p, 0)`.
   [C16_compact_vector_assign_refuted; the code with the right size is safe:
   C16_compact_vector_repaired]
2. **compact_vector::resize(n, value) with a value inside the container** (826-907).  The old
   elements are moved to the new block before the copies are made, so copies of a moved-from
   element are appended.  [C17_compact_vector_resize_refuted]
3. **small_vector::swap with different, propagating allocators and throwing moves** (small_vector.hpp
   1379-1545).  The allocators are exchanged first; if one object uses its internal storage and the
   other one a block, elements are moved afterwards, and if that throws, the block belongs to an
   object with the wrong allocator.
   [C21_small_vector_swap_refuted]
4. **small_vector, moved-from objects** report `capacity() == 0 < N` until the next insertion.
   [C18_small_vector_capacity_N_refuted]
5. **devector::insert_aux_shift_to_back** (2712-2774): a scope guard destroys the empty range
   `[q10, q10)`; elements leak if a later step throws.  [C23_devector_leak_refuted]
6. **devector::insert_aux_shift_to_front** (3655-3713): a scope guard destroys up to `q20` what was
   constructed only up to `q11`.  [C23_devector_double_destroy_refuted]
7. **devector::reset** (1385-1416) gives the storage back through `first_` instead of `bos_`: every
   assignment that releases the storage of a container with free places at the front is undefined
   behaviour (assign_copy, assign_move, self-move).  [C24_devector_assignment_refuted,
   C24_devector_self_move_refuted: for all such states]
8. **devector::resize(n, value), resize_front, resize_back, insert(pos, n, value)** with a value
   inside the container: copies are made after the elements were relocated.
   [C25_devector_resize_refuted, C25_devector_insert_refuted]
9. **devector::resize(n)** (876-1039) puts part of the new elements *before* the first one if the
   room at the back is short.  [C48_devector_resize_refuted]
10. **devector::emplace_back/front**: elements are moved with `move` rather than
    `move_if_noexcept` when the storage grows; no strong guarantee for copyable elements whose move
    throws.  [C49_devector_push_back_refuted]
11. **devector growth** (3871, 3966): the growth step is not clamped, `length_error` is thrown
    although size() + 1 <= max_size().  [C50_devector_growth_refuted]
12. **segmented_vector::swap, segmented_devector::swap** (788-809; 1156-1177): the allocators are
    exchanged by the swap of the base classes and again if propagate_on_container_swap: with
    different propagating allocators storage is released with the wrong allocator.
    [C29_swap_refuted]
13. **segmented_devector::insert(pos, first, last)** (2321-2483) in the half nearer to the end forms
    `last_ - n` even if there are no `n` places before `last_`; the table is read out of bounds, also
    for one element inserted into an empty container.  [C30_insert_range_refuted,
    C30_insert_range_empty_refuted]
14. **segmented containers, grow_storage** (segmented_vector.hpp 958; segmented_devector.hpp 1329,
    1417): `max_size() - capacity()` wraps around once the capacity, rounded up to whole segments,
    exceeds max_size(); the size is then unlimited.  [C31_size_within_max_refuted]
15. **segmented_devector as a queue**: segments emptied by pop_front are never reused, capacity
    grows with the number of elements passed through, up to `length_error`.  [C51_queue_refuted]
16. **segmented_devector::resize(n)** (841-1004): as 9.  [C53_segmented_devector_resize_refuted]
17. **static_flat_* `operator=(initializer_list)`** (static_flat_set.hpp 252-256 and the same lines
    of the others) copies the list as it is: neither sorted nor free of duplicates.
    [C38_static_flat_assign_list_refuted; unordered: C38_static_unord_assign_list_refuted]
18. **ordered flat containers** are not sorted any more after an exception in the middle of an
    insertion or erasure (moved elements).  [C39_flat_sorted_refuted]
19. **unordered multi containers, erase(key)** with a reference to a key of the container: wrong
    elements are erased, a destroyed element is read.  [C42_unord_multi_erase_own_key_refuted,
    C42_small_unord_multi_erase_own_key_refuted]
20. **unordered sets and maps, emplace** (static, and small maps): if the key equality throws after
    the new element was appended, the element stays, perhaps as a duplicate.
    [C47_unord_emplace_refuted]
21. **devector, complexity of push and pop**: documented as "Constant".  Pushes alone are amortised
    constant.  But a push at an end without room moves all elements by size() / 2 places if the
    other end has more than that many free places (emplace_front_aux, emplace_back_aux, 2043-2115;
    1347-1383); it may have only one left afterwards, and a push there moves everything back.  With
    `2m` elements in a storage of `3m + 2` places, `m + 1` of them free at the front, the calls
    push_back twice, push_front, pop_back twice, push_front, pop_front twice lead back to the same
    geometry and cost at least `4m` element operations.  So no bound on the cost per call exists,
    not even amortised.  [C54_devector_push_pop_refuted]
22. **ordered flat sets and maps, count(x) and erase(x)** with an argument that several elements are
    equivalent to (a prefix of the key, say): documented as "the number of elements with key
    equivalent to x, which is either 1 or 0 since this container does not allow duplicates".  That
    the keys are unique does not make the matches of `x` unique: with two matches (which
    equal_range(x) shows) count(x) is 1, and erase(x) removes the first one only
    (static_flat_set.hpp 546-557, 772-778, and the three other containers).  `std::set` counts all.
    The unordered flat sets and maps behave alike (static_unordered_flat_set.hpp 527-540, 675-681).
    [C61_het_set_refuted, C64_uhet_set_refuted]
23. **Construction of the ordered flat containers from a range is quadratic** (documented: "Linear in
    `std::distance(first, last)`" and "Linear in `ilist.size()`", doc/{small,static}_flat_*.md).
    The constructors insert the elements one by one (small_flat_set.hpp 1326-1357,
    static_flat_set.hpp 148-176); each insertion moves the elements behind it.
    [C66_range_descending, C66_range_linear_refuted]
24. **Insertion into the unordered flat sets and maps is linear** (documented: "The complexity of
    insertion or removal of elements is O(1)", doc/{small,static}_unordered_flat_*.md), because the
    key is looked for first, and construction of the static ones from a range is quadratic
    (documented as linear).  The multi containers do what is documented.
    [C67_insert_new_linear, C67_range_distinct, C67_range_linear_refuted]
25. **erase_if of the ordered flat containers is quadratic** (documented: "Linear."; e.g.
    small_flat_set.hpp 1878-1895): the loop calls `c.erase(it)` for every match, and each call moves all
    elements behind.  Erasing everything takes exactly n(n+1)/2 operations.  The unordered ones and the
    sequences are linear. [C68_flat_erase_all, C68_flat_erase_if_linear_refuted]
26. **Inserting a range given by input iterators costs length × distance** (documented: "Linear in
    `std::distance(first, last)` plus linear in `std::distance(pos, end())`"; vector.hpp 1792-1806,
    small_vector.hpp 2244-2258, static_vector.hpp 703-715): the elements are inserted one by one at their
    place. [C69_input_linear_refuted, C69_*_insert_cost]
27. **Insertion into a devector is not bounded by the distance to the nearer end** (documented: "Constant
    plus linear in `std::min(std::distance(begin(), pos), std::distance(pos, end()))`", devector.md 899,
    921, 941, 961): without room at that end all elements are moved, whatever the position.  For
    `insert(pos, n, value)` (devector.md 961) even the number of copies is missing in the documented
    bound. [C70_devector_min_distance_refuted, C70_devector_insert_n_refuted, C70_devector_insert_full]
28. **Inserting a range given by input iterators into a segmented container is not linear** (documented:
    "Linear in `std::distance(first, last)` plus linear in `std::distance(pos, end())`", segmented_vector.md
    898, and the same with the nearer end in segmented_devector.md 936): as in finding 26 the elements are
    inserted one by one. [C71_segmented_vector_input_linear_refuted, C71_*_input_cost]
29. **`c.assign(n, c[i])` reads a destroyed element when the storage is replaced** (vector and small_vector with
    `n > capacity()`, devector likewise, compact_vector whenever `n != size()`): the old elements are destroyed
    and their memory is returned before `value` is read. The standard makes this the caller's problem
    (precondition of `assign(n, t)`), the documentation of the library does not ("Replaces the contents of the
    container with `n` copies of value `value`"). The segmented containers and static_vector are not affected.
    [C72_*_assign_own_refuted]
30. **Constructing a compact_vector from input iterators is quadratic** (compact_vector.md 198: "Linear in
    `std::distance(first, last)`"): `initialize_range` appends the elements one by one, and each
    `emplace_back` moves all elements into a new block. For `n` elements between `n(n+1)/2` and `n(n+3)/2`
    operations. [C73_compact_vector_input_linear_refuted, C73_compact_vector_ctor_cost]
31. **The move constructor of small_vector is not "linear in `N` in the worst case"** (small_vector.md 276): with
    an allocator that is not equal to the other object's, all elements are moved one by one, also if they are
    outside the object. [C73_small_vector_move_linear_N_refuted]

Observations that follow from the proved specifications (they are visible in the postconditions, no
separate theorem):

* The move constructors and move assignments of the segmented containers allocate and may throw
  `bad_alloc` (C28/C52 constructors2, two); they are not `noexcept` in effect.
* After a move, a small/static flat container keeps the moved-from elements if they were in the
  internal storage (the specification says which values remain).
* vector/small_vector `insert(pos, first, last)` with reallocation gives only the basic guarantee
  even at `end()`, `push_back` the strong one (C04).
* Static flat containers assert `!full()` before they look whether the key is already there.
* The small_* containers compute `calculate_new_capacity` with unsigned wrap-around if
  N > max_size(); all theorems about them assume N <= max_size().

## Trusted base

* The kernel of Coq 8.16.1 (with `vm_compute` in the concrete cases), and `coqc`'s parsing.
* `Print Assumptions` of every theorem in `Props_*.v` prints *Closed under the global context*: no
  axiom is used, neither own nor of a library.  (A listing of the axioms of all loaded libraries
  shows the seven entries of `Coq.ssr.ssrunder.Under_rel`, which are the fields of a module type of
  the standard library that is loaded by ssreflect; no theorem depends on them.)
* The transcription of the C++ text into Gallina (`Contig.v`, `Vector.v`, `StaticVector.v`,
  `CompactVector.v`, `SmallVector.v`, `Devector.v`, `FlatModel.v`, `HetModel.v`, `UnordModel.v`, `UHetModel.v`, `FlatClient.v`,
  `UnordClient.v`, `Algo.v`, `CopyBack.v`, `SegAlgo.v`, `Segmented.v`), which cites the lines it models.
* `Lang.v`, the model of the part of C++ the library relies on: objects and lifetimes, exceptions,
  `std::allocator_traits`.  In particular:
  - elements are values of an arbitrary type; the special member functions of the element type act
    on one element, and either succeed or throw; a throwing assignment leaves an arbitrary value; a
    throwing constructor leaves nothing; destructors, comparisons of pointers and the moves of
    allocators and function objects do not throw;
  - a move leaves the value `vmoved v` in the source;
  - allocators are compared by an identity number; `allocate(n)` returns a fresh block of exactly
    `n` places or throws `bad_alloc`; `deallocate` must be given the block, its size and an equal
    allocator;
  - which operations throw is a function of the kind and the number of the operation, quantified in
    every theorem (so every finite throw pattern is covered, dependent ones too: the number
    identifies the operation in the run);
  - a pointer is a block number and an offset; subtracting pointers into different blocks is `UB`;
    forming an out-of-range pointer is not flagged, accessing memory through it is; `size_type` has
    64 bits, `max_size() < 2^63`.

## What is modelled

* `vector`, `static_vector`, `small_vector`, `compact_vector`, `devector`, `segmented_vector`,
  `segmented_devector`: all constructors, destructor, assignment (copy, move, initializer list,
  self-move), `assign`, `insert`, `emplace`, `push`, `pop`, `erase`, `resize`, `reserve`,
  `shrink_to_fit`, `swap`, `clear`, element access, size functions, comparison (`==`, `<`),
  `erase`/`erase_if` free functions.  Functions with the same text in several headers are modelled
  once, citing all.
* `{static,small}_flat_{set,map,multiset,multimap}`, `{static,small}_unordered_flat_{...}`: all
  insertion, erasure, lookup, access, assignment, swap and comparison functions.  The comparators
  and key equalities are arbitrary functions (strict weak order / equivalence where a theorem needs
  that), and may throw.
* The algorithms of `private.hpp` for ordinary and for segmented iterators, `segmented_iterator`,
  `scope_guard` (as exception handlers).
* The standard algorithms called by the library (`std::lower_bound`, `upper_bound`, `equal_range`,
  `is_permutation`, `find_if`, `remove_if`, `equal`, `lexicographical_compare`,
  `swap_ranges`) as in libstdc++.

## What is not modelled

* Compile-time matters: SFINAE, overload resolution, deduction guides, `noexcept` and `constexpr`
  specifications, `static_assert`s, fancy pointers (pointers are (block, offset) pairs).
* Trivially forwarding members: `begin/end/cbegin/.../rbegin/...`, `max_size`, `get_allocator`,
  `key_comp`, `value_comp`, `data()` (the address of the first element is part of the abstract
  states), `normal_iterator`.
* The overloads for transparent comparators and key equalities are modelled (`HetModel.v`,
  `UHetModel.v`) with an argument that compares the same way whenever it is compared.
* `SFL_NO_EXCEPTIONS` builds; `SFL_ASSERT` is modelled as undefined behaviour when violated (so the
  theorems say that it is not violated under the stated preconditions).
* Element types with overloaded `operator&`, `operator new`; allocators with their own `construct`.
* Ranges given to member functions are lists of values (or, for `insert`/`emplace`/`push` of one
  element, `insert(pos, n, value)` and `resize(n, value)`, references to elements of the container); iterators into the
  container itself are not allowed as ranges, as in the documentation.  Dereferencing and
  incrementing the iterators of such ranges does not throw.
* Preconditions in addition to the documented ones are part of the theorems (`sv_pre`, `sd_pre`,
  `dev_doc`, ...); `assign(n, value)` takes a value in the client programs; with a reference to an own
  element it is the subject of C72.
* N <= max_size() for `small_*<T, N>`.

## How to read the theorems

The files `Props_*.v` contain the property theorems and one concrete case beside each.  A statement
`holds R x A w hf` says: in world `w`, the object with the data members `x` is a container with the
abstract value `A` (allocator, elements, storage), and memory consists of exactly what the container
owns (`R x A`, defined in `VecMem.v`, `SmallMem.v`, ..., `SegMem.v`) and of `hf`.  That `hf` is the
same before and after a call is what rules out leaks and stray writes.  The abstract effects are in
the `*Spec.v` files, which do not mention the code.
