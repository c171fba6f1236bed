{
 "claims": [
  {
   "property": "C01",
   "status": "proved",
   "theorems": [
    "C01_vector_sequence"
   ],
   "note": "Every member call of the model (SeqSpec.vop), for every reachable and every well-formed state; hypotheses: is_vec state and documented preconditions."
  },
  {
   "property": "C02",
   "status": "proved",
   "theorems": [
    "C02_vector_members_safe",
    "C02_vector_constructors_safe",
    "C02_vector_constructors2_safe",
    "C02_vector_destructor_safe"
   ],
   "note": "Members, constructors, copy/move constructors, destructor. is_vec fixes the owned memory cell by cell; the rest of memory is unchanged."
  },
  {
   "property": "C03",
   "status": "proved",
   "theorems": [
    "C03_vector_basic_guarantee",
    "C03_vector_no_exception_lost"
   ],
   "note": "For an arbitrary oracle deciding which element operation or allocation throws."
  },
  {
   "property": "C04",
   "status": "proved",
   "theorems": [
    "C04_vector_strong_documented",
    "C04_vector_strong"
   ],
   "note": "Object and whole heap unchanged; C04_vector_strong also covers further calls for which the code gives the strong guarantee."
  },
  {
   "property": "C05",
   "status": "proved",
   "theorems": [
    "C05_vector_size_capacity",
    "C05_vector_capacity",
    "C05_vector_length_error"
   ],
   "note": "Exact capacity after every call and exact length_error behaviour (input-iterator overloads excepted, which check as they go)."
  },
  {
   "property": "C06",
   "status": "proved",
   "theorems": [
    "C06_vector_aliasing"
   ],
   "note": "References by copy and by move (XCopy/XMove arguments)."
  },
  {
   "property": "C07",
   "status": "proved",
   "theorems": [
    "C07_vector_two_objects"
   ],
   "note": "Blocks remember the allocator that made them: releasing through an unequal allocator is undefined behaviour in the model, so safety covers the last clause."
  },
  {
   "property": "C08",
   "status": "proved",
   "theorems": [
    "C08_vector_push_back_amortised"
   ],
   "note": "Bound on all element operations and allocations, not only relocations."
  },
  {
   "property": "C09",
   "status": "proved",
   "theorems": [
    "C09_vector_storage_stable",
    "C09_vector_prefix_stable"
   ],
   "note": "Addresses also when the call throws; values of the prefix when it returns."
  },
  {
   "property": "C10",
   "status": "proved",
   "theorems": [
    "C10_vector_history",
    "C10_vector_no_leak"
   ],
   "note": "Histories of any number of vectors, including constructors, assignments, swaps and destructors."
  },
  {
   "property": "C11",
   "status": "proved",
   "theorems": [
    "C11_static_vector_sequence",
    "C11_static_vector_bounded",
    "C11_static_vector_aliasing",
    "C11_static_vector_prefix_stable"
   ],
   "note": "For every N (0 included) and every member call; next w' = next w says that no block is allocated."
  },
  {
   "property": "C12",
   "status": "proved",
   "theorems": [
    "C12_static_vector_basic_guarantee",
    "C12_static_vector_no_exception_lost",
    "C12_static_vector_strong",
    "C12_static_vector_constructors_safe",
    "C12_static_vector_constructors2",
    "C12_static_vector_two_objects",
    "C12_static_vector_destructor_safe",
    "C12_static_vector_history",
    "C12_static_vector_no_leak"
   ],
   "note": "Members, constructors, copy/move constructors, assignments, swap, comparisons, destructor and histories, for an arbitrary oracle."
  },
  {
   "property": "C13",
   "status": "proved",
   "theorems": [
    "C13_static_vector_swap",
    "C13_static_vector_swap_destroy"
   ],
   "note": "All pairs of sizes; both objects can be destroyed afterwards whether swap returned or threw."
  },
  {
   "property": "C14",
   "status": "proved",
   "theorems": [
    "C14_compact_vector_sequence",
    "C14_compact_vector_exact_allocation",
    "C14_compact_vector_two_objects"
   ],
   "note": "Every call that returns, in every environment (element operations and allocator may throw elsewhere); capacity() = size() and the allocator's record of the block says size()."
  },
  {
   "property": "C15",
   "status": "proved",
   "theorems": [
    "C15_compact_vector_safe",
    "C15_compact_vector_strong",
    "C15_compact_vector_constructors_safe",
    "C15_compact_vector_constructors2",
    "C15_compact_vector_two_objects",
    "C15_compact_vector_destructor_safe",
    "C15_compact_vector_history",
    "C15_compact_vector_no_leak"
   ],
   "note": "All operations except the assign calls of C16; strong guarantee when moving does not throw or copying is possible; constructors, swap, destructor, histories, no leak."
  },
  {
   "property": "C16",
   "status": "partial",
   "theorems": [
    "C16_compact_vector_assign_refuted",
    "C16_compact_vector_assign_partial",
    "C16_compact_vector_two_objects_partial",
    "C16_compact_vector_repaired"
   ],
   "note": "The claim is false: C16_compact_vector_assign_refuted exhibits undefined behaviour (deallocate called with size 0). Proved: safe when element operations do not throw (allocator may), or the size stays the same or becomes 0; and the code with repaired catch blocks is safe in every environment."
  },
  {
   "property": "C17",
   "status": "partial",
   "theorems": [
    "C17_compact_vector_resize_refuted",
    "C17_compact_vector_resize_element_partial",
    "C17_compact_vector_resize_outside"
   ],
   "note": "The claim is false: C17_compact_vector_resize_refuted. Proved: exactly what is appended in each case, and the claim for values that are not elements of the container and for elements that are copied rather than moved."
  },
  {
   "property": "C18",
   "status": "partial",
   "theorems": [
    "C18_small_vector_sequence",
    "C18_small_vector_capacity",
    "C18_small_vector_bounds",
    "C18_small_vector_length_error",
    "C18_small_vector_capacity_N_refuted",
    "C18_small_vector_aliasing",
    "C18_small_vector_storage_stable",
    "C18_small_vector_prefix_stable"
   ],
   "note": "Sequence semantics, capacity law, aliasing, stability proved for every N <= max_size(). The clause 'capacity() >= N always' is refuted: a moved-from object whose block was handed over reports 0 (C18_small_vector_capacity_N_refuted); C18_small_vector_bounds states what holds instead."
  },
  {
   "property": "C19",
   "status": "proved",
   "theorems": [
    "C19_small_vector_members_safe",
    "C19_small_vector_basic_guarantee",
    "C19_small_vector_no_exception_lost",
    "C19_small_vector_strong",
    "C19_small_vector_constructors_safe",
    "C19_small_vector_destructor_safe",
    "C19_small_vector_history",
    "C19_small_vector_no_leak"
   ],
   "note": "Members, constructors, destructor, histories; storage inside objects is never deallocated (that would be UB in the model)."
  },
  {
   "property": "C20",
   "status": "proved",
   "theorems": [
    "C20_small_vector_constructors2",
    "C20_small_vector_two_objects"
   ],
   "note": "All constructors and two-object functions, with exact allocators, capacities and data(); swap under the precondition small_pre2 (see C21)."
  },
  {
   "property": "C21",
   "status": "partial",
   "theorems": [
    "C21_small_vector_swap_partial",
    "C21_small_vector_swap_refuted"
   ],
   "note": "Proved when allocators are equal, or moves do not throw, or both objects use the same kind of storage. Refuted otherwise: C21_small_vector_swap_refuted gives a reachable state in which swap throws and the following destructor returns a block to the wrong allocator."
  },
  {
   "property": "C22",
   "status": "proved",
   "theorems": [
    "C22_devector_sequence",
    "C22_devector_total",
    "C22_devector_bounds"
   ],
   "note": "Every member call that returns, in every geometry; C22_devector_total: with nothing throwing, calls return (or length_error/out_of_range). resize(n) is the function the code computes, see C48; aliased arguments that do not work are excluded by dev_doc, see C25; self move assignment with front room, see C24."
  },
  {
   "property": "C23",
   "status": "partial",
   "theorems": [
    "C23_devector_leak_refuted",
    "C23_devector_double_destroy_refuted",
    "C23_devector_safe_partial",
    "C23_devector_corrected",
    "C23_devector_constructors_safe",
    "C23_devector_constructors2",
    "C23_devector_destructor_safe",
    "C23_devector_history",
    "C23_devector_no_leak"
   ],
   "note": "False in two geometries (leak, double destruction; witnesses computed); proved in all others, for every member function and throw point, and for the code with two corrected scope guards in all geometries."
  },
  {
   "property": "C24",
   "status": "partial",
   "theorems": [
    "C24_devector_assignment_refuted",
    "C24_devector_self_move_refuted",
    "C24_devector_two_objects_partial"
   ],
   "note": "False whenever the target has free storage at the front and gives its storage back (proved for all such states); proved in all other cases."
  },
  {
   "property": "C25",
   "status": "partial",
   "theorems": [
    "C25_devector_resize_refuted",
    "C25_devector_insert_refuted",
    "C25_devector_alias_partial"
   ],
   "note": "False for resize* with growth and insert(pos, n, value) (witnesses); proved for the single element functions and resize* without growth."
  },
  {
   "property": "C26",
   "status": "proved",
   "theorems": [
    "C26_arithmetic",
    "C26_addition",
    "C26_increment",
    "C26_decrement",
    "C26_comparison"
   ],
   "note": "Every operation of the segmented iterators is proved to be arithmetic on slot numbers, across segment boundaries and for negative offsets; the laws follow. That begin() + i denotes the i-th element is part of the theorems about the containers."
  },
  {
   "property": "C27",
   "status": "proved",
   "theorems": [
    "C27_segmented_devector_references",
    "C27_segmented_devector_strong",
    "C27_segmented_vector_references",
    "C27_segmented_vector_strong"
   ],
   "note": "segmented_vector and segmented_devector: every call that does not remove, assign to or move from an element keeps its address and value (push and pop at both ends: all other elements); the same after exceptions of the functions that add at one end."
  },
  {
   "property": "C28",
   "status": "proved",
   "theorems": [
    "C28_segmented_vector_sequence",
    "C28_segmented_vector_total",
    "C28_segmented_vector_at",
    "C28_segmented_vector_safe",
    "C28_segmented_vector_constructors",
    "C28_segmented_vector_constructors2",
    "C28_segmented_vector_two",
    "C28_segmented_vector_destructor",
    "C28_segmented_vector_history",
    "C28_segmented_vector_no_leak"
   ],
   "note": "All member functions, constructors, destructor, functions of two objects, histories; memory is released completely. swap needs equal allocators (C29)."
  },
  {
   "property": "C29",
   "status": "partial",
   "theorems": [
    "C29_segmented_devector_swap_partial",
    "C29_segmented_vector_swap_partial",
    "C29_swap_refuted"
   ],
   "note": "Refuted: with propagate_on_container_swap and different allocators, swap exchanges the allocators twice, so the storage is released with the wrong allocator (C29_swap_refuted). With equal allocators swap is proved correct for both containers."
  },
  {
   "property": "C30",
   "status": "partial",
   "theorems": [
    "C30_insert_range_partial",
    "C30_insert_range_refuted",
    "C30_insert_range_empty_refuted"
   ],
   "note": "Refuted: insert(pos, first, last) in the half nearer to the end computes last_ - n even if there are no n slots before last_, and reads the table out of bounds (C30_insert_range_refuted, C30_insert_range_empty_refuted). Proved for positions in the first half and for ranges not longer than the number of places before end() (C30_insert_range_partial)."
  },
  {
   "property": "C31",
   "status": "partial",
   "theorems": [
    "C31_segmented_devector_size_partial",
    "C31_segmented_vector_size_partial",
    "C31_size_within_max_refuted"
   ],
   "note": "Refuted: the capacity is rounded up to whole segments and may exceed max_size(), after which the unsigned subtraction in grow_storage wraps around and the check never fails (C31_size_within_max_refuted). Proved for both containers: as long as the capacity is within max_size(), the size stays within it (except for input iterators), and length_error is thrown only if max_size() would be exceeded."
  },
  {
   "property": "C32",
   "status": "proved",
   "theorems": [
    "C32_flat_order_kept",
    "C32_static_flat_history",
    "C32_small_flat_history"
   ],
   "note": "All eight ordered flat containers. Per call, and for every program over any number of objects (constructors, copies, moves, swaps, all member functions): objects whose calls returned are in order. Static containers: list assignment is excluded (see C38); elements moved away one by one and objects in which a call threw are excluded until cleared."
  },
  {
   "property": "C33",
   "status": "proved",
   "theorems": [
    "C33_flat_lookup",
    "C33_flat_lookup_pure"
   ],
   "note": "All eight containers, every ordered content, key and strict weak order; lookup modifies nothing even if the comparator is not an order."
  },
  {
   "property": "C34",
   "status": "proved",
   "theorems": [
    "C34_flat_insert",
    "C34_flat_insert_range",
    "C34_flat_construct"
   ],
   "note": "insert, emplace, their hinted forms, range insertion and construction, for all eight containers (uniqueness for sets and maps)."
  },
  {
   "property": "C35",
   "status": "proved",
   "theorems": [
    "C35_flat_hint"
   ],
   "note": "Every hint in [begin, end]: same key sequence; for sets and maps the same elements and the same position."
  },
  {
   "property": "C36",
   "status": "proved",
   "theorems": [
    "C36_flat_map_at",
    "C36_flat_map_update",
    "C36_flat_map_write"
   ],
   "note": "at, operator[], try_emplace and insert_or_assign with and without hint, assignment through an iterator."
  },
  {
   "property": "C37",
   "status": "proved",
   "theorems": [
    "C37_flat_multi_insert",
    "C37_flat_erase_key",
    "C37_flat_erase_range"
   ],
   "note": "Insertion, erase(key), erase(range), count (C33), range insertion as a permutation (C34)."
  },
  {
   "property": "C38",
   "status": "partial",
   "theorems": [
    "C38_small_flat_assign_list",
    "C38_static_flat_assign_list_partial",
    "C38_static_flat_assign_list_refuted",
    "C38_small_unord_assign_list",
    "C38_unord_multi_assign_list",
    "C38_static_unord_assign_list_partial",
    "C38_static_unord_assign_list_refuted"
   ],
   "note": "Proved for the small ordered and unordered containers and for the unordered multi containers. False for the static ordered containers (C38_static_flat_assign_list_refuted: {3, 1, 3} is stored as it is and contains(1) is then false) and for static_unordered_flat_set/map (C38_static_unord_assign_list_refuted: 3 is still contained after erase(3)); what they do instead is proved."
  },
  {
   "property": "C39",
   "status": "proved",
   "theorems": [
    "C39_flat_safe",
    "C39_flat_insert_end_strong",
    "C39_flat_failed_allocation",
    "C39_static_flat_no_leak",
    "C39_small_flat_no_leak",
    "C39_flat_sorted_refuted"
   ],
   "note": "Memory safety for all throw points, comparators and programs, no leak, strong guarantee at the end and for failed allocations. Decided: the keys need not stay sorted (C39_flat_sorted_refuted)."
  },
  {
   "property": "C40",
   "status": "proved",
   "theorems": [
    "C40_unord_step",
    "C40_unord_calls",
    "C40_unord_construct",
    "C40_unord_lookup",
    "C40_unord_insert",
    "C40_unord_multi_insert",
    "C40_unord_multi_insert_range",
    "C40_unord_map_update",
    "C40_unord_map_write",
    "C40_static_unord_history",
    "C40_small_unord_history",
    "C40_static_unord_no_leak",
    "C40_small_unord_no_leak"
   ],
   "note": "All four unordered sets/maps: each call, sequences of calls and construction as steps of a finite map; lookups; results of insertion; the multi containers append; all client programs (any throw points): memory safe, no leak, distinct keys for every object whose calls did not throw. Assigning a list to the static ones is C38; a throwing emplace is C47."
  },
  {
   "property": "C41",
   "status": "proved",
   "theorems": [
    "C41_unord_erase",
    "C41_unord_erase_range",
    "C41_unord_erase_key",
    "C41_unord_multi_erase_key"
   ],
   "note": "erase(pos), erase(first, last), erase(key) for all eight containers: what is left as a permutation, the elements in front keep their places, position/count returned."
  },
  {
   "property": "C42",
   "status": "partial",
   "theorems": [
    "C42_unord_erase_own_key_partial",
    "C42_unord_multi_erase_own_key_refuted",
    "C42_small_unord_multi_erase_own_key_refuted"
   ],
   "note": "Proved for sets and maps. False for the multi containers: C42_unord_multi_erase_own_key_refuted and C42_small_unord_multi_erase_own_key_refuted (wrong elements erased; reads a destroyed element)."
  },
  {
   "property": "C43",
   "status": "proved",
   "theorems": [
    "C43_unord_equality"
   ],
   "note": "All contents and every equality that is an equivalence; a throwing equality changes nothing."
  },
  {
   "property": "C44",
   "status": "proved",
   "theorems": [
    "C44_uninitialized_copy_values",
    "C44_uninitialized_copy",
    "C44_uninitialized_move",
    "C44_uninitialized_move_if_noexcept",
    "C44_uninitialized_fill",
    "C44_uninitialized_default_construct",
    "C44_destroy",
    "C44_copy_values",
    "C44_copy",
    "C44_move",
    "C44_move_overlapping",
    "C44_move_backward_overlapping",
    "C44_fill",
    "C44_segmented_uninitialized_copy_values",
    "C44_segmented_uninitialized_copy_input",
    "C44_segmented_uninitialized_fill",
    "C44_segmented_uninitialized_default_construct",
    "C44_segmented_destroy",
    "C44_segmented_uninitialized_move_behind",
    "C44_segmented_uninitialized_move_front",
    "C44_segmented_uninitialized_copy",
    "C44_segmented_uninitialized_move",
    "C44_segmented_uninitialized_move_if_noexcept",
    "C44_segmented_copy_values",
    "C44_segmented_copy",
    "C44_segmented_fill",
    "C44_segmented_move_overlapping",
    "C44_segmented_move_backward_overlapping",
    "C44_segmented_copy_backward_overlapping",
    "C44_copy_backward_overlapping"
   ],
   "note": "copy, copy_backward, move, move_backward, fill, destroy and uninitialized_{copy,move,move_if_noexcept,fill,default_construct} for ordinary iterators and for iterators of segmented containers: all ranges, all segment sizes, the overlaps the containers use, all throw points. Of an assigning algorithm that throws, the theorems say which places hold elements afterwards, not their values."
  },
  {
   "property": "C45",
   "status": "proved",
   "theorems": [
    "C45_compact_vector_at",
    "C45_devector_at",
    "C45_small_vector_at",
    "C45_static_vector_at",
    "C45_vector_at"
   ],
   "note": "vector, static_vector, small_vector, compact_vector."
  },
  {
   "property": "C46",
   "status": "proved",
   "theorems": [
    "C46_compact_vector_erase_if",
    "C46_devector_erase_if",
    "C46_flat_erase_if",
    "C46_small_vector_erase_if",
    "C46_static_vector_erase_if",
    "C46_unord_erase_if",
    "C46_vector_erase_if"
   ],
   "note": "vector, static_vector, small_vector, compact_vector: erase and erase_if; all ordered flat containers: erase_if. Unordered containers: as a permutation (C46_unord_erase_if)."
  },
  {
   "property": "C47",
   "status": "partial",
   "theorems": [
    "C47_unord_safe",
    "C47_unord_insert_strong_partial",
    "C47_unord_failed_alloc",
    "C47_unord_emplace_refuted"
   ],
   "note": "Safety for all throw points; strong guarantee for every insertion that searches before it constructs and for failed allocations. False for emplace of the static sets and maps and the small maps when the key equality throws: C47_unord_emplace_refuted."
  },
  {
   "property": "C48",
   "status": "partial",
   "theorems": [
    "C48_devector_resize_refuted",
    "C48_devector_resize_partial"
   ],
   "note": "False if the back room is short and there is front room (witness); proved otherwise; the exact result is in C22 (resized)."
  },
  {
   "property": "C49",
   "status": "partial",
   "theorems": [
    "C49_devector_push_back_refuted",
    "C49_devector_strong_partial"
   ],
   "note": "False for copyable elements whose move may throw (witness); proved under dev_strong: room at that end, or growth with non-throwing move."
  },
  {
   "property": "C50",
   "status": "partial",
   "theorems": [
    "C50_devector_growth_refuted",
    "C50_devector_length_error_partial"
   ],
   "note": "False: growth is not clamped to max_size (witness); proved when the grown capacity stays within max_size."
  },
  {
   "property": "C51",
   "status": "partial",
   "theorems": [
    "C51_queue_refuted"
   ],
   "note": "Refuted: segments emptied by pop_front are never reused, so the capacity of a queue grows without bound until length_error is thrown (C51_queue_refuted)."
  },
  {
   "property": "C52",
   "status": "proved",
   "theorems": [
    "C52_segmented_devector_sequence",
    "C52_segmented_devector_total",
    "C52_segmented_devector_at",
    "C52_segmented_devector_safe",
    "C52_segmented_devector_constructors",
    "C52_segmented_devector_constructors2",
    "C52_segmented_devector_two",
    "C52_segmented_devector_destructor",
    "C52_segmented_devector_history",
    "C52_segmented_devector_no_leak"
   ],
   "note": "All member functions, constructors, destructor, functions of two objects, histories; memory is released completely. Preconditions: insert(pos, first, last) as in C30; swap needs equal allocators (C29). The exact effect of resize is that of C53."
  },
  {
   "property": "C53",
   "status": "partial",
   "theorems": [
    "C53_segmented_devector_resize_refuted",
    "C53_segmented_devector_resize_partial"
   ],
   "note": "False if the back room is short and there are free places at the front (witness); proved otherwise; the exact result is in C52 (resized)."
  },
  {
   "property": "C54",
   "status": "partial",
   "theorems": [
    "C54_devector_push_amortised",
    "C54_devector_push_worst",
    "C54_devector_push_pop_refuted"
   ],
   "note": "Pushes alone are amortised constant (10 operations per call plus 2 per initial element), one push is at most linear. For mixtures of push and pop the documented \"Constant\" is refuted: for every m there is a state reachable by pushes and pops, and a cycle of 8 calls returning to the same geometry, that costs at least 4m."
  },
  {
   "property": "C55",
   "status": "proved",
   "theorems": [
    "C55_small_vector_push_back_amortised"
   ],
   "note": "Counts element operations and allocations."
  },
  {
   "property": "C56",
   "status": "proved",
   "theorems": [
    "C56_flat_lookup_logarithmic"
   ],
   "note": "Holds for any comparator, throwing or inconsistent too."
  },
  {
   "property": "C57",
   "status": "proved",
   "theorems": [
    "C57_unord_cost"
   ],
   "note": ""
  },
  {
   "property": "C58",
   "status": "proved",
   "theorems": [
    "C58_segmented_vector_push_worst",
    "C58_segmented_devector_push_worst"
   ],
   "note": "Copies of table entries (pointers) are not counted."
  },
  {
   "property": "C59",
   "status": "proved",
   "theorems": [
    "C59_het_lookup"
   ],
   "note": "Any argument; the results are stated for arguments that split the elements."
  },
  {
   "property": "C60",
   "status": "proved",
   "theorems": [
    "C60_het_returns",
    "C60_het_like_key",
    "C60_het_throws",
    "C60_het_no_ub"
   ],
   "note": ""
  },
  {
   "property": "C61",
   "status": "partial",
   "theorems": [
    "C61_het_count_partial",
    "C61_het_erase_partial",
    "C61_het_set_refuted"
   ],
   "note": "Proved for multiset and multimap, and for set and map if at most one element is equivalent to the argument; refuted for set and map otherwise (finding 22)."
  },
  {
   "property": "C62",
   "status": "proved",
   "theorems": [
    "C62_uhet_lookup"
   ],
   "note": ""
  },
  {
   "property": "C63",
   "status": "proved",
   "theorems": [
    "C63_uhet_returns",
    "C63_uhet_like_key",
    "C63_uhet_throws",
    "C63_uhet_no_ub"
   ],
   "note": ""
  },
  {
   "property": "C64",
   "status": "partial",
   "theorems": [
    "C64_uhet_count_partial",
    "C64_uhet_erase_partial",
    "C64_uhet_set_refuted"
   ],
   "note": "Proved for multiset and multimap, and for set and map if at most one element is equal to the argument; refuted for set and map otherwise (finding 22)."
  },
  {
   "property": "C65",
   "status": "proved",
   "theorems": [
    "C65_segmented_vector_resize_self",
    "C65_segmented_devector_resize_self"
   ],
   "note": "Every position, size and throw point."
  },
  {
   "property": "C66",
   "status": "partial",
   "theorems": [
    "C66_range_descending",
    "C66_range_linear_refuted",
    "C66_range_upper",
    "C66_static_ascending"
   ],
   "note": "Refuted: quadratic for descending ranges (finding 23). Proved: a quadratic upper bound for all ranges, n log n for ascending ranges in the static containers."
  },
  {
   "property": "C67",
   "status": "partial",
   "theorems": [
    "C67_insert_new_linear",
    "C67_multi_insert_constant",
    "C67_multi_range_linear",
    "C67_range_distinct",
    "C67_range_linear_refuted"
   ],
   "note": "Refuted for set and map (finding 24); proved for static_unordered_flat_multiset and _multimap."
  },
  {
   "property": "C68",
   "status": "partial",
   "theorems": [
    "C68_vector_erase_if_linear",
    "C68_small_vector_erase_if_linear",
    "C68_static_vector_erase_if_linear",
    "C68_devector_erase_if_linear",
    "C68_unordered_erase_if_linear",
    "C68_flat_erase_all",
    "C68_flat_erase_if_linear_refuted",
    "C68_flat_erase_if_upper"
   ],
   "note": "Refuted for the ordered flat containers (finding 25); proved for vector, small_vector, static_vector, devector and the unordered flat containers. compact_vector and the segmented containers are not covered."
  },
  {
   "property": "C69",
   "status": "partial",
   "theorems": [
    "C69_vector_insert_cost",
    "C69_small_vector_insert_cost",
    "C69_static_vector_insert_cost",
    "C69_vector_insert_upper",
    "C69_small_vector_insert_upper",
    "C69_input_linear_refuted"
   ],
   "note": "Refuted for input iterators (finding 26); everything else proved, with exact costs when nothing is reallocated. devector is the subject of C70, the segmented containers of C71; compact_vector is not covered."
  },
  {
   "property": "C70",
   "status": "partial",
   "theorems": [
    "C70_devector_insert_near",
    "C70_devector_insert_upper",
    "C70_devector_insert_full",
    "C70_devector_erase_cost",
    "C70_devector_min_distance_refuted",
    "C70_devector_insert_n_refuted"
   ],
   "note": "Proved if there is room at the nearer end, and for erasure (exactly). Refuted in general (finding 27): without room all elements are moved, and insert(pos, n, value) is documented without the term for n. Insertion from input iterators is not covered."
  },
  {
   "property": "C71",
   "status": "partial",
   "theorems": [
    "C71_segmented_vector_insert_cost",
    "C71_segmented_devector_insert_cost",
    "C71_segmented_vector_input_cost",
    "C71_segmented_devector_input_cost",
    "C71_segmented_vector_input_linear_refuted"
   ],
   "note": "Proved with exact numbers of operations of the element type and a bound on the allocations; refuted for input iterators (finding 28), for which the cost is the product."
  },
  {
   "property": "C72",
   "status": "partial",
   "theorems": [
    "C72_vector_assign_own",
    "C72_small_vector_assign_own",
    "C72_static_vector_assign_own",
    "C72_compact_vector_assign_own",
    "C72_devector_assign_own",
    "C72_vector_assign_own_refuted",
    "C72_small_vector_assign_own_refuted",
    "C72_compact_vector_assign_own_refuted",
    "C72_devector_assign_own_refuted",
    "C72_segmented_vector_assign_own",
    "C72_segmented_devector_assign_own"
   ],
   "note": "Proved for the segmented containers and static_vector without condition on n, for vector, small_vector and devector when n fits into the capacity, for compact_vector when the size stays the same; refuted when the storage is replaced (finding 29)."
  },
  {
   "property": "C73",
   "status": "partial",
   "theorems": [
    "C73_vector_ctor_cost",
    "C73_small_vector_ctor_cost",
    "C73_static_vector_ctor_cost",
    "C73_devector_ctor_cost",
    "C73_compact_vector_ctor_cost",
    "C73_compact_vector_input_linear_refuted",
    "C73_vector_copy_move_cost",
    "C73_compact_vector_copy_move_cost",
    "C73_devector_copy_move_cost",
    "C73_small_vector_copy_move_cost",
    "C73_static_vector_copy_move_cost",
    "C73_small_vector_move_linear_N_refuted",
    "C73_segmented_vector_ctor_cost",
    "C73_segmented_vector_copy_move_cost",
    "C73_segmented_devector_ctor_cost",
    "C73_segmented_devector_copy_move_cost"
   ],
   "note": "Exact number for every constructor that does not take input iterators, all seven sequence containers; linear bound for input iterators except for compact_vector, where the number is quadratic (finding 30); move construction of small_vector with another allocator is linear in size(), not in N (finding 31)."
  },
  {
   "property": "C74",
   "status": "proved",
   "theorems": [
    "C74_vector_assign_cost",
    "C74_small_vector_assign_cost",
    "C74_static_vector_assign_cost",
    "C74_compact_vector_assign_cost",
    "C74_devector_assign_cost",
    "C74_vector_assign_input_cost",
    "C74_small_vector_assign_input_cost",
    "C74_static_vector_assign_input_cost",
    "C74_devector_assign_input_cost",
    "C74_compact_vector_assign_input_cost",
    "C74_vector_operator_cost",
    "C74_small_vector_operator_cost",
    "C74_static_vector_operator_cost",
    "C74_compact_vector_operator_cost",
    "C74_devector_operator_cost"
   ],
   "note": "assign from a value or a range: exact for static_vector, compact_vector and devector, n or n + 1 for vector and small_vector and exactly n within the capacity. Input iterators: at most 6 n (vector, small_vector), 10 n (devector), n (static_vector); quadratic for compact_vector, which documents no bound. Copy and move assignment of all five."
  },
  {
   "property": "C75",
   "status": "proved",
   "theorems": [
    "C75_segmented_vector_assign_cost",
    "C75_segmented_devector_assign_cost",
    "C75_segmented_vector_assign_input_cost",
    "C75_segmented_devector_assign_input_cost"
   ],
   "note": "Exact number of element operations for both containers, allocations bounded; input iterators: between n and 4 n operations and allocations. Sources are ranges of values outside the container."
  },
  {
   "property": "C76",
   "status": "proved",
   "theorems": [
    "C76_vector_resize_cost",
    "C76_small_vector_resize_cost",
    "C76_small_vector_shrink_cost",
    "C76_static_vector_resize_cost",
    "C76_compact_vector_resize_cost",
    "C76_devector_resize_cost",
    "C76_segmented_vector_resize_cost",
    "C76_segmented_devector_resize_cost"
   ],
   "note": "Exact for static_vector, compact_vector and devector; for vector and small_vector exact up to the allocation; for the segmented containers exact number of constructions, allocations bounded. shrink_to_fit of small_vector: upper bound, and exactly nothing for elements in the object."
  },
  {
   "property": "C77",
   "status": "proved",
   "theorems": [
    "C77_segmented_vector_swap_cost",
    "C77_segmented_devector_swap_cost",
    "C77_segmented_vector_move_cost",
    "C77_segmented_devector_move_cost",
    "C77_segmented_vector_move_elements_cost",
    "C77_segmented_devector_move_elements_cost",
    "C77_vector_swap_cost",
    "C77_compact_vector_swap_cost",
    "C77_devector_swap_cost",
    "C77_static_vector_swap_cost",
    "C77_small_vector_swap_cost"
   ],
   "note": "Exact for swap of all seven sequence containers (two different objects). Copy assignment of the segmented containers and move assignment with different allocators that propagate: C79."
  },
  {
   "property": "C78",
   "status": "proved",
   "theorems": [
    "C78_flat_compare",
    "C78_unord_differ",
    "C78_vector_compare",
    "C78_small_vector_compare",
    "C78_static_vector_compare",
    "C78_compact_vector_compare",
    "C78_devector_compare",
    "C78_segmented_vector_compare",
    "C78_segmented_devector_compare",
    "C78_exactly_one",
    "C78_less_transitive"
   ],
   "note": "All six operators of the seven sequence containers and the eight ordered flat containers, for two different objects. For elements that are neither less nor equal (such as NaN) the operators <= and >= are the negations of > and <, as in the code. != of the unordered flat containers is C78_unord_differ (== is C43)."
  },
  {
   "property": "C79",
   "status": "proved",
   "theorems": [
    "C79_segmented_vector_copy_cost",
    "C79_segmented_devector_copy_cost",
    "C79_segmented_vector_move_each_cost",
    "C79_segmented_devector_move_each_cost"
   ],
   "note": "Both containers, copy assignment in every case and move assignment whenever the elements are moved one by one (move assignment between equal allocators is C77). Two different objects."
  },
  {
   "property": "C80",
   "status": "proved",
   "theorems": [
    "C80_flat_compare_cost",
    "C80_vector_compare_cost",
    "C80_small_vector_compare_cost",
    "C80_static_vector_compare_cost",
    "C80_compact_vector_compare_cost",
    "C80_devector_compare_cost",
    "C80_segmented_vector_compare_cost",
    "C80_segmented_devector_compare_cost"
   ],
   "note": "Upper bounds for all six operators of the seven sequence containers and the eight ordered flat containers, also for calls that throw; two different objects."
  },
  {
   "property": "C81",
   "status": "proved",
   "theorems": [
    "C81_vector_nth",
    "C81_small_vector_nth",
    "C81_static_vector_nth",
    "C81_compact_vector_nth",
    "C81_devector_nth",
    "C81_segmented_vector_nth",
    "C81_segmented_devector_nth",
    "C81_flat_nth"
   ],
   "note": "The seven sequence containers and the sixteen flat containers, i any non-negative integer; a failed assertion is undefined behaviour."
  },
  {
   "property": "C82",
   "status": "proved",
   "theorems": [
    "C82_vector_positions",
    "C82_small_vector_positions",
    "C82_static_vector_positions",
    "C82_compact_vector_positions",
    "C82_devector_positions",
    "C82_segmented_vector_positions",
    "C82_segmented_devector_positions",
    "C82_flat_positions"
   ],
   "note": "The seven sequence containers and the sixteen flat containers."
  }
 ]
}