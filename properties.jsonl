{"id": "C01", "title": "vector behaves as a mathematical sequence", "statement": "Every mutating operation of sfl::vector (emplace, insert of one/n copies/a range, push_back/emplace_back, pop_back, erase of one/a range, resize, assign, clear, reserve, shrink_to_fit) that returns normally leaves the container holding exactly the sequence obtained by the corresponding list operation on the old sequence, and returns an iterator to the documented position.", "quantifier": "all element types and values, all container contents, all capacities (with and without spare room), all positions and counts within the documented preconditions", "why_tests_cant": "Infinitely many contents/positions/counts and several code paths chosen by (spare capacity, tail length, count); tests sample a handful.", "anchors": ["include/sfl/vector.hpp: emplace, emplace_back, insert_fill_n, insert_range, erase, resize, assign_fill_n, assign_range, clear, reserve, shrink_to_fit"]}
{"id": "C02", "title": "vector never reads, writes, constructs or destroys an object outside its lifetime", "statement": "While the documented preconditions hold, no operation of sfl::vector constructs over a live element, destroys or reads a dead one, touches memory outside its allocation, or deallocates with a wrong pointer, size or allocator; after any operation the live objects are exactly the size() elements, and the memory owned is exactly one block of capacity() elements (none if capacity() is 0).", "quantifier": "all states, all operations, all patterns of exceptions thrown by element operations and by the allocator", "why_tests_cant": "Undefined behaviour and leaks on rare exception paths are invisible to example-based tests.", "anchors": ["include/sfl/vector.hpp", "include/sfl/private.hpp: uninitialized_*, destroy_a, allocate, deallocate"]}
{"id": "C03", "title": "vector: basic exception guarantee at every throw point", "statement": "If any element constructor/assignment or the allocator throws during an operation of sfl::vector, the exception reaches the caller and the container is left valid (size() live elements in an allocation of capacity()), with nothing leaked and nothing destroyed twice.", "quantifier": "every operation, every state, every choice of which element operation / allocation throws (any oracle)", "why_tests_cant": "The number of throw points grows with the contents; tests inject a few.", "anchors": ["include/sfl/vector.hpp", "include/sfl/private.hpp: uninitialized_*"]}
{"id": "C04", "title": "vector: strong guarantee where documented", "statement": "If reserve, shrink_to_fit or a reallocating emplace_back of sfl::vector throws, then (element move constructor noexcept, or element copyable) the container has exactly the same elements, storage and capacity as before the call.", "quantifier": "all states, all throw patterns, both element classes (nothrow-movable, copyable)", "why_tests_cant": "Must hold at every throw point of every state.", "anchors": ["include/sfl/vector.hpp: reserve, shrink_to_fit, emplace_back", "include/sfl/private.hpp: uninitialized_move_if_noexcept_a"]}
{"id": "C05", "title": "vector: capacity laws", "statement": "size() <= capacity() <= max_size() always; reserve(n) gives capacity max(old,n); shrink_to_fit gives capacity == size; clear keeps capacity; growth by an insertion yields exactly max(size+n, min(max_size, 1.5*capacity)) style policy; an operation needing more than max_size() elements throws length_error and changes nothing.", "quantifier": "all sizes, capacities and allocator limits, including those close to the 2^64 wrap-around", "why_tests_cant": "Boundary sizes near max_size cannot be allocated in a test.", "anchors": ["include/sfl/vector.hpp: calculate_new_capacity, check_size, reserve, max_size"]}
{"id": "C06", "title": "vector: arguments may refer to elements of the same vector", "statement": "emplace(pos, args...), insert(pos, value), insert(pos, n, value), push_back/emplace_back called with a reference to an element of the same vector insert the value that element had at the time of the call, whether or not reallocation happens.", "quantifier": "all states, all positions, all aliased elements, both copy and move of the argument", "why_tests_cant": "Aliasing interacts with each relocation path; tests cover few index pairs.", "anchors": ["include/sfl/vector.hpp: emplace, emplace_back, insert_fill_n"]}
{"id": "C07", "title": "vector: copy/move/swap respect allocator propagation", "statement": "Copy assignment, move assignment and swap of sfl::vector leave both objects valid, transfer or copy the sequence, propagate the allocator iff the corresponding trait says so, and every block is released through an allocator equal to the one that allocated it.", "quantifier": "all pairs of states, all combinations of allocator equality and of the propagate_on_container_* traits, all throw patterns", "why_tests_cant": "Combinatorial explosion of trait/state combinations and rare exception paths.", "anchors": ["include/sfl/vector.hpp: assign_copy, assign_move, swap, initialize_copy, initialize_move"]}
{"id": "C08", "title": "vector: pushing n elements costs O(n) element moves", "statement": "Starting from an empty vector, n calls of push_back perform a number of element relocations bounded by a constant multiple of n.", "quantifier": "all n and all allocator limits large enough", "why_tests_cant": "An asymptotic statement about all n.", "anchors": ["include/sfl/vector.hpp: emplace_back, calculate_new_capacity"]}
{"id": "C09", "title": "vector: references and iterators stay valid when no reallocation is needed", "statement": "If an operation does not need more than capacity() elements, the storage address and capacity are unchanged; elements before the affected position keep address and value, so references to them stay valid.", "quantifier": "all states, operations and positions", "why_tests_cant": "Needs every state; tests compare few addresses.", "anchors": ["include/sfl/vector.hpp: emplace, insert_fill_n, insert_range, erase, resize, pop_back, clear"]}
{"id": "C10", "title": "vector: any history of operations is safe and leak free", "statement": "For every finite sequence of operations applied to an initially empty sfl::vector, with arbitrary exceptions along the way, no operation has undefined behaviour, and after the destructor no element is alive and no block is allocated.", "quantifier": "all finite histories, all exception patterns", "why_tests_cant": "Histories are unbounded.", "anchors": ["include/sfl/vector.hpp"]}
{"id": "C11", "title": "static_vector behaves as a bounded sequence and never exceeds its buffer", "statement": "While the documented precondition (resulting size <= N) holds, each operation of sfl::static_vector performs the corresponding list operation inside the internal buffer, never touches memory outside it, never allocates, and keeps size() <= N.", "quantifier": "all N, contents, positions, counts", "why_tests_cant": "All sizes and positions.", "anchors": ["include/sfl/static_vector.hpp"]}
{"id": "C12", "title": "static_vector: exception safety", "statement": "If an element operation throws in the middle of any static_vector operation (including construction, assignment and swap), exactly the elements reported by size() are alive afterwards and no element is destroyed twice.", "quantifier": "all operations, states, throw patterns", "why_tests_cant": "Every throw point of every state.", "anchors": ["include/sfl/static_vector.hpp: emplace, insert, assign, resize, swap"]}
{"id": "C13", "title": "static_vector: swap exchanges contents of different sizes", "statement": "swap of two static_vectors exchanges the two sequences for every pair of sizes and leaves both valid when an element move throws.", "quantifier": "all pairs of contents, all throw patterns", "why_tests_cant": "All pairs of sizes and throw points.", "anchors": ["include/sfl/static_vector.hpp: swap"]}
{"id": "C14", "title": "compact_vector: sequence semantics with capacity == size", "statement": "Each operation of sfl::compact_vector that returns normally performs the corresponding list operation and leaves an allocation of exactly size() elements (none if empty).", "quantifier": "all contents, positions, counts", "why_tests_cant": "All states; exact allocation size is not observable in tests.", "anchors": ["include/sfl/compact_vector.hpp"]}
{"id": "C15", "title": "compact_vector: exception safety of operations", "statement": "If an exception is thrown by an element operation or the allocator during emplace, insert, erase, resize of sfl::compact_vector, the container stays valid and nothing leaks.", "quantifier": "all operations, states, throw patterns", "why_tests_cant": "Every throw point of every state.", "anchors": ["include/sfl/compact_vector.hpp: emplace, erase, resize, insert_fill_n, insert_range"]}
{"id": "C16", "title": "compact_vector: assign is exception safe", "statement": "If an exception is thrown while compact_vector::assign builds its new contents, storage is released with the size it was allocated with and the container stays valid.", "quantifier": "all states, arguments, throw patterns", "why_tests_cant": "The size handed to deallocate is ignored by most test allocators.", "anchors": ["include/sfl/compact_vector.hpp: assign_fill_n, assign_range, clear"]}
{"id": "C17", "title": "compact_vector: resize(n, value) appends copies of value even if value is an element", "statement": "resize(n, value) with n > size() appends n - size() copies of the value the argument had when called, also when it refers to an element of the container.", "quantifier": "all states, sizes, aliased elements", "why_tests_cant": "Depends on the relocation order for every state.", "anchors": ["include/sfl/compact_vector.hpp: resize"]}
{"id": "C18", "title": "small_vector: sequence semantics in internal and external storage", "statement": "Each operation of sfl::small_vector that returns normally performs the corresponding list operation, whichever of the internal buffer or an allocated block is in use before and after; capacity() >= N always.", "quantifier": "all N (including 0), contents, positions, counts, transitions between the storages", "why_tests_cant": "All states and transitions.", "anchors": ["include/sfl/small_vector.hpp"]}
{"id": "C19", "title": "small_vector: exception safety", "statement": "If an element operation or the allocator throws during an operation on a small_vector, the container stays valid, nothing leaks, nothing is destroyed twice, and the internal buffer is never passed to the allocator.", "quantifier": "all operations, states, throw patterns", "why_tests_cant": "Every throw point in every state.", "anchors": ["include/sfl/small_vector.hpp"]}
{"id": "C20", "title": "small_vector: move construction, move assignment and swap", "statement": "Move construction/assignment transfers the whole sequence (stealing allocated storage, moving element-wise out of an internal buffer) and swap exchanges both sequences for the four combinations of internal and external storage.", "quantifier": "all pairs of states, N, allocator equality, throw patterns", "why_tests_cant": "Four storage cases times sizes times throw points.", "anchors": ["include/sfl/small_vector.hpp: swap, assign_move, initialize_move"]}
{"id": "C21", "title": "small_vector: swap keeps each block with its allocator even on exceptions", "statement": "After swap (normal or exceptional), every block owned by a container can be released with that container's allocator.", "quantifier": "all pairs of states with propagate_on_container_swap, all throw patterns", "why_tests_cant": "Needs a stateful propagating allocator plus a throwing move at the right place.", "anchors": ["include/sfl/small_vector.hpp: swap"]}
{"id": "C22", "title": "devector: double-ended sequence semantics", "statement": "push_front/pop_front/push_back/pop_back/emplace/erase/insert/resize_front/resize_back/reserve_front/reserve_back/shrink_to_fit of sfl::devector perform the corresponding list operation at the requested end or position.", "quantifier": "all contents, front and back capacities, positions, counts", "why_tests_cant": "The insertion code has about twenty geometric cases.", "anchors": ["include/sfl/devector.hpp"]}
{"id": "C23", "title": "devector: exception safety of insertion in the middle", "statement": "If an element operation throws during insert/emplace in the middle of a devector, the container stays valid, nothing leaks and nothing is destroyed twice.", "quantifier": "all geometries (front/back capacity, position, count), all throw points", "why_tests_cant": "About twenty geometric cases each with many throw points.", "anchors": ["include/sfl/devector.hpp: insert_aux_shift_to_back, insert_aux_shift_to_front, emplace"]}
{"id": "C24", "title": "devector: assignment releases the storage it allocated", "statement": "Move/copy assignment of a devector releases old storage through the pointer and size returned by the allocator.", "quantifier": "all states including non-zero front capacity, all allocator traits", "why_tests_cant": "Wrong pointer passed to deallocate only shows for states with front capacity and specific traits.", "anchors": ["include/sfl/devector.hpp: reset, assign_move, assign_copy"]}
{"id": "C25", "title": "devector: value arguments may refer to elements", "statement": "resize/resize_front/resize_back(n, value) and insert(pos, n, value) of devector use the value the argument had when called, also when it refers to an element of the devector.", "quantifier": "all states, sizes, aliased elements", "why_tests_cant": "Depends on relocation path and state.", "anchors": ["include/sfl/devector.hpp: resize, resize_front, resize_back, insert_fill_n, insert_fill_n_proxy"]}
{"id": "C26", "title": "segmented iterators are lawful random access iterators", "statement": "For iterators of segmented_vector/segmented_devector: (it + n) - it == n, (it + n) + m == it + (n + m), ++/-- are inverse, *(it + n) == it[n], comparison agrees with difference, and begin() + i denotes the i-th element, across segment boundaries, for positive and negative n.", "quantifier": "all segment lengths, positions and offsets (positive and negative)", "why_tests_cant": "Division/modulo arithmetic over all integers.", "anchors": ["include/sfl/private.hpp: segmented_iterator"]}
{"id": "C27", "title": "segmented containers never move existing elements on push_back/pop_back", "statement": "push_back/emplace_back/pop_back (and push_front/pop_front for segmented_devector) keep every other element at its address, so references stay valid.", "quantifier": "all states and histories", "why_tests_cant": "All states; addresses.", "anchors": ["include/sfl/segmented_vector.hpp: emplace_back, pop_back", "include/sfl/segmented_devector.hpp: emplace_back, emplace_front"]}
{"id": "C28", "title": "segmented_vector: sequence semantics and memory safety", "statement": "Each operation of segmented_vector that returns normally performs the corresponding list operation; the table and all segments are released by the destructor; exceptions leave the container valid.", "quantifier": "all segment sizes, contents, positions, counts, throw patterns", "why_tests_cant": "Segment boundary cases times sizes.", "anchors": ["include/sfl/segmented_vector.hpp", "include/sfl/private.hpp"]}
{"id": "C29", "title": "segmented containers: swap keeps each block with its allocator", "statement": "After swap of two segmented containers, each container's storage can be released with that container's allocator, whatever propagate_on_container_swap says.", "quantifier": "all pairs of states, all allocator trait combinations", "why_tests_cant": "Needs stateful propagating allocators that check.", "anchors": ["include/sfl/segmented_vector.hpp: swap", "include/sfl/segmented_devector.hpp: swap"]}
{"id": "C30", "title": "segmented_devector: inserting a range anywhere is memory safe", "statement": "insert(pos, first, last) for forward ranges only accesses the segment table within its bounds, for every position including end() and for the empty container.", "quantifier": "all states, positions, ranges", "why_tests_cant": "An out-of-bounds pointer read just before a table is silent.", "anchors": ["include/sfl/segmented_devector.hpp: insert_range"]}
{"id": "C31", "title": "segmented containers: size never exceeds max_size()", "statement": "An insertion that would make size() exceed max_size() throws length_error.", "quantifier": "all sizes, segment sizes and allocator limits", "why_tests_cant": "Sizes near max_size cannot be reached in tests.", "anchors": ["include/sfl/segmented_vector.hpp: grow_storage", "include/sfl/segmented_devector.hpp: grow_storage"]}
{"id": "C32", "title": "ordered flat sets/maps stay strictly sorted and duplicate free", "statement": "After any history of insert/emplace/erase/range insert/clear operations that return normally, the keys of a static/small flat set or map are strictly increasing with respect to the comparator.", "quantifier": "all comparators that are strict weak orders, all histories, all element types", "why_tests_cant": "All histories.", "anchors": ["include/sfl/static_flat_set.hpp", "include/sfl/static_flat_map.hpp", "include/sfl/small_flat_set.hpp", "include/sfl/small_flat_map.hpp"]}
{"id": "C33", "title": "ordered flat lookup is correct", "statement": "find, lower_bound, upper_bound, equal_range, count and contains on flat sets/maps/multisets/multimaps return the positions characterised by the comparator: find finds an equivalent element iff there is one.", "quantifier": "all sorted contents, all keys, all strict weak orders", "why_tests_cant": "All contents and keys.", "anchors": ["include/sfl/static_flat_set.hpp: find, lower_bound, upper_bound, equal_range, count, contains"]}
{"id": "C34", "title": "ordered flat insertion semantics", "statement": "insert/emplace on a flat set/map inserts iff no equivalent key is present, returns the position of the (new or existing) element and whether insertion took place, never overwrites the existing element, and keeps all other elements.", "quantifier": "all contents, values, comparators, throw-free runs", "why_tests_cant": "All contents.", "anchors": ["include/sfl/static_flat_set.hpp: insert_aux, emplace", "include/sfl/static_flat_map.hpp: insert_aux"]}
{"id": "C35", "title": "insertion hints never affect correctness", "statement": "insert(hint, x)/emplace_hint(hint, ...) of flat sets/maps/multisets/multimaps yields the same key sequence as insert(x) for every hint, good or bad.", "quantifier": "all hints in [begin, end], all contents, values, comparators", "why_tests_cant": "All hints × contents.", "anchors": ["include/sfl/static_flat_set.hpp: insert_aux(hint), is_insert_hint_good", "include/sfl/static_flat_multiset.hpp: is_insert_hint_good"]}
{"id": "C36", "title": "flat map element access and insert_or_assign/try_emplace", "statement": "operator[] and try_emplace insert a mapped value only if the key is absent; insert_or_assign assigns iff present; at throws out_of_range iff the key is absent; other entries are untouched.", "quantifier": "all contents, keys, values, comparators", "why_tests_cant": "All contents.", "anchors": ["include/sfl/static_flat_map.hpp: insert_or_assign_aux, try_emplace_aux, at, operator[]"]}
{"id": "C37", "title": "flat multisets/multimaps keep every inserted element in sorted order", "statement": "insert of a value into a flat multiset/multimap adds exactly one element and keeps keys non-decreasing; erase(key) removes exactly the equivalent elements and returns their number; count returns it.", "quantifier": "all contents, values, comparators, histories", "why_tests_cant": "All histories.", "anchors": ["include/sfl/static_flat_multiset.hpp", "include/sfl/small_flat_multiset.hpp", "include/sfl/static_flat_multimap.hpp"]}
{"id": "C38", "title": "assigning an initializer list keeps container invariants", "statement": "After c = {x1, ..., xn} on a flat or unordered-flat set/map, the container holds exactly the keys of the list, sorted (ordered variants) and without duplicates (set/map variants).", "quantifier": "all initializer lists and all previous contents", "why_tests_cant": "All lists; library tests only use sorted unique lists.", "anchors": ["include/sfl/static_flat_set.hpp: operator=(initializer_list), assign_range", "include/sfl/static_unordered_flat_set.hpp: operator=(initializer_list)"]}
{"id": "C39", "title": "flat set insertion and exceptions", "statement": "If an element operation throws during an insertion into a flat set, memory safety is kept (no leak, no double destroy).  Whether the keys stay sorted is also decided.", "quantifier": "all states, throw points", "why_tests_cant": "All throw points of all states.", "anchors": ["include/sfl/static_flat_set.hpp: insert_exactly_at", "include/sfl/small_flat_set.hpp: insert_exactly_at"]}
{"id": "C40", "title": "unordered flat sets/maps hold at most one element per key", "statement": "After any history of insert/emplace/erase, an unordered flat set/map holds pairwise non-equivalent keys and exactly those a mathematical finite set/map would hold.", "quantifier": "all equality predicates that are equivalences, all histories", "why_tests_cant": "All histories.", "anchors": ["include/sfl/static_unordered_flat_set.hpp", "include/sfl/static_unordered_flat_map.hpp", "include/sfl/small_unordered_flat_set.hpp"]}
{"id": "C41", "title": "unordered flat erase removes exactly the requested elements", "statement": "erase(pos), erase(first,last) and erase(key) (key not referring into the container) remove exactly the designated elements, keep all others (in possibly different order), and return the documented iterator/count.", "quantifier": "all contents, positions, ranges, keys", "why_tests_cant": "All contents.", "anchors": ["include/sfl/static_unordered_flat_set.hpp: erase", "include/sfl/static_unordered_flat_multiset.hpp: erase"]}
{"id": "C42", "title": "unordered flat multiset erase(key) may be given a reference to an element", "statement": "erase(key) where key refers to an element of the container removes exactly the elements equivalent to the value key had at the call.", "quantifier": "all contents, aliased keys", "why_tests_cant": "Depends on element order and aliasing.", "anchors": ["include/sfl/static_unordered_flat_multiset.hpp: erase", "include/sfl/static_unordered_flat_multimap.hpp: erase"]}
{"id": "C43", "title": "unordered flat equality ignores order", "statement": "operator== on unordered flat containers is true iff the two containers hold the same multiset of elements.", "quantifier": "all pairs of contents", "why_tests_cant": "All pairs/permutations.", "anchors": ["include/sfl/static_unordered_flat_set.hpp: operator==", "include/sfl/static_unordered_flat_multiset.hpp: operator=="]}
{"id": "C44", "title": "relocation algorithms are correct for overlapping ranges", "statement": "The library's copy, copy_backward, move, move_backward, fill and uninitialized_* algorithms produce exactly the specified target contents for every overlap the containers use, and roll back completely on exceptions.", "quantifier": "all ranges, overlaps and throw points", "why_tests_cant": "All ranges.", "anchors": ["include/sfl/private.hpp: copy, copy_backward, move, move_backward, fill, uninitialized_*"]}
{"id": "C45", "title": "at() is bounds checked", "statement": "at(i) returns the i-th element iff i < size() and throws out_of_range otherwise, changing nothing.", "quantifier": "all contents and all indices", "why_tests_cant": "All indices.", "anchors": ["include/sfl/vector.hpp: at", "include/sfl/static_vector.hpp: at", "include/sfl/small_vector.hpp: at", "include/sfl/compact_vector.hpp: at", "include/sfl/devector.hpp: at"]}
{"id": "C46", "title": "erase/erase_if free functions", "statement": "erase(c, value) and erase_if(c, pred) keep exactly the elements not matching, in order, and return the number removed.", "quantifier": "all contents, values, predicates", "why_tests_cant": "All contents.", "anchors": ["include/sfl/vector.hpp: erase, erase_if", "include/sfl/static_vector.hpp: erase, erase_if", "include/sfl/static_flat_set.hpp: erase_if", "include/sfl/devector.hpp: erase, erase_if"]}
{"id": "C47", "title": "inserting into an unordered flat container has no effect if it throws", "statement": "If insert, emplace, try_emplace or operator[] of an unordered flat container throws (key equality, element constructor or allocator), the container holds the same elements as before; whatever throws in any member function, the container stays valid and no memory is lost.", "quantifier": "all contents, arguments, throw points and key equalities", "why_tests_cant": "All throw points; tests never make the key equality throw.", "anchors": ["include/sfl/static_unordered_flat_set.hpp: emplace_aux, insert_aux", "include/sfl/small_unordered_flat_map.hpp: emplace_aux, try_emplace"]}
{"id": "C48", "title": "devector: resize(n) adds and removes at the end", "statement": "resize(n) and resize(n, value) of sfl::devector leave the first min(n, size()) elements as they are and, if n > size(), add n - size() elements after the last one.", "quantifier": "all contents, front and back capacities, n, values", "why_tests_cant": "Where elements are added depends on how the free storage is split between the two ends.", "anchors": ["include/sfl/devector.hpp: resize"]}
{"id": "C49", "title": "devector: adding one element at an end has no effect if it throws", "statement": "If push_back, emplace_back, push_front or emplace_front of sfl::devector throws and elements can be moved without throwing or can be copied, the container is unchanged.", "quantifier": "all contents, front and back capacities, throw points", "why_tests_cant": "All throw points in all geometries; the relocation strategy depends on type traits.", "anchors": ["include/sfl/devector.hpp: emplace_back, emplace_front"]}
{"id": "C50", "title": "devector: length_error exactly if the size would exceed max_size()", "statement": "push_back, push_front and the emplace functions of sfl::devector throw length_error only if size() == max_size().", "quantifier": "all sizes, capacities and max_size()", "why_tests_cant": "Needs containers near max_size().", "anchors": ["include/sfl/devector.hpp: emplace_back, emplace_front, insert_aux_grow_storage_front, insert_aux_grow_storage_back"]}
{"id": "C51", "title": "segmented_devector works as a queue of bounded size", "statement": "In a segmented_devector used as a queue (push_back at one end, pop_front at the other, size() never above a small bound) push_back does not throw length_error, however many elements pass through it.", "quantifier": "all numbers of operations, segment sizes and bounds", "why_tests_cant": "The capacity grows slowly with the number of elements that passed through; the limit is far beyond what a test runs.", "anchors": ["include/sfl/segmented_devector.hpp: grow_storage_back, emplace_back, pop_front"]}
{"id": "C52", "title": "segmented_devector: double-ended sequence semantics and memory safety", "statement": "Each member function of segmented_devector that returns normally performs the corresponding list operation (at both ends and in the middle), whatever the free places before the first and behind the last element; if anything throws, the container stays valid and nothing is leaked; the destructor releases the table and all segments.", "quantifier": "all segment sizes, contents, geometries, positions, counts, throw patterns, histories of any number of containers", "why_tests_cant": "Segment boundaries times free places at both ends times throw points.", "anchors": ["include/sfl/segmented_devector.hpp", "doc/segmented_devector.md"]}
{"id": "C53", "title": "segmented_devector: resize(n) adds and removes at the end", "statement": "resize(n) and resize(n, value) of sfl::segmented_devector leave the first min(n, size()) elements as they are and, if n > size(), add n - size() elements after the last one.", "quantifier": "all contents, free places at both ends, segment sizes, n, values", "why_tests_cant": "Where elements are added depends on how the free places are split between the two ends.", "anchors": ["include/sfl/segmented_devector.hpp: resize"]}
{"id": "C54", "title": "devector: push_front and push_back take constant time, amortised", "statement": "Any sequence of n calls of push_front and push_back, in any mixture, on a devector with m elements performs O(n + m) element operations and allocations; a single call performs at most a number linear in the size. The documentation says \"Constant\" also for sequences that contain pop_front and pop_back (the latter is refuted: there are such sequences in which the average cost per call grows with the size).", "quantifier": "all contents, geometries, sequences of calls of any length", "why_tests_cant": "An amortised bound is about all sequences; a test measures a few of them, and the expensive mixture needs a particular ratio of free places to elements.", "anchors": ["include/sfl/devector.hpp: emplace_front_aux, emplace_back_aux, calculate_new_capacity and the relocation helpers (1347-1383, 2043-2115, 2380-4046)", "doc/devector.md: Complexity of push_front, push_back, pop_front, pop_back"]}
{"id": "C55", "title": "small_vector: push_back takes constant time, amortised", "statement": "A sequence of n calls of push_back on a small_vector<T, N> with m elements performs O(n + m) element operations and allocations, including the move of the elements from the internal storage to allocated memory.", "quantifier": "all N, contents, capacities, lengths of the sequence", "why_tests_cant": "Amortised bound over sequences of any length.", "anchors": ["include/sfl/small_vector.hpp: emplace_back, calculate_new_capacity", "doc/small_vector.md: Complexity of push_back, emplace_back"]}
{"id": "C56", "title": "flat sets and maps: lookup makes a logarithmic number of comparisons", "statement": "find, count, contains, at, lower_bound, upper_bound and equal_range of the ordered flat containers call the comparator at most about log2(size()) (equal_range and count of multi containers: 2 log2(size())) times, also if the comparator throws, and call nothing else.", "quantifier": "all contents, keys, comparators, sizes", "why_tests_cant": "A bound for all sizes and all comparators, also inconsistent ones.", "anchors": ["include/sfl/static_flat_set.hpp and the other ordered flat containers: lookup", "doc/static_flat_set.md: Complexity of lookup"]}
{"id": "C57", "title": "unordered flat containers: lookup is linear, erase(pos) moves at most one element", "statement": "find, count, contains and at call the key equality at most size() times; erase(pos) performs at most one element operation (one move assignment), whatever the size.", "quantifier": "all contents, keys, key equalities, positions", "why_tests_cant": "A bound for all sizes.", "anchors": ["include/sfl/static_unordered_flat_set.hpp and the other unordered flat containers: find, count, contains, erase", "doc/static_unordered_flat_set.md: Complexity"]}
{"id": "C58", "title": "segmented containers: push at an end has a constant worst case and moves no element", "statement": "push_back/emplace_back of segmented_vector, and push_back, push_front of segmented_devector perform at most one element construction and three allocations (two if segments have more than one place), whatever the size; no existing element is moved or copied. pop_back and pop_front only destroy an element.", "quantifier": "all contents, geometries, segment sizes, throw patterns", "why_tests_cant": "A worst case bound for all sizes and geometries.", "anchors": ["include/sfl/segmented_vector.hpp: emplace_back, grow_storage (639-658, 956-1032)", "include/sfl/segmented_devector.hpp: emplace_front, emplace_back, grow_storage_front, grow_storage_back (690-731, 1327-1498)", "doc/segmented_vector.md, doc/segmented_devector.md: Complexity"]}
{"id": "C59", "title": "ordered flat containers with a transparent comparator: lookup by an argument of another type", "statement": "lower_bound(x), upper_bound(x), equal_range(x), find(x), contains(x), at(x) with an argument x of another type than the key find the positions at which x splits the elements (those before, equivalent to and behind x); they do not change the container; at(x) throws out_of_range only if no element is equivalent to x; whatever the comparator computes or throws, nothing is undefined.", "quantifier": "all ordered flat containers, contents, arguments, comparators (inconsistent and throwing ones too)", "why_tests_cant": "Binary searches with an argument that compares in an arbitrary way, over all contents.", "anchors": ["include/sfl/static_flat_set.hpp: lower_bound, upper_bound, equal_range, find, contains (638-795)", "include/sfl/small_flat_map.hpp and the six other ordered flat containers: overloads with K", "doc/static_flat_set.md, doc/small_flat_map.md"]}
{"id": "C60", "title": "ordered flat containers with a transparent comparator: insertion, assignment and removal", "statement": "insert(x), insert(hint, x), try_emplace(x, ...), insert_or_assign(x, obj), c[x] and erase(x): if an element is equivalent to x, the container has it found, changed (only the mapped value) or removed; otherwise the element made from x is inserted at the place where x belongs, whatever the hint. If x compares as a key k does and the element made from x has the key k, then the effect is that of the function called with the key and the order is kept. A call that throws leaves a valid container, unchanged if memory is exhausted or the new element comes last.", "quantifier": "all ordered flat containers, contents, arguments, hints, comparators, throw patterns", "why_tests_cant": "Relates two families of overloads for all contents, hints and throw patterns.", "anchors": ["include/sfl/static_flat_set.hpp: insert(K&&), erase(K&&), insert_aux_heterogeneous (452-486, 546-557, 884-910)", "include/sfl/static_flat_map.hpp, include/sfl/small_flat_map.hpp: try_emplace, insert_or_assign, operator[] with K", "doc/static_flat_map.md"]}
{"id": "C61", "title": "ordered flat containers with a transparent comparator: count(x) and erase(x) concern all equivalent elements", "statement": "count(x) returns the number of elements equivalent to x; erase(x) removes exactly those and returns their number; afterwards contains(x) is false.", "quantifier": "all ordered flat containers, contents, arguments that split the elements", "why_tests_cant": "Tests use arguments that match at most one element of a set.", "anchors": ["include/sfl/static_flat_set.hpp: count, erase (546-557, 772-778)", "include/sfl/static_flat_multiset.hpp: count, erase", "doc/static_flat_set.md: count, erase"]}
{"id": "C62", "title": "unordered flat containers with a transparent key equality: lookup by an argument of another type", "statement": "find(x), contains(x), at(x) with an argument x of another type than the key find the first element equal to x; they do not change the container; at(x) throws out_of_range only if no element is equal to x; whatever the key equality computes or throws, nothing is undefined.", "quantifier": "all unordered flat containers, contents, arguments, key equalities (inconsistent and throwing ones too)", "why_tests_cant": "Arguments that compare in an arbitrary way, over all contents.", "anchors": ["include/sfl/static_unordered_flat_set.hpp: find, count, contains with K (637-695)", "include/sfl/small_unordered_flat_map.hpp: find, count, contains, at with K (1260-1378)", "doc/small_unordered_flat_map.md"]}
{"id": "C63", "title": "unordered flat containers with a transparent key equality: insertion, assignment and removal", "statement": "insert(x), insert(hint, x), try_emplace(x, ...), insert_or_assign(x, obj), c[x] and erase(x): if an element is equal to x, the first such element is found, changed (only the mapped value) or removed; otherwise the element made from x is appended, whatever the hint. If x is equal to exactly the elements with key k and the element made from x has the key k, then the effect is that of the function called with the key, and keys stay distinct. A call that throws leaves a valid container; an insertion that throws has no effect unless it was assigning a mapped value or moving elements may lose them.", "quantifier": "all unordered flat containers, contents, arguments, hints, key equalities, throw patterns", "why_tests_cant": "Relates two families of overloads for all contents, hints and throw patterns.", "anchors": ["include/sfl/static_unordered_flat_set.hpp: insert(K&&), erase(K&&), insert_aux_heterogeneous (403-434, 527-540, 805-823)", "include/sfl/static_unordered_flat_map.hpp, include/sfl/small_unordered_flat_map.hpp: try_emplace, insert_or_assign, operator[] with K", "doc/static_unordered_flat_map.md"]}
{"id": "C64", "title": "unordered flat containers with a transparent key equality: count(x) and erase(x) concern all equal elements", "statement": "count(x) returns the number of elements equal to x; erase(x) removes exactly those and returns their number; afterwards contains(x) is false.", "quantifier": "all unordered flat containers, contents, arguments", "why_tests_cant": "Tests use arguments that match at most one element of a set.", "anchors": ["include/sfl/static_unordered_flat_set.hpp: count, erase (527-540, 675-681)", "include/sfl/small_unordered_flat_multiset.hpp: count, erase (873-893, 1137-1153)", "doc/small_unordered_flat_set.md: count, erase"]}
{"id": "C65", "title": "segmented containers: resize(n, value) appends copies of value even if value is an element", "statement": "resize(n, value) of segmented_vector, and resize, resize_front and resize_back of segmented_devector with n > size() add n - size() copies of the value the argument had when called, also when it refers to an element of the container; a call that throws keeps the elements.", "quantifier": "all contents, sizes, positions of the argument, segment sizes, throw points", "why_tests_cant": "Whether the argument is still readable depends on whether storage grows and where; tests use values outside the container.", "anchors": ["include/sfl/segmented_vector.hpp: resize (750-786), grow_storage", "include/sfl/segmented_devector.hpp: resize, resize_front, resize_back (921-1004, 1045-1083, 1120-1154), grow_storage_front, grow_storage_back"]}
{"id": "C66", "title": "ordered flat containers: construction from a range is linear", "statement": "The constructors of the small and static flat sets and maps from a range or an initializer list perform a number of operations (element operations, comparisons, allocations) linear in the length of the range, as documented.", "quantifier": "all ordered flat containers, ranges, comparators", "why_tests_cant": "A complexity bound is about all lengths; tests do not count operations.", "anchors": ["doc/small_flat_set.md: 223, 246; doc/static_flat_set.md: 187, 207; and map, multiset, multimap", "include/sfl/small_flat_set.hpp: initialize_range (1326-1357)", "include/sfl/static_flat_set.hpp: constructors (148-176)"]}
{"id": "C67", "title": "unordered flat containers: insertion is O(1), construction from a range is linear", "statement": "Inserting an element into an unordered flat container performs O(1) operations, and the constructors of static_unordered_flat_* from a range perform a number of operations linear in the length of the range, as documented.", "quantifier": "all unordered flat containers, contents, ranges, key equalities", "why_tests_cant": "A complexity bound is about all sizes; tests do not count calls of the key equality.", "anchors": ["doc/static_unordered_flat_set.md: 66, 171, 191; doc/small_unordered_flat_set.md: 67; and map, multiset, multimap", "include/sfl/static_unordered_flat_set.hpp: constructors (141-180), emplace_aux, insert_aux (762-796)"]}
{"id": "C68", "title": "erase_if is linear", "statement": "erase_if(c, pred) performs a number of operations on elements and calls of the predicate that is linear in the size of the container, as documented for every container.", "quantifier": "vector, small_vector, static_vector, devector, all flat containers; all contents, predicates", "why_tests_cant": "A complexity bound is about all sizes; tests do not count moves of elements.", "anchors": ["doc/small_flat_set.md: 1357-1375; doc/vector.md: 1323-1341; and the other containers", "include/sfl/small_flat_set.hpp: erase_if (1878-1895) and the same loop in the other seven ordered flat containers", "include/sfl/small_unordered_flat_set.hpp: erase_if (1713-1731)", "include/sfl/vector.hpp: erase_if (2070-2078), small_vector, static_vector, devector (4172-4180)"]}
{"id": "C69", "title": "insertion and erasure: linear in the elements inserted plus the distance to the end", "statement": "emplace, insert and erase of vector, small_vector and static_vector take, if no reallocation is needed, a number of operations linear in the number of elements inserted plus the distance from the position to the end; with reallocation, linear in the new size. As documented, for every kind of iterator.", "quantifier": "all contents, positions, counts, ranges", "why_tests_cant": "A complexity bound is about all sizes; tests do not count moves of elements.", "anchors": ["doc/vector.md: 812-960 (emplace, insert); doc/small_vector.md, doc/static_vector.md", "include/sfl/vector.hpp: 601-743, 1635-1977; 1792-1806 (input iterators)", "include/sfl/static_vector.hpp: 571-792; 703-715 (input iterators)"]}
{"id": "C70", "title": "devector: insertion and erasure are linear in the distance to the nearer end", "statement": "emplace and insert of devector take a number of operations linear in the number of elements inserted plus the distance from the position to the nearer end of the container, as documented; erase moves only the elements between the erased ones and the nearer end.", "quantifier": "all contents, positions, counts, ranges, amounts of free space at both ends", "why_tests_cant": "A complexity bound is about all sizes and all positions of the elements in the storage; tests do not count moves of elements.", "anchors": ["doc/devector.md: 878-1008 (emplace, insert)", "include/sfl/devector.hpp: 701-754, 806-874, 2043-2378 (insert_aux), 2380-4046"]}
{"id": "C71", "title": "Segmented containers: insertion and erasure are linear in the distance to the end", "statement": "emplace and insert of segmented_vector take a number of operations linear in the number of elements inserted plus the distance from the position to the end; for segmented_devector it is the distance to the nearer end, whether or not there is room there. erase moves only the elements behind the erased ones (segmented_devector: those between them and the nearer end).", "quantifier": "all contents, positions, counts, ranges, segment sizes, amounts of free space at both ends", "why_tests_cant": "A complexity bound is about all sizes and all positions of the elements in the segments; tests do not count moves of elements or allocations.", "anchors": ["doc/segmented_vector.md: 795-925 (emplace, insert)", "doc/segmented_devector.md: 837-956", "include/sfl/segmented_vector.hpp: 534-722, 1522-1703", "include/sfl/segmented_devector.hpp: 524-850, 2138-2485"]}
{"id": "C72", "title": "assign(n, value) accepts an element of the container as value", "statement": "c.assign(n, c[i]) replaces the contents of the container with n copies of the value c[i] had before the call, wherever the element is and whether the container grows or shrinks.", "quantifier": "all contents, n, i, capacities, throw patterns; segmented containers: all segment sizes and all n", "why_tests_cant": "The element is overwritten or destroyed during the call; whether it is still there when it is read depends on n, the index, the size and the capacity. Reading a destroyed element of a trivial type or in freed memory usually goes unnoticed in a test.", "anchors": ["doc/vector.md: 287", "doc/small_vector.md: 305", "doc/compact_vector.md: 286", "doc/devector.md: 295", "doc/segmented_vector.md: 315", "include/sfl/vector.hpp: 1426-1484 (assign_fill_n)", "include/sfl/small_vector.hpp: 1832-1890", "include/sfl/compact_vector.hpp: 1170-1212", "include/sfl/devector.hpp: 1720-1831", "include/sfl/segmented_vector.hpp: 1239-1287", "include/sfl/segmented_devector.hpp: 1722-1833"]}
{"id": "C73", "title": "The constructors of the sequence containers are linear", "statement": "Constructing a sequence container from n values or from a range costs a number of element operations and allocations linear in the number of elements, the default constructor nothing or a constant number; copy construction is linear in other.size(), move construction constant when the allocators are equal, otherwise linear in size (small_vector: linear in N).", "quantifier": "all element counts, capacities, allocators, source objects, throw patterns; segmented containers: all segment sizes", "why_tests_cant": "A bound for all sizes cannot be observed in finitely many runs, and tests do not count operations; a constructor that reallocates for every element gives the right contents.", "anchors": ["doc/vector.md: 145-261", "doc/small_vector.md: 163-277", "doc/static_vector.md: 146-237", "doc/compact_vector.md: 141-257", "doc/devector.md: 153-267", "doc/segmented_vector.md: 169-287", "doc/segmented_devector.md: 176-294", "include/sfl/vector.hpp: 1249-1424", "include/sfl/small_vector.hpp: 1607-1828", "include/sfl/compact_vector.hpp: 940-1160 (input iterators: 1011-1041)", "include/sfl/devector.hpp: 1536-1718", "include/sfl/segmented_vector.hpp: 1102-1237", "include/sfl/segmented_devector.hpp: 1585-1720"]}
{"id": "C74", "title": "assign and the assignment operators of the contiguous containers are linear", "statement": "assign(n, value) performs a number of element operations and allocations linear in n, assign(first, last) linear in std::distance(first, last), also for input iterators; no allocation happens if the elements fit in the capacity; copy assignment is linear in other.size(); move assignment is constant when the storage can be taken over (equal or propagated allocators; small_vector: elements outside the object), otherwise linear in other.size().", "quantifier": "all element counts, capacities, contents, allocators and propagation traits, source objects, throw patterns", "why_tests_cant": "A bound for all sizes cannot be observed in finitely many runs, and tests do not count operations; an assign that reallocates although the elements fit gives the right contents.", "anchors": ["doc/vector.md: 280-388", "doc/small_vector.md: 298-408", "doc/static_vector.md: 291-411", "doc/devector.md: 288-396", "include/sfl/vector.hpp: 1426-1633", "include/sfl/small_vector.hpp: 1830-2047", "include/sfl/static_vector.hpp: 191-336", "include/sfl/compact_vector.hpp: 1170-1327", "include/sfl/devector.hpp: 1720-2039"]}
{"id": "C75", "title": "assign of the segmented containers is linear", "statement": "assign(n, value) of segmented_vector and segmented_devector performs exactly n element operations, assign(first, last) and assign(ilist) exactly as many as there are elements, whatever the container held before; nothing is allocated if the elements fit in the storage there is, otherwise at most n / segment size + 2 blocks; input iterators are linear too.", "quantifier": "all element counts, segment sizes, contents, positions of the elements in the storage, throw patterns", "why_tests_cant": "A bound for all sizes cannot be observed in finitely many runs, and tests do not count operations; the four ways segmented_devector distributes the elements over the storage give the same contents.", "anchors": ["doc/segmented_vector.md: 308-353", "doc/segmented_devector.md: 318-363", "include/sfl/segmented_vector.hpp: 1239-1370", "include/sfl/segmented_devector.hpp: 1722-1983"]}
{"id": "C76", "title": "cost of resize, reserve and shrink_to_fit", "statement": "resize(n) of vector, small_vector and static_vector performs n - size() element operations if the elements fit and n if the storage is replaced, none if n <= size(); reserve and shrink_to_fit perform size() operations if the storage is replaced and none otherwise, with one allocation at most; shrink_to_fit of a small_vector leaves elements alone that are in the object; compact_vector performs n operations unless the size stays the same; each of the resize and reserve functions of devector, at either end, moves the elements only if there is no room at that end; the segmented containers construct the new elements and never move one.", "quantifier": "all sizes, capacities, positions of the elements in the storage, segment sizes, throw patterns", "why_tests_cant": "A bound for all sizes cannot be observed in finitely many runs, and tests do not count operations; an implementation that relocates needlessly gives the same contents.", "anchors": ["doc/vector.md: 638, 672, 1071-1106", "doc/small_vector.md: 660, 700, 1097-1132", "doc/static_vector.md: 1036-1092", "doc/compact_vector.md: 957-980", "doc/devector.md: 662-730, 1202", "include/sfl/vector.hpp: 401-503", "include/sfl/small_vector.hpp: 454-652", "include/sfl/static_vector.hpp: 866-955", "include/sfl/compact_vector.hpp: 744-907", "include/sfl/devector.hpp: 421-603, 876-1189", "include/sfl/segmented_vector.hpp: 433-446, 713-786, 1038-1095", "include/sfl/segmented_devector.hpp: 427-452, 841-1154, 1504-1578"]}
{"id": "C77", "title": "cost of swap, and of move assignment of the segmented containers", "statement": "swap of vector, compact_vector, devector, segmented_vector and segmented_devector neither touches an element nor calls the allocator; swap of static_vector takes three operations for each pair of elements and one for each element without a partner; swap of small_vector does the same if both keep their elements inside, moves the elements of the one that does otherwise, and takes constant time if neither does. Move assignment of the segmented containers takes two allocations and no element operation if the allocators are equal, and moves each element once if they differ and do not propagate.", "quantifier": "all contents, capacities, storage kinds, allocators, throw patterns", "why_tests_cant": "A bound for all sizes cannot be observed in finitely many runs, and tests do not count operations; an element-wise swap gives the same contents.", "anchors": ["doc/vector.md: 1121", "doc/compact_vector.md: 990-1000", "doc/devector.md: 1295-1305", "doc/segmented_vector.md: 1070-1080", "doc/segmented_devector.md: 1239-1249", "doc/small_vector.md: 1147", "doc/static_vector.md: 1107", "include/sfl/small_vector.hpp: 1379-1537", "include/sfl/devector.hpp: 1191-1220", "include/sfl/segmented_vector.hpp: 788-809, 1414-1510", "include/sfl/segmented_devector.hpp: 1156-1177, 2028-2126"]}
{"id": "C78", "title": "the six relational operators agree with each other and with the contents", "statement": "For vector, small_vector, static_vector, compact_vector, devector, segmented_vector, segmented_devector and the eight ordered flat containers: x == y says that the elements are pairwise equal and as many, x < y that x comes first lexicographically, x > y that y does, x != y that they are not equal, x <= y that x < y or x == y, x >= y that x > y or x == y, provided the elements are never less both ways and equal exactly if less in neither. Exactly one of <, ==, > holds of any two sequences, and < is transitive if it is for the elements. The operators change neither object, have no undefined behaviour, and throw only what an operator of the elements throws. For the eight unordered flat containers x != y says that the elements are not the same up to order.", "quantifier": "all contents and lengths (also one a prefix of the other), storage layouts, allocators, operators of the elements, throw patterns", "why_tests_cant": "Totality and transitivity are statements about all pairs and triples of containers; a reversed operand or a missing end check shows only for particular prefixes.", "anchors": ["doc/vector.md: 1130-1285", "include/sfl/vector.hpp: 1984-2048", "include/sfl/small_vector.hpp: 2442-2506", "include/sfl/static_vector.hpp: 1021-1085", "include/sfl/compact_vector.hpp: 1542-1606", "include/sfl/devector.hpp: 4086-4150", "include/sfl/segmented_vector.hpp: 1710-1774", "include/sfl/segmented_devector.hpp: 2491-2555", "include/sfl/small_flat_set.hpp: 1801-1863", "include/sfl/static_flat_map.hpp: 1285-1347", "include/sfl/small_unordered_flat_set.hpp: 1680-1698"]}
{"id": "C79", "title": "cost of copy assignment and element-wise move assignment of the segmented containers", "statement": "Copy assignment of segmented_vector and segmented_devector, and move assignment between different allocators, performs exactly one element operation for each element of the source. It allocates only if the elements do not fit: at most one table and the segments for the elements. If the allocators differ and propagate, the storage is first replaced by a new table and one segment, which makes two allocations more. The old elements cost nothing.", "quantifier": "all contents, capacities, front offsets, allocators (equal or not, propagating or not), segment sizes, throw patterns", "why_tests_cant": "A bound for all sizes cannot be observed in finitely many runs; tests compare contents, not the number of copies, moves and allocations.", "anchors": ["doc/segmented_vector.md: 362", "doc/segmented_devector.md: 369", "include/sfl/segmented_vector.hpp: 1372-1510", "include/sfl/segmented_devector.hpp: 1985-2126"]}
{"id": "C80", "title": "cost of the relational operators", "statement": "== and != of the sequence containers and of the ordered flat containers compare no elements if the sizes differ, and otherwise at most as many pairs as there are elements; <, >, <= and >= make at most two comparisons for each element of the shorter container. They perform no other element operation and no allocation, also if a comparison throws.", "quantifier": "all contents, sizes, storage layouts, operators of the elements, throw patterns", "why_tests_cant": "A bound for all sizes cannot be observed in finitely many runs; an == that compares elements before sizes gives the same answers.", "anchors": ["doc/vector.md: 1130-1290", "include/sfl/vector.hpp: 1984-2048", "include/sfl/small_vector.hpp: 2442-2506", "include/sfl/static_vector.hpp: 1021-1085", "include/sfl/compact_vector.hpp: 1542-1606", "include/sfl/devector.hpp: 4086-4150", "include/sfl/segmented_vector.hpp: 1710-1774", "include/sfl/segmented_devector.hpp: 2491-2555"]}
{"id": "C81", "title": "nth and index_of are inverse", "statement": "nth(i) of the sequence and flat containers succeeds exactly if i <= size(); index_of of the iterator it returns is i; for i < size() the iterator refers to element i. Neither call changes the container, and neither throws.", "quantifier": "all contents, sizes, positions, segment sizes and storage layouts, also empty storage and unused room at the front", "why_tests_cant": "The positions of the segmented containers are computed by division through a table of segments; agreement for every size, segment size and front offset is an infinite family.", "anchors": ["doc/vector.md: 500-540", "include/sfl/vector.hpp: 343-361", "include/sfl/small_vector.hpp: 396-414", "include/sfl/static_vector.hpp: 421-439", "include/sfl/compact_vector.hpp: 347-365", "include/sfl/devector.hpp: 357-375", "include/sfl/segmented_vector.hpp: 361-393", "include/sfl/segmented_devector.hpp: 363-381", "include/sfl/small_flat_set.hpp: 507-525", "include/sfl/static_flat_map.hpp: 409-427", "include/sfl/small_unordered_flat_map.hpp: 529-547"]}
{"id": "C82", "title": "iterators at different positions differ", "statement": "The iterators nth(i) and nth(j) of a sequence or flat container compare equal exactly if i == j; nth(i) compares equal to begin() exactly if i == 0 and to end() exactly if i == size(). So a loop from begin() to end() that advances by one stops after exactly size() steps.", "quantifier": "all contents, sizes, pairs of positions, segment sizes, storage layouts", "why_tests_cant": "Iterators of the segmented containers compare only the address of the element; that a position at the end of one segment never compares equal to one of another segment is a claim about all layouts.", "anchors": ["include/sfl/private.hpp: 613-617", "include/sfl/segmented_vector.hpp: 361-393", "include/sfl/segmented_devector.hpp: 363-381", "include/sfl/vector.hpp: 343-361", "include/sfl/devector.hpp: 357-375"]}
