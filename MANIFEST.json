{
 "claims": [
  {
   "property": "C01",
   "status": "proved",
   "theorems": [
    "C01_static_vector_histories",
    "C01_static_vector_call",
    "C01_static_vector_copy_construct",
    "C01_static_vector_move_construct",
    "C01_static_vector_equality"
   ],
   "note": "Any number of vectors, any history of calls. Erasing an empty range before the end (C03) and counts which wrap 2^64 (C04) are outside the history condition."
  },
  {
   "property": "C02",
   "status": "proved",
   "theorems": [
    "C02_static_vector_lifetimes"
   ],
   "note": "Along the same histories as C01: never undefined behaviour, exactly the first size() slots are alive, and destruction leaves no object."
  },
  {
   "property": "C03",
   "status": "partial",
   "theorems": [
    "C03_static_vector_empty_erase_refuted",
    "C03_static_vector_empty_insert_partial",
    "C03_static_vector_empty_erase_partial"
   ],
   "note": "False for erase(it, it) before the end: undefined behaviour in every state (_refuted). Proved for empty insertions and for an empty erase at the end."
  },
  {
   "property": "C04",
   "status": "partial",
   "theorems": [
    "C04_static_vector_over_capacity_refuted",
    "C04_static_vector_over_capacity_partial"
   ],
   "note": "False when size() + count wraps around 2^64: the check passes and memory is corrupted (_refuted). Proved whenever the sum does not wrap."
  },
  {
   "property": "C05",
   "status": "partial",
   "theorems": [
    "C05_static_vector_insert_exception_refuted",
    "C05_static_vector_exceptions_partial",
    "C05_static_vector_push_back_strong_partial"
   ],
   "note": "False for the insertions: a throwing construction leaves a hole in the range and destruction is undefined (_refuted). Proved for all other calls, push_back strongly."
  },
  {
   "property": "C06",
   "status": "partial",
   "theorems": [
    "C06_static_vector_insert_own_refuted",
    "C06_static_vector_push_back_own_partial",
    "C06_static_vector_resize_own_partial"
   ],
   "note": "False for insert(pos, v[k]) with k >= pos: undefined or the wrong element (_refuted gives the full characterisation). Proved for push_back, resize and k < pos."
  },
  {
   "property": "C07",
   "status": "proved",
   "theorems": [
    "C07_small_vector_histories",
    "C07_small_vector_call",
    "C07_small_vector_copy_construct",
    "C07_small_vector_move_construct",
    "C07_small_vector_equality"
   ],
   "note": "Any number of vectors, any history including copy/move assignment, reserve, shrink_to_fit and revert_to_static. Empty insertions/erases before the end are outside the history condition (C12); the allocator can serve 1.5 times each size reached; StaticCapacity > 0."
  },
  {
   "property": "C08",
   "status": "proved",
   "theorems": [
    "C08_small_vector_lifetimes"
   ],
   "note": "Along the histories of C07: never undefined behaviour, and what is alive is exactly the size() elements of the current buffer."
  },
  {
   "property": "C09",
   "status": "proved",
   "theorems": [
    "C09_small_vector_storage"
   ],
   "note": "Along the histories of C07: deallocate always gets a live block of the right capacity without objects in it; at most one dynamic block is held; the destructor returns it."
  },
  {
   "property": "C10",
   "status": "partial",
   "theorems": [
    "C10_revert_to_static_refuted",
    "C10_revert_to_static_partial",
    "C10_shrink_to_fit"
   ],
   "note": "False when size() == StaticCapacity while dynamic: answers true and stays dynamic (_refuted). _partial characterises the answer and the resulting buffer exactly for all states."
  },
  {
   "property": "C11",
   "status": "partial",
   "theorems": [
    "C11_reserve_refuted",
    "C11_reserve_partial",
    "C11_push_back_in_place_partial",
    "C11_insert_in_place_partial"
   ],
   "note": "False with RevertToStaticBelow: push_back after reserve(n) may go back to the static buffer and lose the capacity (_refuted). Proved: reserve gives the capacity; insertions that fit stay in place when static or when the new size is at least RevertToStaticBelow."
  },
  {
   "property": "C12",
   "status": "partial",
   "theorems": [
    "C12_small_vector_empty_insert_refuted",
    "C12_small_vector_empty_erase_refuted",
    "C12_small_vector_empty_partial"
   ],
   "note": "False before the end when the elements stay in place: undefined behaviour in every such state (_refuted). Proved in the remaining cases (at the end; when the elements move back to the static buffer)."
  },
  {
   "property": "C13",
   "status": "partial",
   "theorems": [
    "C13_small_vector_push_back_own_refuted",
    "C13_small_vector_insert_own_refuted",
    "C13_small_vector_resize_own_refuted",
    "C13_small_vector_push_back_own_partial",
    "C13_small_vector_resize_own_partial",
    "C13_small_vector_insert_own_in_place_partial"
   ],
   "note": "False whenever the call relocates, and for insert with k >= pos (_refuted, for every such state). Proved for push_back, resize and k < pos in place."
  },
  {
   "property": "C14",
   "status": "partial",
   "theorems": [
    "C14_small_vector_every_throw_partial",
    "C14_small_vector_no_throw_partial",
    "C14_small_vector_copy_assign_throw_partial",
    "C14_small_vector_other_exceptions_partial",
    "C14_small_vector_push_back_throw_refuted",
    "C14_small_vector_insert_throw_refuted",
    "C14_small_vector_assign_throw_refuted",
    "C14_small_vector_assign_alloc_refuted",
    "C14_small_vector_assign_in_place_partial",
    "C14_small_vector_push_back_alloc_partial",
    "C14_small_vector_insert_alloc_partial",
    "C14_small_vector_reserve_alloc_partial"
   ],
   "note": "False for every call which constructs elements, at every construction which throws (push_back, insert of one, several or a range, resize; assign and copy assignment into another buffer): destruction afterwards is undefined, from every state; also when the allocation of an assignment fails and there were elements. Proved: the number of constructions of every call exactly, assignments in place leave the elements assigned so far, every other exception (failed allocations, bad positions) changes nothing in any call but assignments, calls with fewer constructions than the throwing one behave as usual."
  },
  {
   "property": "C15",
   "status": "proved",
   "theorems": [
    "C15_pod_growth",
    "C15_growth",
    "C15_growth_from_zero"
   ],
   "note": "Proved for small_vector's loop and for pod_vector's get_new_capacity, with 64-bit wrap-around explicit; also shown: from capacity 0 the loop never ends (pod_vector avoids that case)."
  },
  {
   "property": "C16",
   "status": "proved",
   "theorems": [
    "C16_pod_vector_histories",
    "C16_equality"
   ],
   "note": "Any number of vectors over one byte-level memory, any history of calls incl. copy/move assignment and swap, any allocator answers. Outside the history condition: resize(n, v) of a non-empty vector (C18), sizes of 2^63 bytes and more, failing allocations."
  },
  {
   "property": "C17",
   "status": "proved",
   "theorems": [
    "C17_pod_vector_memory"
   ],
   "note": "Along the histories of C16: no call is undefined (out-of-block access or pointer, overlapping memcpy, wrong free), and destruction frees every block."
  },
  {
   "property": "C18",
   "status": "partial",
   "theorems": [
    "C18_resize_val_refuted",
    "C18_resize_val_overrun_refuted",
    "C18_resize_val_partial"
   ],
   "note": "False for every allocator and type: after assign(n, x), resize(n, x) writes past the block (_refuted). Proved only where size() + n fits the capacity."
  },
  {
   "property": "C19",
   "status": "proved",
   "theorems": [
    "C19_pod_vector_storage"
   ],
   "note": "Along the histories of C16, for every address the allocator may give that has its own alignment."
  },
  {
   "property": "C20",
   "status": "partial",
   "theorems": [
    "C20_recast_copy",
    "C20_recast_take_partial",
    "C20_recast_take_misaligned_refuted",
    "C20_recast_take_expand_refuted"
   ],
   "note": "recast_copy_from proved. recast_take_from proved for allocator-aligned types, equal alignments, or lower alignment without expand; otherwise misaligned data() or capacity past the block (_refuted)."
  },
  {
   "property": "C21",
   "status": "partial",
   "theorems": [
    "C21_push_back_own_partial",
    "C21_insert_own_partial",
    "C21_insert_own_shifted_refuted",
    "C21_own_relocated_refuted"
   ],
   "note": "False when the call relocates (use after free) and for insert(pos, v[i]) with i > pos (_refuted). Proved for push_back with room or early load, and insert with room and i < pos."
  },
  {
   "property": "C22",
   "status": "proved",
   "theorems": [
    "C22_flat_map_histories",
    "C22_std_vector_conforms",
    "C22_flat_map_empty",
    "C22_flat_map_equality"
   ],
   "note": "Any number of maps, any comparators, any conforming container; search loops modelled step by step, answers (iterators too) compared with a finite map. Comparator and element constructors do not throw; self-swap and self-move are left out."
  },
  {
   "property": "C23",
   "status": "proved",
   "theorems": [
    "C23_flat_map_ascending",
    "C23_flat_set_ascending",
    "C23_construction_ascending"
   ],
   "note": "After every legal history and after construction from any sequence."
  },
  {
   "property": "C24",
   "status": "proved",
   "theorems": [
    "C24_bounds",
    "C24_equal_range_one"
   ],
   "note": "Lookup keys of any type ordered consistently with the keys; at most one element when the lookup key stands for a key."
  },
  {
   "property": "C25",
   "status": "proved",
   "theorems": [
    "C25_construction"
   ],
   "note": "std::sort is any function with the standard's promise; std::unique is modelled element by element."
  },
  {
   "property": "C26",
   "status": "proved",
   "theorems": [
    "C26_flat_set_histories",
    "C26_flat_set_equality"
   ],
   "note": "As C22, on the part of the model shared by flat_set and flat_map."
  },
  {
   "property": "C27",
   "status": "proved",
   "theorems": [
    "C27_static_vector_conforms",
    "C27_flat_map_over_static_vector"
   ],
   "note": "static_vector's model is proved to be a conforming bounded container, so C22-C26 hold over it; the exact state is unchanged by the throw."
  },
  {
   "property": "C28",
   "status": "proved",
   "theorems": [
    "C28_bitset_histories",
    "C28_bitset_empty"
   ],
   "note": "Any number of bitsets, any word width > 0, any history. The buffer is std::vector; memory exhaustion is not modelled."
  },
  {
   "property": "C29",
   "status": "partial",
   "theorems": [
    "C29_any_none",
    "C29_all_partial",
    "C29_all_narrow_refuted"
   ],
   "note": "any and none proved. all() is false with uint8_t/uint16_t words as soon as one word is full (_refuted, every such state); proved for words of 32 bits and more, or when no word is full."
  },
  {
   "property": "C30",
   "status": "partial",
   "theorems": [
    "C30_copy_partial",
    "C30_copy_tail_refuted"
   ],
   "note": "For bits of another bitset. False when the last partial word needs bits of two source words: they come out false (_refuted, every such case). Proved in all other cases."
  },
  {
   "property": "C31",
   "status": "partial",
   "theorems": [
    "C31_writes_partial",
    "C31_reserve_throws",
    "C31_after_get_refuted",
    "C31_huge_block_refuted"
   ],
   "note": "Any container policy, reserve and sequence of writes, clears and get_containers; impossible sizes throw. False after get_container() when a new container's data() is not null, and for blocks of 2^31 characters (_refuted)."
  },
  {
   "property": "C32",
   "status": "partial",
   "theorems": [
    "C32_seeks_partial",
    "C32_end_refuted",
    "C32_far_refuted"
   ],
   "note": "Seeks from the beginning and the current position, below 2^31: the buffer is a file. Seeking from the end uses the spare capacity as data, and positions from 2^31 on are undefined (_refuted)."
  },
  {
   "property": "C33",
   "status": "partial",
   "theorems": [
    "C33_reads_partial",
    "C33_outside_refuted"
   ],
   "note": "Seeks within the memory proved. A seek outside is accepted and the next block read is out of bounds (_refuted)."
  },
  {
   "property": "C34",
   "status": "partial",
   "theorems": [
    "C34_restored_partial",
    "C34_within_partial",
    "C34_end_refuted"
   ],
   "note": "Restored whenever the stream has not failed; reads right for any nesting within the contents. A read through the redirect which hits the end leaves the stream failed at its end (_refuted)."
  },
  {
   "property": "C35",
   "status": "partial",
   "theorems": [
    "C35_histories_partial",
    "C35_void_assign_refuted"
   ],
   "note": "All six specialisations, any number of objects, any history. False for expected<void, E>: assigning a value to a value uses the dead error (_refuted, every such state). The throwing copy is C36, emplace of the own value C62."
  },
  {
   "property": "C36",
   "status": "partial",
   "theorems": [
    "C36_copy_assign_partial",
    "C36_no_value_refuted"
   ],
   "note": "False when the target has no value: it then reports one that was never constructed (_refuted). Proved in the other three combinations."
  },
  {
   "property": "C37",
   "status": "partial",
   "theorems": [
    "C37_independent_partial",
    "C37_untouched_partial",
    "C37_lvalue_refuted",
    "C37_self_copy_refuted"
   ],
   "note": "Proved for all histories of any number of anys, allocators, throwing constructors and allocations which never store an lvalue: answers are those of anys holding values of their own, and an any keeps its value until it is itself changed. Refuted: an any made from or assigned an lvalue holds a reference (any_cast sees later changes; UB after the variable's end); copy assignment to itself leaves it empty."
  },
  {
   "property": "C38",
   "status": "partial",
   "theorems": [
    "C38_balanced_partial",
    "C38_move_assign_refuted"
   ],
   "note": "Proved for all legal histories including faults and references: no wrong deallocation, blocks are exactly those of the held objects, none left when the anys are gone. Refuted: move assignment between unequal allocators transfers the block but not the allocator, so the next release is UB. any has no swap of its own."
  },
  {
   "property": "C39",
   "status": "proved",
   "theorems": [
    "C39_any_cast"
   ],
   "note": "Proved for every state, stored and requested type, in the pointer, value and moving forms (for a held reference: while its variable exists)."
  },
  {
   "property": "C40",
   "status": "partial",
   "theorems": [
    "C40_slices_partial",
    "C40_null",
    "C40_slices_not_null",
    "C40_subspan_refuted",
    "C40_last_refuted"
   ],
   "note": "Proved for every sequence of first, last, subspan, remove_prefix, remove_suffix whose arguments do not wrap: size, empty, operator[], front, back, iteration in both directions and as_bytes show exactly the sliced list. Refuted for all views: subspan with an offset whose address wraps, and last of more than the size, give views which begin before the original."
  },
  {
   "property": "C41",
   "status": "partial",
   "theorems": [
    "C41_iterators_partial",
    "C41_one_byte_partial",
    "C41_difference_refuted"
   ],
   "note": "Proved: dereference, ++, --, +=, -=, comparison, and differences a-b with a not before b (all differences for stride 1). Refuted for every stride >= 2: the difference of an iterator and a later one is a huge positive number (ptrdiff_t divided by size_t). t_iterator has no operator[] and no n + a, so those expressions do not compile."
  },
  {
   "property": "C42",
   "status": "partial",
   "theorems": [
    "C42_from_array_partial",
    "C42_slices_partial",
    "C42_member_view",
    "C42_from_buf",
    "C42_huge_stride_refuted",
    "C42_zero_stride_refuted",
    "C42_last_refuted",
    "C42_poly_span_partial"
   ],
   "note": "Proved: make_stride_span_from_array shows every k-th element, member and base views show the fields, all sequences of slices, poly_span shows the results of its function. Refuted: strides for which the count or the stride in bytes wraps, and last of more than there is (an empty view)."
  },
  {
   "property": "C43",
   "status": "proved",
   "theorems": [
    "C43_memory_view",
    "C43_make_memory_view"
   ],
   "note": "Proved in full for every sequence of slices."
  },
  {
   "property": "C44",
   "status": "proved",
   "theorems": [
    "C44_starts_ends",
    "C44_remove_all",
    "C44_make_string_view"
   ],
   "note": "Proved in full, including termination and that the returned view is the right part of the original."
  },
  {
   "property": "C45",
   "status": "proved",
   "theorems": [
    "C45_find",
    "C45_quantifiers",
    "C45_erase",
    "C45_throwing"
   ],
   "note": "Proved for every content, predicate and (separate) value; what a throwing predicate leaves is proved exactly. Values inside the container are C64."
  },
  {
   "property": "C46",
   "status": "partial",
   "theorems": [
    "C46_strftime_partial",
    "C46_empty_text_refuted"
   ],
   "note": "Proved for every non-empty text for which buffers of up to twice its length can be allocated. Refuted for the empty text: std::strftime returns 0 for it, so the buffer is doubled until allocation or the maximal size fails."
  },
  {
   "property": "C47",
   "status": "partial",
   "theorems": [
    "C47_arithmetic_partial",
    "C47_difference",
    "C47_period_refuted",
    "C47_unsigned_partial",
    "C47_unsigned_seconds_refuted",
    "C47_unsigned_wraps_refuted"
   ],
   "note": "Proved for signed integral durations whose count times the numerator of the period is representable. Refuted for periods n/m with n, m > 1: duration_cast overflows although the exact result is representable; and for durations counted in std::uint64_t, from 2^63 seconds on (overflow) and where the product wraps (silently too small a result, for every such duration); proved for those otherwise. Floating point representations are not modelled."
  },
  {
   "property": "C48",
   "status": "partial",
   "theorems": [
    "C48_histories_partial",
    "C48_next_in_order",
    "C48_range_for_partial",
    "C48_self_move_refuted",
    "C48_finished_range_refuted"
   ],
   "note": "Proved for every coroutine body and every history of allowed calls (refinement to 'a generator holds the rest of its body'), including exceptions, moves, resets and frame ownership; next in order and ever empty afterwards; range-for on an unfinished generator. Refuted: self move assignment keeps the handle of the destroyed frame, range-for on a finished generator resumes it (UB)."
  },
  {
   "property": "C49",
   "status": "partial",
   "theorems": [
    "C49_linearizable_partial",
    "C49_no_lost_update_partial",
    "C49_distinct_partial",
    "C49_defined_partial",
    "C49_overflow_refuted",
    "C49_self_assign_refuted"
   ],
   "note": "Proved for every number of threads, every program and schedule and every integral type: linearizable to one call at a time, the sum modulo the range, distinct results; no UB for unsigned or narrow types or when sums stay in range. Refuted: ++x, --x, += and -= of a signed type from int on overflow (UB) where std::atomic wraps; a counter assigned to itself loses a concurrent update. The steps are interleaved here; C85 has the C++ memory model, under which an unsynchronized load may be late."
  },
  {
   "property": "C50",
   "status": "proved",
   "theorems": [
    "C50_linearizable",
    "C50_counts",
    "C50_defined"
   ],
   "note": "Proved for every number of threads, calls and schedules: linearizable to 'holds one pointer' (compare_exchange by address), use counts exact, objects destroyed at most once, never while owned, and all without owner destroyed when no call is under way; no data race. std::shared_ptr itself is modelled by its specification. The C++20 branch is std::atomic and not modelled."
  },
  {
   "property": "C51",
   "status": "partial",
   "theorems": [
    "C51_outside_lock_partial",
    "C51_under_lock_refuted",
    "C51_deadlock_refuted"
   ],
   "note": "False as stated: a failing compare_exchange releases the old value of expect under the lock (refuted), and if that destructor uses the storage the thread spins for ever (refuted: in all continuations). Partial: it is the only case, nothing else is destroyed under the lock."
  },
  {
   "property": "C52",
   "status": "partial",
   "theorems": [
    "C52_linearizable_partial",
    "C52_defined_partial",
    "C52_locked_partial",
    "C52_exclusive_partial",
    "C52_free_partial",
    "C52_throw_refuted",
    "C52_throw_unlocks_refuted",
    "C52_try_throw_refuted"
   ],
   "note": "Proved for every number of threads, schedules, guard histories with moves, elided or not, failed and spuriously failing try-locks, recursive or not, while locking does not throw: reads and writes linearizable, no race, one lock per guard that points, exclusivity, mutex free when no guard points. Refuted: lock() throwing unlocks a mutex not held (UB, or releases another guard's lock of a recursive mutex); try_lock() throwing reads an uninitialised pointer."
  },
  {
   "property": "C53",
   "status": "partial",
   "theorems": [
    "C53_linearizable_partial",
    "C53_exclusion_partial",
    "C53_defined_partial",
    "C53_free_again_partial",
    "C53_depth_refuted"
   ],
   "note": "Proved for every number of threads and schedule: linearizable to 'try_lock succeeds iff no other thread holds it', exclusion, freed after as many unlocks as locks, no race/assert/overflow, while the depth fits std::int_fast32_t. Refuted: one lock more than the depth can count is UB. std::mutex::lock throwing is not modelled."
  },
  {
   "property": "C54",
   "status": "partial",
   "theorems": [
    "C54_on_time_partial",
    "C54_once_partial",
    "C54_not_twice_partial",
    "C54_scope_partial",
    "C54_terminate_partial",
    "C54_ctor_throws_refuted",
    "C54_call_throws_refuted"
   ],
   "note": "Proved for every program of blocks, new/delete, moves, throw, return, try (before and since C++17): a function runs exactly when the last owner in its chain of moves is destroyed, exactly once, also when left by an exception; terminate only if a function or its move throws. Refuted: if constructing m_func throws the function never runs; a throwing function terminates and the others do not run."
  },
  {
   "property": "C55",
   "status": "proved",
   "theorems": [
    "C55_history",
    "C55_destroyed_once",
    "C55_blocks_freed",
    "C55_every_call"
   ],
   "note": "Proved for every history of copies, moves, assignments, resets, aliasing, locks and the members of enable_shared_from, in C++14 and C++17: all outcomes as specified, no UB, each object destroyed exactly once, when its last owner goes, control blocks freed. Simplified: constructors do not throw, objects own nothing themselves, one thread; std::shared_ptr and enable_shared_from_this by their specification."
  },
  {
   "property": "C56",
   "status": "partial",
   "theorems": [
    "C56_history_partial",
    "C56_tidy_partial",
    "C56_released_partial",
    "C56_overflow_refuted"
   ],
   "note": "Proved for every history of calls on any number of allocators and resources, failing allocations and throwing constructors, while sizes fit 64 bits: room for n objects, no leak after a throwing constructor, objects destroyed before release, released once to the same resource with the same size and alignment. Refuted: for every n with n*sizeof(U) >= 2^64 allocate_object succeeds with too small a block and using it is UB. Constructors do not use the allocator in the model."
  },
  {
   "property": "C57",
   "status": "partial",
   "theorems": [
    "C57_programs_partial",
    "C57_only_partial",
    "C57_failing_operand_refuted",
    "C57_constructor_refuted"
   ],
   "note": "Proved for all programs of blocks, handlers and destructors whose operands neither fail nor throw: message is the concatenation, terminate exactly while another exception propagates. Refuted: after an operand which sets failbit/badbit the later texts are missing; if the exception's constructor throws, another exception comes out."
  },
  {
   "property": "C58",
   "status": "partial",
   "theorems": [
    "C58_self_append_partial",
    "C58_self_append_refuted"
   ],
   "note": "False when the size is a multiple of the word width: undefined behaviour (_refuted). Proved otherwise."
  },
  {
   "property": "C59",
   "status": "partial",
   "theorems": [
    "C59_size_partial",
    "C59_size_refuted"
   ],
   "note": "False within a word width of 2^64: empty buffer with a huge size (_refuted). Proved for all other sizes."
  },
  {
   "property": "C60",
   "status": "partial",
   "theorems": [
    "C60_get_after_seek_refuted",
    "C60_get_at_end_partial"
   ],
   "note": "False: everything after the put position is lost (_refuted). True with the position at the end."
  },
  {
   "property": "C61",
   "status": "partial",
   "theorems": [
    "C61_unexpected_lvalue_refuted",
    "C61_trivial_errors_partial"
   ],
   "note": "False: x is moved from (_refuted). True when moving does not change the error."
  },
  {
   "property": "C62",
   "status": "partial",
   "theorems": [
    "C62_own_value_refuted",
    "C62_no_object_partial"
   ],
   "note": "False for expected<T, void>: the constructor reads the destroyed value (_refuted). True for references and void."
  },
  {
   "property": "C63",
   "status": "partial",
   "theorems": [
    "C63_own_object_refuted",
    "C63_linked_partial"
   ],
   "note": "Refuted for every any which holds an object of its own: emplace reads the destroyed object, assignment stores a dangling reference. Proved for an any which holds a reference to a living variable."
  },
  {
   "property": "C64",
   "status": "partial",
   "theorems": [
    "C64_search_partial",
    "C64_erase_all_refuted"
   ],
   "note": "Proved for qfind, pfind, erase_first. Refuted for erase_all for every container in which the referenced element is the first match and the next one is kept: the value is overwritten by that one."
  },
  {
   "property": "C65",
   "status": "partial",
   "theorems": [
    "C65_as_std_partial",
    "C65_owner_ignored_refuted"
   ],
   "note": "False as stated: == compares addresses only (refuted: not linearizable to the std::atomic specification). Partial: it is when every address has one owner."
  },
  {
   "property": "C66",
   "status": "partial",
   "theorems": [
    "C66_first_base_partial",
    "C66_other_base_refuted"
   ],
   "note": "False as stated: the pointer is to the enable_shared_from base, not the managing one, if the base has another offset (refuted). Partial: it is the managing one when that base comes first."
  },
  {
   "property": "C67",
   "status": "partial",
   "theorems": [
    "C67_as_throw_partial",
    "C67_unwinding_refuted",
    "C67_inserter_refuted",
    "C67_argument_refuted"
   ],
   "note": "False as stated: in a destructor run by unwinding throw_ex terminates even inside a try block, and an operand whose evaluation (since C++17) or insertion throws terminates (refuted). Partial: equal to throw in all programs whose destructors do not use it and whose operands are quiet."
  },
  {
   "property": "C68",
   "status": "partial",
   "theorems": [
    "C68_history_partial",
    "C68_every_call_partial",
    "C68_released_once_partial",
    "C68_no_leak_partial",
    "C68_throws_refuted"
   ],
   "note": "Proved for all histories over any number of ufunctions: outcomes as specified, one owner, released exactly once, no parameter or temporary left, while moving function objects does not throw and memory does not run out. Refuted: otherwise the noexcept constructor and assignment terminate. std::function by its specification (source of a move is empty); functions do not use the ufunction they are in."
  },
  {
   "property": "C69",
   "status": "partial",
   "theorems": [
    "C69_as_move_only_partial",
    "C69_wrapped_null_refuted",
    "C69_null_call_refuted"
   ],
   "note": "False as stated: made of a null pointer to a function of another type or an empty std::function a ufunction says it is not empty, and calling the former is UB (refuted). Partial: equivalent for all other function objects, including null pointers of type F*."
  },
  {
   "property": "C70",
   "status": "partial",
   "theorems": [
    "C70_ordinary_keys_refuted",
    "C70_lvalues_refuted",
    "C70_hint_refuted",
    "C70_selection_partial"
   ],
   "note": "False as stated: is_transparent is asked of the key type instead of Hash and KeyEqual, so ordinary key types never select the overloads; lvalues never do in operator[] and try_emplace; try_emplace with a hint does not compile (refuted, for all types). Partial: as the standard for Key itself, and for rvalues of types which name is_transparent themselves. Overload resolution is modelled on facts about the types."
  },
  {
   "property": "C71",
   "status": "proved",
   "theorems": [
    "C71_history"
   ],
   "note": "Proved for all histories, given that comparing with another key is comparing with the Key made of it. std::unordered_map by its specification; hashing is part of that comparison."
  },
  {
   "property": "C72",
   "status": "partial",
   "theorems": [
    "C72_noop_partial",
    "C72_base_pointer_refuted",
    "C72_member_pointer_refuted",
    "C72_bool_enum_refuted",
    "C72_formats_refuted",
    "C72_null_member_refuted",
    "C72_no_cast_refuted"
   ],
   "note": "False as stated: a cast to a base class which is not first, of pointers to members, of numbers to enumerations of bool, between floating point formats of one size and of nullptr to pointer to member changes the bytes, and some casts do not exist (refuted, each for all such types). Partial: all other pairs of scalar types of the model are no-ops. Itanium ABI, 64 bit; no pointers to member functions, no enumerations without fixed underlying type."
  },
  {
   "property": "C73",
   "status": "partial",
   "theorems": [
    "C73_owner_partial",
    "C73_bit_cast"
   ],
   "note": "Proved of the machine's arithmetic for all addresses; partial as the standard leaves &(null->*ptr) undefined. bit_cast is memcpy of a list of bytes."
  },
  {
   "property": "C74",
   "status": "partial",
   "theorems": [
    "C74_buffer_histories_partial",
    "C74_erase_reverts_partial",
    "C74_resize_refuted"
   ],
   "note": "False as stated: resize never goes back to the static buffer (refuted, from every state and for every size). Partial: erase, pop_back and clear go back exactly when the new size is below RevertToStaticBelow, and after every history over any number of vectors, including moves, is_static() and capacity() are those of a specification on sizes only."
  },
  {
   "property": "C75",
   "status": "partial",
   "theorems": [
    "C75_every_history_partial",
    "C75_traits_partial",
    "C75_copy_refuted",
    "C75_move_refuted"
   ],
   "note": "False as stated: copy assignment never propagates the allocator and move assignment always does (refuted after every history, for all allocators which differ). Partial: exactly as the traits say where these agree; and for any traits memory always goes back to the allocator it came from and destroyed vectors leave nothing. Elements' constructors do not use the allocator in the model, all allocators refuse the same sizes."
  },
  {
   "property": "C76",
   "status": "proved",
   "theorems": [
    "C76_moves_told"
   ],
   "note": "From every state which holds elements (the invariant of C16), for every allocator. resize(n, v) of a vector with elements may overrun the buffer (C18); whenever it returns, its answer is right."
  },
  {
   "property": "C77",
   "status": "partial",
   "theorems": [
    "C77_within_capacity_partial",
    "C77_reserve_refuted",
    "C77_grow_refuted",
    "C77_leak_refuted"
   ],
   "note": "False for every call which needs memory and gets null: reserve answers as if nothing happened and the next push_back is undefined, growing a vector with elements is undefined at once, and an empty vector loses its block (_refuted). Proved: histories within the capacity never call the allocator, whatever it would do."
  },
  {
   "property": "C78",
   "status": "partial",
   "theorems": [
    "C78_room_partial",
    "C78_reserve_refuted",
    "C78_assign_refuted"
   ],
   "note": "False when n * sizeof(T) wraps: reserve succeeds with a smaller block and assign writes past it, for every such n (_refuted). Proved when 1.5 n elements need less than 2^63 bytes."
  },
  {
   "property": "C79",
   "status": "partial",
   "theorems": [
    "C79_equality_partial",
    "C79_not_equal_partial",
    "C79_same_value_refuted",
    "C79_nan_refuted"
   ],
   "note": "False for elements which are equal with different bytes or not equal to themselves (_refuted, for all vectors). Proved when == of the elements is equality of their bytes; != is the negation always."
  },
  {
   "property": "C80",
   "status": "partial",
   "theorems": [
    "C80_static_vector_refuted",
    "C80_static_vector_copy_refuted",
    "C80_static_vector_partial",
    "C80_static_vector_copy_partial",
    "C80_small_vector_refuted",
    "C80_small_vector_count_refuted",
    "C80_small_vector_copy_refuted",
    "C80_small_vector_partial",
    "C80_small_vector_copy_partial"
   ],
   "note": "False as stated. static_vector: constructors do not delegate, so after a throw the elements made so far are never destroyed (_refuted for every constructor, content and position). small_vector: the destructor does run, but is UB if the elements need a dynamic block, and always in small_vector(count) (_refuted). Proved: contents when nothing throws; nothing left when the range check, the allocation, static_vector's first construction or a construction in small_vector's static buffer fails."
  },
  {
   "property": "C81",
   "status": "partial",
   "theorems": [
    "C81_no_throw_same",
    "C81_flat_map_comparisons_partial",
    "C81_flat_set_comparisons_partial",
    "C81_strong_partial",
    "C81_strong_containers",
    "C81_insert_refuted",
    "C81_copy_assign_refuted",
    "C81_copy_assign_partial",
    "C81_static_vector_refuted"
   ],
   "note": "False as stated. Over std::vector an insertion during which moving an element up throws leaves an element twice; copy assignment which gets no memory has already taken the other's comparator; over static_vector a throwing element constructor leaves an object which cannot be destroyed (_refuted, each for all contents and positions). Proved: throwing comparisons leave the object exactly as it was, for every call; and so does every exception if the container is as it was after one, which std::vector with non-throwing moves and static_vector with non-throwing constructors are."
  },
  {
   "property": "C82",
   "status": "proved",
   "theorems": [
    "C82_static_vector_histories",
    "C82_static_vector_call",
    "C82_static_vector_errors",
    "C82_static_vector_access",
    "C82_small_vector_histories",
    "C82_small_vector_call",
    "C82_small_vector_errors",
    "C82_small_vector_access",
    "C82_flat_map_at"
   ],
   "note": "Proved. With the checks off, an erroneous call on a static_vector is undefined behaviour (proved); for small_vector the model does not describe what happens then. The constructors' checks are modelled under the throwing setting only."
  },
  {
   "property": "C83",
   "status": "partial",
   "theorems": [
    "C83_flat_map_partial",
    "C83_flat_set_partial",
    "C83_construction",
    "C83_equality",
    "C83_out_of_memory_partial",
    "C83_element_throws_refuted"
   ],
   "note": "False as stated when constructing the new element throws: the object cannot be destroyed any more (_refuted, for all contents and keys). swap of the two containers does not compile over small_vector, which has no member swap; histories are without it. Proved for all other histories as long as memory suffices, and that a call which fails for want of memory leaves the object as it was."
  },
  {
   "property": "C84",
   "status": "proved",
   "theorems": [
    "C84_defined",
    "C84_linearizable",
    "C84_counts",
    "C84_as_interleaved"
   ],
   "note": "Proved. The use counts of std::shared_ptr are atomic as in C50 (their orders are the standard library's). The machine leaves out what the standard forbids beyond per-thread coherence, so it has more executions. That a spinning thread eventually sees the flag cleared is not claimed."
  },
  {
   "property": "C85",
   "status": "proved",
   "theorems": [
    "C85_one_order",
    "C85_no_lost_update",
    "C85_distinct",
    "C85_defined",
    "C85_stale_load"
   ],
   "note": "Proved. Synchronization between threads (joining, mutexes, ...) is a call that takes over what the other thread knows at that moment. The machine leaves out what the standard forbids beyond per-thread coherence, so it has more executions. C85_stale_load shows that order in time is not kept for unsynchronized loads. For signed types from int on, overflow in ++x, --x, += and -= is undefined as in C49."
  },
  {
   "property": "C86",
   "status": "proved",
   "theorems": [
    "C86_defined",
    "C86_linearizable",
    "C86_happens_before",
    "C86_data"
   ],
   "note": "Proved. std::mutex is what the standard promises: exclusion, and unlock synchronizes with the next lock. Users unlock only what they have locked and lock at most as often as m_depth counts (C53 has what happens otherwise)."
  },
  {
   "property": "C87",
   "status": "partial",
   "theorems": [
    "C87_calls_partial",
    "C87_history_partial",
    "C87_resize_refuted",
    "C87_bits_lost_refuted",
    "C87_assign_refuted"
   ],
   "note": "False as stated: resize stores the new size before the buffer is resized, so that resize, push_back and append within a word leave the new size over the old words (_refuted, for all contents and sizes which need more words), and resizing back loses bits; assign and copy assignment leave the old size over whatever the buffer's assignment leaves (_refuted when it leaves fewer words, as small_vector does). Proved for reserve, append at a word boundary, every call which needs no more words, and every call which is not refused memory."
  },
  {
   "property": "C88",
   "status": "proved",
   "theorems": [
    "C88_defined",
    "C88_linearizable",
    "C88_happens_before",
    "C88_locked"
   ],
   "note": "Proved. The mutex is what the standard promises: exclusion; unlock synchronizes with later locks of any kind, unlock_shared with later exclusive ones only. Users use a guard in the thread which made it and keep the rules of the mutex (C52's). What happens when locking throws is in C52."
  },
  {
   "property": "C89",
   "status": "partial",
   "theorems": [
    "C89_copy_partial",
    "C89_tail_refuted"
   ],
   "note": "False as stated for the reason of C30: when the last, partial, word needs bits of two words of the source, those of the second come out as false (_refuted, in all such cases). Proved in all other cases, overlapping ranges included."
  },
  {
   "property": "C90",
   "status": "proved",
   "theorems": [
    "C90_history",
    "C90_dangling"
   ],
   "note": "Proved. The buffer is std::vector as the standard describes it (references stay valid without reallocation; assignment invalidates them). Several bitsets which are moved are in C119."
  },
  {
   "property": "C91",
   "status": "proved",
   "theorems": [
    "C91_bounded",
    "C91_goes_on",
    "C91_all_return",
    "C91_starvation"
   ],
   "note": "Proved on the interleaving machine of C50 (C84 shows that it has all executions). Destructors nest at most n deep, for any n; C91_goes_on has the exact exception (the deadlock is C51's). C91_starvation shows that one call may wait for ever while others return: atomic_flag is not fair."
  },
  {
   "property": "C92",
   "status": "proved",
   "theorems": [
    "C92_bounded",
    "C92_goes_on",
    "C92_all_return"
   ],
   "note": "Proved on the interleaving machine of C53. std::mutex::lock does not throw, and a free std::mutex can be locked by some waiting thread."
  },
  {
   "property": "C93",
   "status": "proved",
   "theorems": [
    "C93_bounded",
    "C93_goes_on",
    "C93_all_return"
   ],
   "note": "Proved on the interleaving machine of C52. A thread may wait for a guard which is never destroyed; that is the user's."
  },
  {
   "property": "C94",
   "status": "proved",
   "theorems": [
    "C94_pod_vector_amortized"
   ],
   "note": "Assignments (which replace all elements), reserve and shrink_to_fit are not counted. Within the limits of memory and sizes of C16."
  },
  {
   "property": "C95",
   "status": "partial",
   "theorems": [
    "C95_small_vector_amortized_partial",
    "C95_small_vector_thrashing_refuted"
   ],
   "note": "Proved for RevertToStaticBelow of at most half the static capacity, which includes the default 0. False otherwise: for every static capacity SC, with RevertToStaticBelow = SC + 1 (the documentation's example is small_vector<int, 4, 5>) n times push_back and pop_back at size SC move 2*SC*n elements."
  },
  {
   "property": "C96",
   "status": "proved",
   "theorems": [
    "C96_memory_goes_back"
   ],
   "note": "Recasts between vectors of the same element type. Allocators are numbers, equal numbers being allocators which can free each other's memory. Within the limits of memory and sizes of C16."
  },
  {
   "property": "C97",
   "status": "partial",
   "theorems": [
    "C97_assigned_to_itself_partial",
    "C97_recast_copy_empties_refuted",
    "C97_recast_take_uses_freed_memory_refuted",
    "C97_recast_from_itself_refuted"
   ],
   "note": "Assignments and swap proved. False for recast_copy_from, which clears the vector before reading it: it always ends up empty, and for recast_take_from, which frees the memory and then uses it (_refuted, after every history)."
  },
  {
   "property": "C98",
   "status": "partial",
   "theorems": [
    "C98_room_partial",
    "C98_large_refuted"
   ],
   "note": "Proved for types whose obj_block_for takes less than 2^32 bytes. False otherwise: emplace stores sizeof in a uint32_t, so the block of an object of 2^32 bytes or more is too small for it, after every history (_refuted)."
  },
  {
   "property": "C99",
   "status": "partial",
   "theorems": [
    "C99_over_pod_vector_partial",
    "C99_over_small_vector",
    "C99_no_zero_fill_refuted"
   ],
   "note": "Proved for small_vector, and for pod_vector with allocators whose zero_fill_new() is true. False for the others: bits which resize adds are whatever was in the memory (_refuted). Appending a bitset to itself at a word boundary is excluded, as in C28."
  },
  {
   "property": "C100",
   "status": "partial",
   "theorems": [
    "C100_calendar",
    "C100_gmtime_partial",
    "C100_from_gmtime_partial",
    "C100_far_refuted",
    "C100_failure_refuted",
    "C100_narrow_refuted",
    "C100_narrow_partial"
   ],
   "note": "Proved for times a std::time_t holds whose year, counted from 1900, is an int. False beyond: gmtime ignores the failure of gmtime_r and returns something that is not the date, from_gmtime turns the failure of timegm into the last second of 1969, and where std::time_t has 32 bits gmtime, from_seconds and operator+ wrap in 2038 while operator+= does not (_refuted)."
  },
  {
   "property": "C101",
   "status": "partial",
   "theorems": [
    "C101_localtime_partial",
    "C101_round_trip",
    "C101_from_localtime_partial",
    "C101_put_back_refuted",
    "C101_order_refuted"
   ],
   "note": "Proved for all zones where clocks are changed for daylight saving only, and in general for times no other time shows the same as. False where clocks are put back otherwise: two times have the same local time, and no C library can lead back to both; and local times are not in the order of times (_refuted)."
  },
  {
   "property": "C102",
   "status": "proved",
   "theorems": [
    "C102_flat_map",
    "C102_flat_set"
   ],
   "note": "With libstdc++'s std::lower_bound, upper_bound and equal_range. Construction from a range (std::sort) is not counted, nor are the moves of elements."
  },
  {
   "property": "C103",
   "status": "partial",
   "theorems": [
    "C103_narrow_histories_partial",
    "C103_growth_refuted",
    "C103_reserve_refuted",
    "C103_constructor_refuted",
    "C103_range_refuted"
   ],
   "note": "Proved while the bytes of the grown capacity, and the padding, fit in size_type. False nearer the limit: growing by half cuts the number of bytes, so the new block is smaller than the old one and push_back is undefined although the elements would fit; reserve and the constructor silently provide n mod 2^W; a range of 2^W elements is copied out of bounds (_refuted). Which size_t-sized parameters are meant to be cut is not documented."
  },
  {
   "property": "C104",
   "status": "proved",
   "theorems": [
    "C104_refines",
    "C104_no_leaks",
    "C104_walk"
   ],
   "note": "Bodies reach only generators of their own, as local variables (not through pointers, so none resumes itself). Bodies which run forever are outside: the theorem is about calls which end."
  },
  {
   "property": "C105",
   "status": "partial",
   "theorems": [
    "C105_static_partial",
    "C105_static_reserve_throws",
    "C105_small_partial",
    "C105_pod_partial",
    "C105_empty_write_refuted",
    "C105_after_get_refuted",
    "C105_static_seek_end_partial",
    "C105_small_seek_end_partial",
    "C105_pod_seek_end_partial",
    "C105_seek_end_refuted",
    "C105_what_is_checked"
   ],
   "note": "Partial because the full statement is false: over small_vector get_container() does not compile (there is no member swap), although the documentation calls it suitable; over pod_vector an empty block write to a new buffer passes null to memcpy (_refuted); over static_vector writes after get_container() and before clear() are undefined, since data() is never null there (_refuted). Seeks from the end are counted from the end of the container and not of what was written (C105_seek_end_refuted; C105_*_seek_end_partial says for every history where they lead). Other seeks beyond the data written are outside. C105_what_is_checked says what the model checks pointers for."
  },
  {
   "property": "C106",
   "status": "partial",
   "theorems": [
    "C106_read_partial",
    "C106_lower_half",
    "C106_wrap_refuted",
    "C106_pointer_refuted",
    "C106_default_refuted",
    "C106_strict_partial"
   ],
   "note": "False in general: gptr() + count may wrap around where memory lies in the upper half of the addresses, and then memory behind the buffer is read (C106_wrap_refuted); by the standard every read of more than is left forms a pointer outside of the array, and a default constructed buffer gives memcpy a null pointer (_refuted). Proved for sums which do not wrap, so for memory in the lower half, and strictly for reads of no more than is left."
  },
  {
   "property": "C107",
   "status": "partial",
   "theorems": [
    "C107_trees_partial",
    "C107_from_inside_refuted",
    "C107_to_inside_refuted"
   ],
   "note": "False where an any is assigned to or from an any inside of it: a = a.child and a = std::move(a.child) destroy the source first (_refuted, for every history), a.child = a reads a block not constructed yet, and a.child = std::move(a) leaks (_refuted). Proved for all other histories. One allocator; member anys are empty when their object is emplaced."
  },
  {
   "property": "C108",
   "status": "partial",
   "theorems": [
    "C108_independent_partial",
    "C108_copy_refuted",
    "C108_move_refuted",
    "C108_what_is_checked"
   ],
   "note": "False: the implicit copy operations copy the base class's pointers, so a copy points into the original's memory. It cannot tell its position or give its contents, its writes get into the original, and after the original is gone into memory which is there no more (C108_copy_refuted, for every history); a move does the same when the container does not hand its memory over, as a short std::string (C108_move_refuted). Proved: histories in which a copy and a buffer which was moved from are cleared or assigned to before they are used. C108_what_is_checked says what the model checks pointers for."
  },
  {
   "property": "C109",
   "status": "partial",
   "theorems": [
    "C109_no_throw_same",
    "C109_relocation_refuted",
    "C109_insert_refuted",
    "C109_erase_refuted",
    "C109_shrink_to_fit_refuted",
    "C109_relocation_partial",
    "C109_no_moves_partial",
    "C109_all_moves_partial"
   ],
   "note": "False: an insertion before the end and an erase which stay in their buffer leave a hole among the elements which the destructor destroys once more (C109_insert_refuted, C109_erase_refuted: undefined behaviour for every such state and every move which throws); a move to another buffer leaks the objects made there and the buffer (C109_relocation_refuted); shrink_to_fit and revert_to_static lose and leak the rest of the elements (C109_shrink_to_fit_refuted). Proved: after a relocation which throws the vector has all its elements and its buffer, with exact counts of what is left behind; calls which move nothing, calls in which nothing throws, and calls whose moves all succeed (exactly so many as the elements which must go elsewhere) are those of C07-C15."
  },
  {
   "property": "C110",
   "status": "partial",
   "theorems": [
    "C110_no_throw_same",
    "C110_insert_refuted",
    "C110_erase_refuted",
    "C110_swap_refuted",
    "C110_move_assign_noexcept_refuted",
    "C110_move_construct_refuted",
    "C110_insert_partial",
    "C110_all_moves_partial",
    "C110_no_room_partial",
    "C110_move_assign_partial",
    "C110_move_assign_all_partial",
    "C110_swap_partial"
   ],
   "note": "False: an insertion which throws after its first move, an erase which throws at any, and a swap which throws after the first move of the longer vector's rest leave a vector whose destruction is undefined (C110_insert_refuted, C110_erase_refuted, C110_swap_refuted, for every such state); a move assignment ends in std::terminate for a type with a noexcept move assignment and a throwing move constructor (C110_move_assign_noexcept_refuted); a move constructor which throws leaves the objects made so far, which no destructor destroys (C110_move_construct_refuted). Proved: an insertion whose first move throws changes nothing; calls whose moves all succeed, and calls in which nothing throws, are those of C01-C06; a full vector throws before any move; what a move assignment and a swap leave, for each number of moves."
  },
  {
   "property": "C111",
   "status": "proved",
   "theorems": [
    "C111_static_vector",
    "C111_small_vector",
    "C111_pod_vector"
   ],
   "note": "Proved for the three vectors by showing that each follows the algorithms on sequences (C45) step by step. erase_all with a part of an element of the container itself is C64."
  },
  {
   "property": "C112",
   "status": "partial",
   "theorems": [
    "C112_std_vector_insert_partial",
    "C112_std_vector_index_partial",
    "C112_static_vector_insert_partial",
    "C112_static_vector_index_partial",
    "C112_static_vector_insert_refuted",
    "C112_static_vector_index_refuted",
    "C112_small_vector_insert_partial",
    "C112_small_vector_index_partial",
    "C112_small_vector_insert_refuted",
    "C112_small_vector_index_refuted"
   ],
   "note": "True over std::vector, whose emplace must cope with such arguments (C112_std_vector_*). False over static_vector and small_vector, which make room before the constructor reads the argument: an argument in the element before which the new one belongs is a destroyed object, one behind it is taken from the wrong element, which can leave the keys out of order; and whenever a small_vector changes its buffer the argument dangles (C112_static_vector_*_refuted, C112_small_vector_*_refuted, for every state). The _partial theorems over them: right if the class is there, if a static_vector is full (it throws), or if the element referred to is less than the new key and the buffer stays."
  },
  {
   "property": "C113",
   "status": "partial",
   "theorems": [
    "C113_lists_partial",
    "C113_error_from_inside_refuted",
    "C113_emplace_from_inside_refuted",
    "C113_to_inside_refuted"
   ],
   "note": "False where an expected<T, E> with a value is assigned an error from inside of that value: the value is destroyed first and the error with it, then it is read (C113_error_from_inside_refuted, in every reachable state); the same for emplace of expected<T, void> with its own value or one inside (C113_emplace_from_inside_refuted). An expected moved into one inside of itself makes a leak (C113_to_inside_refuted), as it would with the standard's. Proved for all other sequences, assignments of values from inside among them."
  },
  {
   "property": "C114",
   "status": "partial",
   "theorems": [
    "C114_static_vector",
    "C114_small_vector_partial",
    "C114_small_vector_refuted",
    "C114_pod_vector"
   ],
   "note": "static_vector and pod_vector: proved for every state (C114_static_vector, C114_pod_vector). small_vector: proved when the buffer stays (C114_small_vector_partial). False otherwise: an insertion into a dynamic buffer with room to spare, after which there are less than RevertToStaticBelow elements, frees the buffer, and every reference into it dangles (C114_small_vector_refuted); the documentation names erase and resize only (and resize to less elements keeps the buffer)."
  },
  {
   "property": "C115",
   "status": "partial",
   "theorems": [
    "C115_static_vector_partial",
    "C115_static_vector_refuted",
    "C115_small_vector_partial",
    "C115_small_vector_history_partial",
    "C115_small_vector_refuted",
    "C115_small_vector_erase_refuted",
    "C115_pod_vector_refuted",
    "C115_stride_span_partial",
    "C115_stride_span_refuted",
    "C115_what_is_checked"
   ],
   "note": "False as the standard reads. static_vector: insertions at begin() with room (C115_static_vector_refuted) and pop_back of nothing, exactly these (C115_static_vector_partial). small_vector: push_back into an empty vector and insertions at begin() which keep the buffer (C115_small_vector_refuted), erasures which go back to the static buffer (C115_small_vector_erase_refuted), exactly these (C115_small_vector_partial, C115_small_vector_history_partial; for a StaticCapacity of at least 1). pod_vector: the last comparison of reserve and shrink_to_fit (C115_pod_vector_refuted). stride_span: end() unless the stride divides the number of elements (C115_stride_span_partial), or unless the field is the first one (C115_stride_span_refuted); by index all is well."
  },
  {
   "property": "C116",
   "status": "partial",
   "theorems": [
    "C116_flat_set_safe",
    "C116_flat_map_safe",
    "C116_found_iff_ordered",
    "C116_writes_partial",
    "C116_keys_protected_refuted"
   ],
   "note": "The first half is false: in every map or set with two elements there is a write through begin() after which some element is not found where it is (C116_keys_protected_refuted). Proved: the second half (C116_flat_set_safe, C116_flat_map_safe, with no assumption on the comparator); the elements are in order exactly if all of them are found where they are (C116_found_iff_ordered); a write keeps them in order exactly if the new element is between its neighbours (C116_writes_partial)."
  },
  {
   "property": "C117",
   "status": "partial",
   "theorems": [
    "C117_objects_may_use_anys_partial",
    "C117_depth_is_enough",
    "C117_layered_programs_run",
    "C117_everything_given_back",
    "C117_own_any_may_be_changed_refuted",
    "C117_has_value_means_alive_refuted",
    "C117_moving_away_refuted"
   ],
   "note": "False for the any an object is in: reset, emplace and assignment are undefined there while its constructor or destructor runs (C117_own_any_may_be_changed_refuted), has_value is true though no object is alive (C117_has_value_means_alive_refuted), and moving away leaves a destroyed object in the other any (C117_moving_away_refuted). Proved: all programs which do not change an any in use do what the cells say (C117_objects_may_use_anys_partial), none needs a depth above its size (C117_depth_is_enough), programs whose objects only change later anys always run to their end (C117_layered_programs_run), and nothing leaks (C117_everything_given_back)."
  },
  {
   "property": "C118",
   "status": "partial",
   "theorems": [
    "C118_static_partial",
    "C118_static_histories_partial",
    "C118_static_clear_refuted",
    "C118_small_partial",
    "C118_small_histories_partial",
    "C118_small_push_refuted",
    "C118_assign_end_without_begin_refuted",
    "C118_what_is_checked",
    "C118_refused"
   ],
   "note": "False: clear of two or more elements of a static_vector (C118_static_clear_refuted), push_back into a full small_vector (C118_small_push_refuted) and assignments into another buffer (C118_assign_end_without_begin_refuted) show elements of which some are dead or not there. Proved: the calls for which it is true, exactly, for every state (C118_static_partial, C118_small_partial) and for all sequences of calls (C118_static_histories_partial, C118_small_histories_partial). C118_what_is_checked and C118_refused say what the model checks and which calls throw."
  },
  {
   "property": "C119",
   "status": "proved",
   "theorems": [
    "C119_history",
    "C119_moves",
    "C119_dangling"
   ],
   "note": "Proved. The buffer is std::vector with equal allocators, whose moves hand the block over. Moving a bitset to itself is outside (the standard leaves the vector unspecified)."
  },
  {
   "property": "C120",
   "status": "partial",
   "theorems": [
    "C120_history_partial",
    "C120_call_partial",
    "C120_own_refuted",
    "C120_undefined",
    "C120_undefined_history",
    "C120_moved_refuted",
    "C120_replaced_refuted",
    "C120_range_partial",
    "C120_iterator_follows",
    "C120_range_moved_refuted",
    "C120_range_refuted"
   ],
   "note": "False for a body which uses its own generator: next, done, reset, destruction and assignment are undefined in every state (C120_own_refuted), moving it away makes the next() which resumed the body undefined (C120_moved_refuted), replacing it makes next() answer with the value of another generator (C120_replaced_refuted). Proved: all bodies, histories and numbers of steps in which no generator whose body runs is touched (C120_history_partial, C120_call_partial), without leaks; range-for then gives what next() would (C120_range_partial). An iterator goes on when the body moves its own generator away (C120_iterator_follows), but a range-for which begins with that is undefined (C120_range_moved_refuted). Which calls are undefined is said for all states, histories and depths (C120_undefined, C120_undefined_history, C120_range_refuted). C104 is about generators which are local to bodies."
  }
 ]
}
