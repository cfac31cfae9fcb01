{"id": "C01", "title": "static_vector behaves as a bounded sequence", "statement": "For every history of valid calls (construct, assign, push_back, emplace_back, pop_back, insert one/n/range, emplace, erase one/range (non-empty), resize, clear, copy, move, swap) a static_vector<T,N> holds exactly the sequence the same calls give on a plain list; a call that would make the size exceed N, or pop an empty vector, or erase more elements than there are, throws out_of_range instead and changes nothing, except that assign has emptied the vector by then; a vector move-assigned to itself becomes empty. (Arguments referring to the vector's own elements: C06; counts that wrap 2^64: C04.)", "quantifier": "every element type value, every capacity N, every vector content, every position and count, every finite history of calls", "why_tests_cant": "Element shifting depends on position, count, size and capacity at once; tests sample a few combinations, the claim is for all of them and for all histories.", "anchors": ["include/itlib/static_vector.hpp: static_vector, grow_at, shrink_at, insert, emplace, erase, resize, push_back, pop_back, swap"]}
{"id": "C02", "title": "static_vector never misuses object lifetimes", "statement": "In every such history no element is constructed over a live element, no element is read, moved from or destroyed while not alive, the live elements are exactly the first size() slots, and destroying the vector ends the lifetime of every element exactly once.", "quantifier": "every capacity, content, position, count and history of valid calls", "why_tests_cant": "Double destruction or construction over live objects is invisible to value-level tests unless the element type happens to count; it must hold on every path.", "anchors": ["include/itlib/static_vector.hpp: grow_at, shrink_at, clear, ~static_vector, operator=, swap"]}
{"id": "C03", "title": "static_vector: erasing or inserting an empty range changes nothing", "statement": "erase(it, it) and insert(it, 0, v) / insert(it, first, first) return it and leave the vector's elements and their lifetimes untouched, for every iterator it of the vector.", "quantifier": "every vector and every position", "why_tests_cant": "Tests use empty ranges, if at all, only at end() or with trivial types, where the mistake is invisible.", "anchors": ["include/itlib/static_vector.hpp: erase, shrink_at, insert, grow_at"]}
{"id": "C04", "title": "static_vector rejects every over-capacity request", "statement": "insert(pos, n, v) throws out_of_range and leaves the vector unchanged whenever size()+n (as a mathematical integer) exceeds the capacity, for every 64-bit n.", "quantifier": "every vector and every count from 0 to 2^64-1", "why_tests_cant": "The failing counts are astronomically large and sit on a wrap-around boundary.", "anchors": ["include/itlib/static_vector.hpp: grow_at"]}
{"id": "C05", "title": "static_vector: exceptions from element constructors leave a valid vector", "statement": "If an element's constructor throws during a call, then after the exception the live elements are still exactly the first size() slots (so destruction is safe); for push_back and emplace_back the contents are moreover unchanged.", "quantifier": "every vector, every call, every point at which the element constructor throws", "why_tests_cant": "Needs fault injection at every construction of every call; the tests never throw from constructors.", "anchors": ["include/itlib/static_vector.hpp: push_back, emplace_back, insert, emplace, resize, grow_at"]}
{"id": "C06", "title": "static_vector: inserting a copy of one of its own elements", "statement": "v.insert(pos, v[k]) inserts the value v[k] had before the call, as std::vector guarantees.", "quantifier": "every vector, position pos and index k", "why_tests_cant": "Depends on the relation between pos and k; tests never alias.", "anchors": ["include/itlib/static_vector.hpp: insert, grow_at"]}
{"id": "C07", "title": "small_vector behaves as a sequence", "statement": "For every history of valid calls (construct, assign, push/emplace_back, pop_back, insert, emplace, erase, resize, reserve, shrink_to_fit, revert_to_static, clear, copy, move) a small_vector<T,S,R> holds exactly the sequence the same calls give on a plain list, whatever buffer it currently uses; invalid positions, inverted ranges and pop_back on empty throw out_of_range and change nothing. (Empty insertions and erases before the end: C12; arguments referring to own elements: C13; exceptions from elements or the allocator: C14.)", "quantifier": "every static capacity S>0, every revert threshold R<=S+1, every content, every buffer state, every position/count, every history", "why_tests_cant": "Results must not depend on whether the vector is in the static or a dynamic buffer nor on when it switches; there are unboundedly many such paths.", "anchors": ["include/itlib/small_vector.hpp: small_vector, choose_data, grow_at, shrink_at, assign_fill, assign_copy, assign_move, take_impl, reserve, shrink_to_fit, clear"]}
{"id": "C08", "title": "small_vector object lifetimes", "statement": "In every such history no element is constructed over a live one or used/destroyed while not alive, and the live elements are exactly the size() elements of the current buffer.", "quantifier": "every configuration, content and history of valid calls", "why_tests_cant": "Lifetime errors are silent for trivial types and path dependent.", "anchors": ["include/itlib/small_vector.hpp: grow_at, shrink_at, reserve, shrink_to_fit, take_impl, destroy_all"]}
{"id": "C09", "title": "small_vector storage is balanced", "statement": "Every buffer obtained from the allocator is returned to it exactly once, with the capacity it was requested with and without live elements in it; between calls the vector owns at most one dynamic buffer, and after destruction none.", "quantifier": "every configuration and history of valid calls", "why_tests_cant": "A leak or sized-deallocation mismatch on a rare static/dynamic transition is not observable by value checks.", "anchors": ["include/itlib/small_vector.hpp: choose_data, grow_at, shrink_at, clear, reserve, shrink_to_fit, take_impl, ~small_vector"]}
{"id": "C10", "title": "small_vector::revert_to_static tells the truth", "statement": "revert_to_static() returns true if and only if the vector is in its static buffer afterwards, and it does move to the static buffer whenever size() does not exceed the static capacity.", "quantifier": "every reachable vector state", "why_tests_cant": "Only one size (exactly the static capacity, reached while dynamic) distinguishes right from wrong.", "anchors": ["include/itlib/small_vector.hpp: revert_to_static, shrink_to_fit"]}
{"id": "C11", "title": "small_vector capacity guarantees", "statement": "size() <= capacity() always; after reserve(n) the capacity is at least n and while no call reduces the size, insertions that keep size() <= n do not move the elements.", "quantifier": "every reachable state and every n", "why_tests_cant": "Interacts with the revert threshold; only particular thresholds and sizes expose it.", "anchors": ["include/itlib/small_vector.hpp: reserve, choose_data, grow_at, capacity"]}
{"id": "C12", "title": "small_vector: erasing or inserting an empty range changes nothing", "statement": "erase(it, it) and insertion of zero elements at it return it and leave elements and lifetimes untouched.", "quantifier": "every vector and position", "why_tests_cant": "Visible only with non-trivial element types in the middle of the vector.", "anchors": ["include/itlib/small_vector.hpp: erase, shrink_at, insert, grow_at"]}
{"id": "C13", "title": "small_vector: adding a copy of one of its own elements", "statement": "push_back(v[k]), insert(pos, v[k]) and resize(n, v[k]) use the value v[k] had before the call, as std::vector guarantees.", "quantifier": "every vector, position, index and capacity state", "why_tests_cant": "Goes wrong only when the call relocates or shifts the source element.", "anchors": ["include/itlib/small_vector.hpp: push_back, insert, resize, grow_at, reserve"]}
{"id": "C14", "title": "small_vector: exceptions from element constructors leave a valid vector", "statement": "If an element constructor throws during push_back, insert or assign the vector can still be destroyed safely: all its size() elements are alive and its buffer pointers agree.", "quantifier": "every vector, call and throwing point", "why_tests_cant": "Needs fault injection at each construction.", "anchors": ["include/itlib/small_vector.hpp: push_back, emplace_back, insert, assign_fill, assign_copy, grow_at"]}
{"id": "C15", "title": "Growth policy arithmetic", "statement": "For every current capacity >= 1 and every request up to (2^64-1)/3 the capacity chosen by a growing small_vector or pod_vector is reached in finitely many steps, is at least the request, and exceeds it by at most half of it plus one, in 64-bit arithmetic.", "quantifier": "every capacity and request in that range", "why_tests_cant": "64-bit wrap-around and termination cannot be sampled.", "anchors": ["include/itlib/small_vector.hpp: choose_data", "include/itlib/pod_vector.hpp: get_new_capacity"]}
{"id": "C16", "title": "pod_vector behaves as a sequence", "statement": "For every history of valid calls (resize(n, v) of a non-empty vector is C18) pod_vector holds exactly the sequence the same calls give on a plain list (elements added by emplace_back() with no value are unspecified but stable).", "quantifier": "every element size and alignment, allocator alignment, expand capability and outcome, content, position, count and history", "why_tests_cant": "Two code paths (expandable or not), two alignment modes and several relocation strategies multiply; tests instantiate a handful.", "anchors": ["include/itlib/pod_vector.hpp: pod_vector, grow_at, shrink_at, reserve, shrink_to_fit, insert, erase, push_back, assign"]}
{"id": "C17", "title": "pod_vector never touches memory outside its block", "statement": "No call reads or writes outside the current allocation, and every allocation is freed exactly once through the address the allocator returned.", "quantifier": "every history of valid calls, every allocator response (address, expand success or failure)", "why_tests_cant": "Out-of-bounds writes of plain data often go unnoticed in tests.", "anchors": ["include/itlib/pod_vector.hpp: grow_at, resize, fill, a_malloc, a_realloc_begin, a_expand_begin, a_free_begin"]}
{"id": "C18", "title": "pod_vector::resize(n, v) writes only the new elements", "statement": "resize(n, v) sets the elements from the old size to n to v, keeps the others and writes nothing else.", "quantifier": "every vector, n and v", "why_tests_cant": "The excess writes land past the end and only corrupt memory when they cross the capacity.", "anchors": ["include/itlib/pod_vector.hpp: resize, fill"]}
{"id": "C19", "title": "pod_vector aligned storage", "statement": "data() is always aligned to alignof(T), lies with capacity()*sizeof(T) bytes inside the block obtained from the allocator, and the address passed back on free is the one obtained, for every address the allocator may return.", "quantifier": "every element alignment up to 255, every allocator address, every size", "why_tests_cant": "The allocator's addresses are outside the tests' control.", "anchors": ["include/itlib/pod_vector.hpp: align_ptr, real_addr, a_malloc, a_realloc_begin"]}
{"id": "C20", "title": "pod_vector recasts", "statement": "recast_copy_from and recast_take_from give a vector whose bytes are the source's bytes (truncated to whole elements of the new type), whose storage is aligned for the new type, and whose capacity fits the block; take leaves the source empty.", "quantifier": "every source content, pair of element sizes/alignments", "why_tests_cant": "Size and alignment ratios are compile-time parameters; tests use a few.", "anchors": ["include/itlib/pod_vector.hpp: recast_copy_from, recast_take_from"]}
{"id": "C21", "title": "pod_vector: adding a copy of one of its own elements", "statement": "push_back(v[k]) and insert(pos, v[k]) store the value v[k] had before the call.", "quantifier": "every vector, position and index", "why_tests_cant": "Goes wrong only when the call relocates or shifts.", "anchors": ["include/itlib/pod_vector.hpp: push_back, insert, grow_at"]}
{"id": "C22", "title": "flat_map is a finite map", "statement": "For any strict weak order on keys and any history of insert, emplace, operator[], erase (by key, by position), at, find, count and clear, a flat_map gives the same answers as a finite map over equivalence classes of keys: insert never overwrites, operator[] creates a default value only if absent, at throws out_of_range exactly for absent keys.", "quantifier": "every strict weak order, key, value, map and history", "why_tests_cant": "Relies on a binary search over an invariant that every call must keep for arbitrary orders, including those where equivalent keys differ.", "anchors": ["include/itlib/flat_map.hpp: flat_map, lower_bound, find, insert, emplace, erase, operator[], at"]}
{"id": "C23", "title": "flat_map and flat_set iterate in strictly ascending order", "statement": "After construction from any sequence and after every call the elements are strictly ascending under the comparator: sorted and without two equivalent keys.", "quantifier": "every comparator that is a strict weak order, every input sequence and history", "why_tests_cant": "Sortedness must survive all histories.", "anchors": ["include/itlib/flat_map.hpp: flat_map(container_type,...), insert, emplace, erase", "include/itlib/flat_set.hpp: flat_set(container_type,...), insert, emplace, erase"]}
{"id": "C24", "title": "flat_map/flat_set bounds", "statement": "lower_bound(k) is the first element not less than k, upper_bound(k) the first greater than k, equal_range(k) is exactly the elements equivalent to k (at most one), for every key and heterogeneous key type consistent with the order.", "quantifier": "every sorted container and every lookup key (also heterogeneous)", "why_tests_cant": "Off-by-one errors of binary search show only for particular sizes and positions.", "anchors": ["include/itlib/flat_map.hpp: lower_bound, upper_bound, equal_range", "include/itlib/flat_set.hpp: lower_bound, upper_bound, equal_range"]}
{"id": "C25", "title": "Construction of flat containers from a sequence", "statement": "Building a flat_map or flat_set from any sequence keeps exactly one representative, taken from the sequence, of each class of equivalent keys, for every conforming std::sort.", "quantifier": "every sequence, every strict weak order, every behaviour std::sort may legally have", "why_tests_cant": "std::sort's treatment of equivalent elements is unspecified; tests see one implementation.", "anchors": ["include/itlib/flat_map.hpp: flat_map(container_type,...)", "include/itlib/flat_set.hpp: flat_set(container_type,...)"]}
{"id": "C26", "title": "flat_set is a finite set", "statement": "For any strict weak order and any history of insert, emplace, erase, find, count and clear a flat_set answers as a finite set of equivalence classes, insert keeping the element already present.", "quantifier": "every order, element, set and history", "why_tests_cant": "Same as for flat_map.", "anchors": ["include/itlib/flat_set.hpp: flat_set, insert, emplace, erase, find, count"]}
{"id": "C27", "title": "flat_map over a bounded container", "statement": "A flat_map over static_vector throws and stays unchanged when a new key is inserted into a full container, and still accepts insertions of present keys.", "quantifier": "every capacity, map and key", "why_tests_cant": "Composition of two components at the capacity boundary.", "anchors": ["include/itlib/flat_map.hpp: insert, operator[]", "include/itlib/static_vector.hpp: emplace"]}
{"id": "C28", "title": "dynamic_bitset is a sequence of booleans", "statement": "test, set, reset, flip, push_back, resize, assign, append and iteration agree with a list of booleans for every word width; bits beyond the old size are false after growing, whatever the history. (A bitset appended to itself: C58; sizes near the top of size_t: C59.)", "quantifier": "every word width, size, content and history", "why_tests_cant": "Stale bits beyond the size in the last word show up only after particular shrink/grow sequences.", "anchors": ["include/itlib/dynamic_bitset.hpp: dynamic_bitset, resize, push_back, append, assign, set, reset, flip, test"]}
{"id": "C29", "title": "dynamic_bitset all/any/none", "statement": "all() is true iff every one of the (at least one) bits is true, any() iff some bit is, none() iff no bit is, for every word type and regardless of stale bits beyond the size.", "quantifier": "every word type (8, 16, 32, 64 bits), size and content", "why_tests_cant": "Depends on integer promotion of narrow word types and on masks at every size modulo the width.", "anchors": ["include/itlib/dynamic_bitset.hpp: all, any, none"]}
{"id": "C30", "title": "dynamic_bitset::copy copies bit ranges", "statement": "copy(from, to, src) makes bits [from,to) equal to the to-from bits starting at src and changes no other bit.", "quantifier": "every pair of bitsets, every aligned or unaligned offsets and length", "why_tests_cant": "Only particular offset/length combinations modulo the word width straddle a source word at the end.", "anchors": ["include/itlib/dynamic_bitset.hpp: copy"]}
{"id": "C31", "title": "mem_ostreambuf collects what is written", "statement": "For any sequence of character and block writes and any initial reserve, get_container() returns exactly the concatenation of the written data and leaves the buffer empty and reusable, for every suitable container.", "quantifier": "every sequence of writes, chunk sizes, reserve, container growth policy", "why_tests_cant": "Depends on the interplay of chunk sizes with the container's capacity growth.", "anchors": ["include/itlib/mem_streambuf.hpp: mem_ostreambuf, overflow, xsputn, cap_resize_by, get_container, clear"]}
{"id": "C32", "title": "mem_ostreambuf put positions", "statement": "seeking relative to the beginning, current position or end moves the put position to the corresponding offset in the written data, and later writes overwrite from there.", "quantifier": "every sequence of writes and seeks within the written data", "why_tests_cant": "The end position depends on hidden spare capacity.", "anchors": ["include/itlib/mem_streambuf.hpp: seekpos, seekoff, poff"]}
{"id": "C33", "title": "mem_istreambuf reads exactly its buffer", "statement": "Any sequence of reads and seeks returns the bytes of the given memory at the current position, clips at the end and never accesses memory outside it.", "quantifier": "every memory, sequence of reads and seeks", "why_tests_cant": "Out-of-range seeks followed by block reads.", "anchors": ["include/itlib/mem_streambuf.hpp: mem_istreambuf, xsgetn, seekpos, seekoff, reset"]}
{"id": "C34", "title": "redirect_rstream restores the position", "statement": "When a redirect_rstream is destroyed the wrapped stream is at the position it had when the redirect was created, whatever was read through the redirect.", "quantifier": "every stream content, positions and sequence of reads", "why_tests_cant": "Depends on whether the reads hit the end of the stream.", "anchors": ["include/itlib/rstream.hpp: redirect_rstream"]}
{"id": "C35", "title": "expected holds exactly one alternative", "statement": "Through construction, move, assignment and destruction an expected (all specialisations) has exactly one of value/error alive, equal to the last one given, reports it by has_value, and never touches a member that is not alive; accessors and value_or return that alternative.", "quantifier": "every history of constructions, assignments, emplaces and clears for every specialisation", "why_tests_cant": "The four value/error combinations of assignment in six specialisations; accesses to dead union members are invisible for trivial types.", "anchors": ["include/itlib/expected.hpp: expected, operator=, value, error, value_or, clear, emplace"]}
{"id": "C36", "title": "expected<T,void> copy assignment and exceptions", "statement": "If copying the value throws during copy assignment of an optional-like expected, the target remains in a state that reports truthfully whether it has a value.", "quantifier": "every pair of states and throwing copy constructor", "why_tests_cant": "Needs an injected exception.", "anchors": ["include/itlib/expected.hpp: expected<T, void>::operator="]}
{"id": "C37", "title": "any stores an independent copy", "statement": "An any built or assigned from an object holds its own copy: copying, copy-assigning (also from itself) and moving anys preserve the stored value and later changes to the original object do not affect it.", "quantifier": "every value, history of construct/copy/move/assign/reset/emplace", "why_tests_cant": "Aliasing between the any and lvalue sources or itself.", "anchors": ["include/itlib/any.hpp: any, copy_from, operator=, emplace"]}
{"id": "C38", "title": "any storage is balanced", "statement": "Every block an any obtains is released exactly once, with the same size and alignment and through an allocator equal to the one that provided it, for every history, including throwing constructors.", "quantifier": "every history, allocators and throwing points", "why_tests_cant": "Requires distinguishable allocators and fault injection.", "anchors": ["include/itlib/any.hpp: emplace, reset, copy_from, operator=, swap"]}
{"id": "C39", "title": "any_cast is type safe", "statement": "any_cast to T succeeds exactly when the any holds a T, yields the stored object, and otherwise gives null (pointer form) or throws bad_cast (value form).", "quantifier": "every stored type and requested type", "why_tests_cant": "All pairs of types.", "anchors": ["include/itlib/any.hpp: any_cast, tdata"]}
{"id": "C40", "title": "span slicing stays inside", "statement": "first, last, subspan, remove_prefix and remove_suffix give views of elements of the original view only: subspan(off,n) shows elements off..min(off+n,size), clipped, for all off and n; last(n) shows the last min(n,size) elements.", "quantifier": "every base address, size, offset and count (64-bit)", "why_tests_cant": "Pointer comparisons after overflow: only extreme or over-long arguments expose it.", "anchors": ["include/itlib/span.hpp: subspan, first, last, remove_prefix, remove_suffix"]}
{"id": "C41", "title": "stride_span/poly_span iterators are random access", "statement": "For iterators a, b of one strided view: (a+n)-a == n, a-b == -(b-a), a[n] == *(a+n), a<b iff b-a>0, and begin+i refers to the element i strides on, for every stride.", "quantifier": "every base, stride >= 1, view length and iterator positions", "why_tests_cant": "Mixed signed/unsigned arithmetic misbehaves only for negative differences with stride > 1.", "anchors": ["include/itlib/stride_span.hpp: iterator", "include/itlib/poly_span.hpp: iterator"]}
{"id": "C42", "title": "stride_span views stay inside the array", "statement": "make_stride_span_from_array(arr, len, stride, offset) shows exactly the elements offset, offset+stride, ... below len; subspan/first/last of a strided view show the corresponding elements, clipped.", "quantifier": "every array length, stride >= 1, offset <= len, slicing arguments", "why_tests_cant": "Rounding of the element count for every stride/length pair.", "anchors": ["include/itlib/stride_span.hpp: make_stride_span_from_array, subspan, first, last"]}
{"id": "C43", "title": "memory_view slicing and byte sizes", "statement": "Any sequence of slice, remove_prefix, remove_suffix and reset(size) of a memory_view shows exactly the elements the same sequence of operations on the list of elements leaves (slice clipping offset and count), through operator[], back and iteration; make_memory_view of a container shows exactly its elements from the offset on.", "quantifier": "every base, size and argument", "why_tests_cant": "64-bit boundary arguments.", "anchors": ["include/itlib/memory_view.hpp: slice, remove_prefix, remove_suffix, make_memory_view"]}
{"id": "C44", "title": "strutil prefixes and suffixes", "statement": "starts_with/ends_with hold iff the text is prefix+rest / rest+suffix; remove_prefix_all/remove_suffix_all terminate and return the text with all leading/trailing repetitions removed so that none remains.", "quantifier": "every text and pattern, including empty ones", "why_tests_cant": "Termination and maximality for all inputs.", "anchors": ["include/itlib/strutil.hpp: starts_with, ends_with, remove_prefix_all, remove_suffix_all"]}
{"id": "C45", "title": "qalgorithm erases and searches", "statement": "erase_all(_if) removes exactly the matching elements, keeps the others in order and returns the number removed; erase_first(_if) removes only the first match and reports it; qfind/pfind/qall_of/qany_of/qnone_of agree with quantification over the elements.", "quantifier": "every container content and predicate", "why_tests_cant": "All contents and predicates.", "anchors": ["include/itlib/qalgorithm.hpp: erase_all, erase_all_if, erase_first, erase_first_if, qfind, pfind, qall_of, qany_of, qnone_of"]}
{"id": "C46", "title": "time_t::strftime returns the formatted text", "statement": "strftime(format, tm) returns exactly the text std::strftime produces for that format, however long or short it is.", "quantifier": "every format/locale result, including the empty text", "why_tests_cant": "The buffer growth loop must terminate for every possible output.", "anchors": ["include/itlib/time_t.hpp: strftime"]}
{"id": "C47", "title": "time_t arithmetic", "statement": "Whenever the exact results are representable in 64 bits, time_t plus and minus durations and the difference of time_t values are consistent: (t+d)-t is d truncated to whole seconds, (t+d)-d == t, and comparison is the order of the seconds.", "quantifier": "every time value and duration of every period", "why_tests_cant": "Truncation toward zero for negative and sub-second durations.", "anchors": ["include/itlib/time_t.hpp: time_t, operator+=, operator-=, operator-"]}
{"id": "C48", "title": "generator yields in order, once, and then ends", "statement": "For every coroutine body next() returns its yielded values one by one in order, then rethrows the body's exception if it threw, and after that always returns empty; a range-for visits the same values; the coroutine frame is destroyed exactly once under any moves, resets and assignments.", "quantifier": "every coroutine body (any finite or infinite yield sequence, ending or throwing) and usage history", "why_tests_cant": "All bodies and histories, including use after the end and after moves.", "anchors": ["include/itlib/generator.hpp: generator, next, done, safe_resume, pseudo_iterator, operator=, reset"]}
{"id": "C49", "title": "atomic_relaxed_counter loses no update", "statement": "Whatever the interleaving of increments, decrements and additions by any number of threads, the final value is the initial value plus the sum of all changes modulo the type's range, and each ++ returns a distinct value when only increments happen (up to wrap).", "quantifier": "every number of threads, programs and schedules", "why_tests_cant": "Schedules cannot be enumerated by tests.", "anchors": ["include/itlib/atomic.hpp: atomic_relaxed_counter"]}
{"id": "C50", "title": "atomic_shared_ptr_storage operations are linearizable", "statement": "Under every interleaving of load, store, exchange and compare_exchange by any number of threads every call takes effect atomically at one point between its start and end, and reference counts are exact: the stored object is never freed while stored or held by a loaded pointer, and is freed when neither.", "quantifier": "every number of threads, operations, schedules", "why_tests_cant": "Unbounded schedules.", "anchors": ["include/itlib/atomic_shared_ptr_storage.hpp: asps_holder, atomic_shared_ptr_storage, spinlock"]}
{"id": "C51", "title": "atomic_shared_ptr_storage never runs user code under its lock", "statement": "No destructor of a managed object runs while the storage's internal lock is held, so that an object's destructor may itself use the storage.", "quantifier": "every operation, every state of the reference counts", "why_tests_cant": "Deadlock needs a particular last-reference situation.", "anchors": ["include/itlib/atomic_shared_ptr_storage.hpp: store, exchange, compare_exchange_strong"]}
{"id": "C52", "title": "data_mutex guards data with its mutex", "statement": "Under every interleaving data is accessible only through a guard whose mutex is locked by that guard (exclusively, or shared for read-only access), each successful lock is undone exactly once, also through moves of guards and failed try-locks, and an exception from locking never unlocks a mutex that is not held.", "quantifier": "every schedule, history of guard creations, moves and destructions, and exceptions of lock()", "why_tests_cant": "Schedules and exception points.", "anchors": ["include/itlib/data_mutex.hpp: data_mutex, unique_lock_t, shared_lock_t, try_unique_lock_t"]}
{"id": "C53", "title": "strong_try_rec_mutex", "statement": "try_lock by a thread succeeds iff the mutex is free or already held by the same thread (never failing spuriously); it becomes free again exactly when the holder unlocked as many times as it locked; two threads never hold it at once.", "quantifier": "every number of threads and schedules", "why_tests_cant": "Unbounded schedules and recursion depth.", "anchors": ["include/itlib/mutex.hpp: strong_try_rec_mutex"]}
{"id": "C54", "title": "sentry runs its function exactly once", "statement": "The function given to make_sentry runs exactly once, when the last owner of it in a chain of moves is destroyed, also when the scope is left by an exception.", "quantifier": "every chain of moves and destruction order", "why_tests_cant": "All chains.", "anchors": ["include/itlib/sentry.hpp: sentry, make_sentry"]}
{"id": "C55", "title": "shared pointers made by helpers share ownership", "statement": "make_aliased(owner, p) is null when owner is empty and otherwise points to p and keeps owner's object alive; shared_from(p)/weak_from(p) point to p and share ownership with the pointer that owns the object (throwing bad_weak_ptr when there is none); the owned object is destroyed exactly once, when the last owner goes, whatever the history of copies and resets.", "quantifier": "every history of creations, copies, aliasings and resets", "why_tests_cant": "Ownership histories cannot be enumerated.", "anchors": ["include/itlib/make_ptr.hpp: make_shared, make_unique, make_aliased", "include/itlib/shared_from.hpp: enable_shared_from::shared_from, weak_from, shared_from_this, weak_from_this"]}
{"id": "C56", "title": "pmr_allocator object allocation", "statement": "allocate_object<U>(n) provides room for n objects for every n it accepts, new_object releases the memory if the constructor throws, delete_object destroys then releases with the same size and alignment.", "quantifier": "every n (64-bit), object size and throwing constructor", "why_tests_cant": "Multiplication overflow and fault injection.", "anchors": ["include/itlib/pmr_allocator.hpp: allocate_object, new_object, delete_object"]}
{"id": "C57", "title": "throw_ex composes and throws", "statement": "A throw_ex statement throws an exception of the chosen type whose message is the concatenation of all streamed parts in order; only if another exception is already propagating does it terminate instead.", "quantifier": "every sequence of streamed parts", "why_tests_cant": "All sequences.", "anchors": ["include/itlib/throw_ex.hpp: throw_ex"]}
{"id": "C58", "title": "dynamic_bitset appended to itself", "statement": "b.append(b) doubles the sequence.", "quantifier": "every word width, size and content", "why_tests_cant": "Depends on the size modulo the word width; the aligned case inserts a vector into itself.", "anchors": ["include/itlib/dynamic_bitset.hpp: append"]}
{"id": "C59", "title": "dynamic_bitset sizes", "statement": "A bitset constructed with or resized to any 64-bit size has a buffer with room for all its bits (or the call throws).", "quantifier": "every 64-bit size", "why_tests_cant": "The rounding up to words overflows only for sizes near 2^64.", "anchors": ["include/itlib/dynamic_bitset.hpp: dynamic_bitset(size_type, word_type), resize, word_size"]}
{"id": "C60", "title": "get_container after seeking back", "statement": "After any writes and seeks within the data, get_container() returns all the data written, wherever the put position is.", "quantifier": "every written data and put position", "why_tests_cant": "Tests take the container with the position at the end.", "anchors": ["include/itlib/mem_streambuf.hpp: get_container, poff"]}
{"id": "C61", "title": "unexpected(lvalue) does not change the lvalue", "statement": "Building an expected from unexpected(x) with an lvalue x leaves x unchanged.", "quantifier": "every error value, specialisation with an error type", "why_tests_cant": "Needs an error type whose move changes it and a look at the source afterwards.", "anchors": ["include/itlib/expected.hpp: unexpected, unexpected_t, expected(unexpected_t<E2>&&)"]}
{"id": "C62", "title": "emplace from the own value", "statement": "e.emplace(e.value()) leaves the expected with the value it had.", "quantifier": "every value and optional-like specialisation", "why_tests_cant": "The destroyed value usually still has its old bytes.", "anchors": ["include/itlib/expected.hpp: expected<T, void>::emplace, clear"]}
{"id": "C63", "title": "any can be given the object it holds", "statement": "Assigning to an any, or emplacing in it, from (a reference to) the object it holds leaves it with a copy of that object, without undefined behaviour.", "quantifier": "every any which holds something, every type and value", "why_tests_cant": "The source dies inside the call; the stale read usually gives the old bytes.", "anchors": ["include/itlib/any.hpp: emplace, operator=(T&&)"]}
{"id": "C64", "title": "qalgorithm with values inside the container", "statement": "qfind, pfind, erase_first and erase_all give the same result when the value passed by reference is (a part of) an element of the container as when it is a copy of it.", "quantifier": "every container content and every element referred to", "why_tests_cant": "Depends on which elements are moved over the referenced one and when.", "anchors": ["include/itlib/qalgorithm.hpp: qfind, pfind, erase_first, erase_all"]}
{"id": "C65", "title": "atomic_shared_ptr_storage compares as std::atomic<std::shared_ptr> does", "statement": "compare_exchange succeeds exactly when the stored and the expected pointer have the same address and the same owner, as with std::atomic<std::shared_ptr>, which the same header uses where it is available.", "quantifier": "every execution, every pointers including aliasing ones", "why_tests_cant": "Tests use one owner per address; the two branches of the header are never compared.", "anchors": ["include/itlib/atomic_shared_ptr_storage.hpp: compare_exchange_strong, asps_holder (both branches)"]}
{"id": "C66", "title": "enable_shared_from gives the managing pointer", "statement": "shared_from_this() and weak_from_this() of enable_shared_from return the managing pointer, type erased to void: the same address the owner holds.", "quantifier": "all objects owned by shared pointers, all histories, all layouts of the bases", "why_tests_cant": "tests derive from enable_shared_from first, so the base has offset 0", "anchors": ["include/itlib/shared_from.hpp: 47, shared_from_this, weak_from_this"]}
{"id": "C67", "title": "throw_ex can replace throw", "statement": "A program in which statements throw E(text) are replaced by throw_ex<E>{} << text does the same: the same exceptions reach the same handlers, in every block, handler and destructor.", "quantifier": "all programs of blocks, handlers and destructors, all streamed operands", "why_tests_cant": "tests throw from plain functions; destructors during unwinding and throwing operands need special programs", "anchors": ["include/itlib/throw_ex.hpp: ~throw_ex, operator<<"]}
{"id": "C68", "title": "ufunction is the unique owner of its function", "statement": "After any history of constructions, moves, assignments and calls a ufunction calls the function last given to it, in the state earlier calls left it in; it is empty and throws bad_function_call otherwise; functions are not copied, have one owner and are destroyed exactly once, when it goes or is given another.", "quantifier": "all histories over any number of ufunctions and function objects, with throwing moves and failing allocations", "why_tests_cant": "all histories; tests cannot make allocation fail", "anchors": ["include/itlib/ufunction.hpp: ufunction, copy_wrapper"]}
{"id": "C69", "title": "ufunction is equivalent to std::move_only_function", "statement": "As documented, ufunction is essentially equivalent to std::move_only_function: in particular one made of a null function pointer or of an empty function is empty.", "quantifier": "all histories and function objects", "why_tests_cant": "needs null and empty function objects, which tests do not wrap", "anchors": ["include/itlib/ufunction.hpp: 53, ufunction(FO), operator=(FO)"]}
{"id": "C70", "title": "transparent_umap's overloads are selected when the map is transparent", "statement": "With transparent Hash and KeyEqual, at, operator[] and try_emplace of transparent_umap called with a key of another type look up by that key without making a Key, exactly where the overloads of C++23/26 do.", "quantifier": "all maps and key types, lvalue and rvalue arguments", "why_tests_cant": "tests only include the header; selection is decided at compile time for each type", "anchors": ["include/itlib/transparent_umap.hpp: tumimpl::is_transparent, enable_if_tr, enable_if_tr_c"]}
{"id": "C71", "title": "transparent_umap's overloads behave as a map", "statement": "Where selected, at, operator[] and try_emplace with a key of another type behave as on a finite map: at throws for a missing key, the others insert at most one element and leave an existing one untouched; an exception changes nothing.", "quantifier": "all histories, keys and throwing constructors", "why_tests_cant": "all histories; there are no tests", "anchors": ["include/itlib/transparent_umap.hpp: try_emplace, operator[], at"]}
{"id": "C72", "title": "is_noop_convertible is true only for casts which are no-ops", "statement": "As documented, where is_noop_convertible<From, To> is true, casting any value of From to To is a no-op: the cast exists and the result has the same bytes.", "quantifier": "all pairs of scalar types, all values, all class hierarchies", "why_tests_cant": "infinitely many types and values; tests check the trait's value, not what casts do", "anchors": ["include/itlib/type_traits.hpp: is_noop_convertible"]}
{"id": "C73", "title": "owner_from_member and bit_cast are exact", "statement": "owner_from_member gives the address of the object of which the member is a member; bit_cast keeps every byte and is its own inverse.", "quantifier": "all addresses, offsets and byte sequences", "why_tests_cant": "addresses near the end of the address space do not occur in tests", "anchors": ["include/itlib/utility.hpp: owner_from_member, bit_cast"]}
{"id": "C74", "title": "small_vector uses its static buffer when its documentation says", "statement": "As documented, is_static() and capacity() of a small_vector depend only on the sizes it went through: it leaves the static buffer when the elements do not fit, goes back when erase or resize reduce the size below RevertToStaticBelow, and on shrink_to_fit and revert_to_static whenever they fit.", "quantifier": "all histories of calls, all StaticCapacity > 0 and RevertToStaticBelow up to StaticCapacity + 1", "why_tests_cant": "tests use a few fixed capacities and never resize down below the threshold from a dynamic buffer", "anchors": ["include/itlib/small_vector.hpp: 83-110, choose_data, shrink_at, resize, clear, shrink_to_fit, revert_to_static, take_impl"]}
{"id": "C75", "title": "small_vector follows the allocator's traits", "statement": "As with std::vector, which small_vector is documented to be compatible with: copy assignment propagates the allocator exactly if propagate_on_container_copy_assignment, move assignment exactly if propagate_on_container_move_assignment, copies use select_on_container_copy_construction, and memory goes back to an allocator equal to the one it came from.", "quantifier": "all programs of any number of vectors with any allocator values and traits", "why_tests_cant": "tests use stateless allocators, or allocators which count and are all equal", "anchors": ["include/itlib/small_vector.hpp: 85, constructors, operator=, take_impl, ~small_vector, get_alloc"]}
{"id": "C76", "title": "pod_vector's resizing methods tell whether the elements moved", "statement": "reserve(n), resize(n), resize(n, v) and shrink_to_fit() of itlib::pod_vector answer true exactly if data() is another address after the call than before, i.e. iterators were invalidated; false after a successful realloc or expand in place.", "quantifier": "every allocator (answers, expand, alignment), element type, vector state and size", "why_tests_cant": "whether realloc or expand stays in place depends on the allocator; tests see only what the platform's allocator happens to do", "anchors": ["include/itlib/pod_vector.hpp: 64-70, 441-487, 494-530, 607-624"]}
{"id": "C77", "title": "pod_vector copes with an allocator which has no memory", "statement": "If the allocator cannot serve a request, the itlib::pod_vector call reports that, or at least the vector stays as it was: never undefined behaviour, lost elements or a lost block; calls which need no memory are not affected.", "quantifier": "every allocator which may answer null, element type, vector state and call", "why_tests_cant": "tests do not run out of memory", "anchors": ["include/itlib/pod_vector.hpp: 441-487, 765-773, 825-879"]}
{"id": "C78", "title": "pod_vector never claims more capacity than it has memory for", "statement": "After reserve(n), resize(n) or assign(n, v) the memory behind data() has room for capacity() elements, also if n * sizeof(T) does not fit in 64 bits (then the call has to fail).", "quantifier": "every size n below 2^64, element type, allocator and vector state", "why_tests_cant": "sizes near 2^64 / sizeof(T) are not tried in tests; the product wraps silently", "anchors": ["include/itlib/pod_vector.hpp: 441-487, 825-837, 892-897"]}
{"id": "C79", "title": "pod_vector's operator== compares elements", "statement": "a == b for two itlib::pod_vector answers what std::vector's would: the same size and elements which are pairwise equal; a != b is its negation.", "quantifier": "every element type with its ==, and every pair of vectors", "why_tests_cant": "memcmp and == differ for -0.0, NaN and padding only, which tests with ints do not have", "anchors": ["include/itlib/pod_vector.hpp: 46-49, 909-923"]}
{"id": "C80", "title": "A vector's constructor which throws leaves nothing behind", "statement": "If a constructor of itlib::static_vector or itlib::small_vector exits with an exception (an element's constructor threw, the elements do not fit, or memory was refused), every element made so far is destroyed and all memory is given back; if it does not throw, the vector has the elements asked for.", "quantifier": "every constructor (count; count and value; range; initializer list; copy, for static_vector also from another capacity), every capacity, contents and choice of the construction that throws", "why_tests_cant": "whether a destructor runs after a throwing constructor depends on delegation; tests use no throwing constructors here, and a leak or a wrong destructor call is seldom visible", "anchors": ["include/itlib/static_vector.hpp: 182-239, 593-622", "include/itlib/small_vector.hpp: 216-281, 675-707, 890-950"]}
{"id": "C81", "title": "flat_map and flat_set are as they were after an exception", "statement": "If a call on an itlib::flat_map or itlib::flat_set exits with an exception (a comparison threw, the container could not grow or move its elements, an element's constructor threw), the object holds what it held before, in order, and can go on being used; if no exception comes, the call does what C22 and C26 say.", "quantifier": "every call, copy assignment included, every contents, every comparator, every comparison, move or construction that throws, std::vector and static_vector as the container", "why_tests_cant": "the tests compare ints and strings and never throw; whether an exception leaves duplicates depends on the position, on the step that throws and on the container", "anchors": ["include/itlib/flat_map.hpp: 124-133, 197-201, 221-372", "include/itlib/flat_set.hpp: 93-101, 163-167, 189-304", "include/itlib/static_vector.hpp: 470-520, 622-640"]}
{"id": "C82", "title": "Error handling settings change only what happens on an error", "statement": "Whatever error handling setting (none, throw, assert, assert and throw) itlib::static_vector and itlib::small_vector are compiled with, with or without NDEBUG and the debug bounds check, a program whose calls are all within range gets the same answers and contents, and no assertion fails. A call which is an error is answered by the exception, by a failed assertion or not at all, as the setting says; an access outside the elements fails the debug check where that is on. flat_map::at finds a key which is present under both its settings, and for one which is not it throws, or with ITLIB_FLAT_MAP_NO_THROW fails an assertion (without assertions it answers with the value of the next greater key).", "quantifier": "every setting, every combination of NDEBUG and the bounds check, every history of calls on any number of vectors, every vector and every call which is an error, element and allocator exceptions included", "why_tests_cant": "the settings are macros, so one test binary has one of them; the tests are only compiled with the throwing one and a failed assertion would end the test program", "anchors": ["include/itlib/static_vector.hpp: 117-154, 289-327, 424-670", "include/itlib/small_vector.hpp: 159-192, 343-363, 472-504, 583-707, 759-888", "include/itlib/flat_map.hpp: 102-108, 352-372"]}
{"id": "C83", "title": "flat_map and flat_set over small_vector", "statement": "itlib::flat_map and itlib::flat_set with an itlib::small_vector as their container are a finite map and a finite set as with std::vector: whatever the static capacity and the threshold for going back to the static buffer, any history of insertions, erasures, lookups, operator[], at, assignments between objects and construction from a vector has the answers and leaves the contents of the finite map or set, while the elements move between the static and the dynamic buffer. A call which throws leaves the object as it was.", "quantifier": "every element, key and comparator type with a strict weak order, every static capacity and threshold, every history of calls on any number of objects, every failing allocation and element construction", "why_tests_cant": "where the elements lie depends on the history; the repository only instantiates flat_map and flat_set over std::vector and static_vector in a few fixed sequences", "anchors": ["include/itlib/flat_map.hpp: 115-402", "include/itlib/flat_set.hpp: 93-334", "include/itlib/small_vector.hpp: 216-888"]}
{"id": "C84", "title": "atomic_shared_ptr_storage needs no more than acquire and release", "statement": "With the spinlock's flag as an atomic object of the C++ memory model - test_and_set with acquire, clear with release, reads of any message that coherence allows, stores anywhere in the modification order that coherence allows - no execution has a data race on the stored pointer, a use of a destroyed pointer or a use count below zero; every call of load, store, exchange and compare_exchange takes effect at one moment between its begin and end; and the use counts are exact.", "quantifier": "every number of threads, operations and schedules, every choice of the message read and of the place in the modification order that the memory model leaves open, destructors which use the storage themselves", "why_tests_cant": "x86 hardware, on which tests run, orders more than the memory model promises; a missing acquire or release is invisible there", "anchors": ["include/itlib/atomic_shared_ptr_storage.hpp: 61-163"]}
{"id": "C85", "title": "atomic_relaxed_counter under the C++ memory model", "statement": "With every operation relaxed as in the code (reads of any message that coherence allows, stores anywhere in the modification order that coherence allows, read-modify-writes next to what they read) and threads which synchronize by other means, the calls - except that of assigning a counter to itself, which is two operations - have one total order that agrees with each thread's order and with happens-before and gives every result; a load by a thread that has synchronized with all others after their last calls gives the initial value plus the sum of all changes modulo the type's range; increments return distinct values (up to wrap); there is no undefined behaviour for unsigned and narrow types or while no sum leaves a signed type's range. What C49 says of interleaved steps goes no further: an unsynchronized load may miss an increment that has already returned.", "quantifier": "every number of threads, programs and schedules, every integral type and initial value, every choice of the message read and of the place in the modification order that the memory model leaves open, every pattern of synchronization between threads", "why_tests_cant": "x86 hardware, on which tests run, orders more than relaxed operations promise; schedules cannot be enumerated", "anchors": ["include/itlib/atomic.hpp: atomic_relaxed_counter"]}
{"id": "C86", "title": "strong_try_rec_mutex synchronizes the data it guards", "statement": "Under the C++ memory model, data which threads use only while they have locked a strong_try_rec_mutex is free of data races: everything done with it happens before what the next owner does, also when the owner's last unlock and the next try_lock are all that connects them; the mutex' own members are free of data races; a read of the data gives what was written last; and the mutex is still linearizable.", "quantifier": "every number of threads, programs and schedules, every recursion depth up to the counter's range, every value and use of the data", "why_tests_cant": "a missing happens-before edge shows on weakly ordered hardware only, and rarely", "anchors": ["include/itlib/mutex.hpp: strong_try_rec_mutex"]}
{"id": "C87", "title": "dynamic_bitset when its buffer runs out of memory", "statement": "When an operation of the buffer throws for want of memory, the call on the bitset throws and the bitset holds the bits it held before, so that every later call on it is defined.", "quantifier": "every width of the words, every contents of the bitset, every call and history of calls, every choice of requests for memory which are refused, every contents a failed copy assignment of the buffer leaves", "why_tests_cant": "allocation failures are not injected by the tests, and the objects they leave behind are broken in ways which depend on the sizes", "anchors": ["include/itlib/dynamic_bitset.hpp: 164-165, 255-302"]}
{"id": "C88", "title": "data_mutex synchronizes the data it guards (C++ memory model)", "statement": "When locking does not throw, no two accesses to the data through guards race in the sense of the C++ memory model: all earlier accesses happen before those through a guard for exclusive access, all earlier writes before those through a shared guard; reads and writes linearize, and each guard which points to the data accounts for exactly one lock.", "quantifier": "every number of threads, every execution of threads which make, try, move, use and destroy guards of all three kinds, for mutexes which are recursive or not, shared or not", "why_tests_cant": "a lock, an unlock or a moved-from guard missing in one path shows as a race only on some machines and schedules, and a missing synchronization of readers with the next writer hardly ever", "anchors": ["include/itlib/data_mutex.hpp: 61-177"]}
{"id": "C89", "title": "dynamic_bitset::copy within one bitset", "statement": "copy(from, to, source) with source in the same bitset gives the bits [from, to) the values which the source's bits had before, whenever std::copy could (the ranges do not overlap, or the destination begins before the source), and changes no other bit.", "quantifier": "every width of the words, every contents, every pair of ranges inside the bitset which do not overlap in the wrong way", "why_tests_cant": "whether a word is read after it was written depends on the distance and alignment of the two ranges; there are too many combinations to test them all", "anchors": ["include/itlib/dynamic_bitset.hpp: 372-404"]}
{"id": "C90", "title": "dynamic_bitset's references and iterators are positions", "statement": "A reference from operator[] or from an iterator reads and writes exactly the bit it was taken for until the bitset needs more words than it had room for or is assigned to; iterators stay the positions they are, with the arithmetic of positions; other uses of kept references are undefined.", "quantifier": "every width of the words, every contents, every history of calls mixed with uses of references and iterators kept from earlier, every choice of the vector of how much to allocate", "why_tests_cant": "dangling references often go unnoticed because the old memory is still there; which histories are safe depends on the allocation strategy of the vector", "anchors": ["include/itlib/dynamic_bitset.hpp: 135-144, 255, 305-370"]}
{"id": "C91", "title": "Calls of atomic_shared_ptr_storage come to an end", "statement": "Whatever the schedule, a call takes a bounded number of steps besides waiting for the lock, and as long as a call is under way some thread can go on, so that all calls return when no more begin; unless a destructor which a compare_exchange runs under the lock uses the storage. (While other threads call it without end, one call may wait for ever.)", "quantifier": "every number of threads, every execution, every moment in it and every continuation; destructors which use the storage nested to any depth", "why_tests_cant": "a deadlock or a lock not given back in one path needs a particular schedule; that nothing can go wrong for ever cannot be observed in a finite test", "anchors": ["include/itlib/atomic_shared_ptr_storage.hpp: 61-163"]}
{"id": "C92", "title": "strong_try_rec_mutex never blocks", "statement": "Whatever the schedule, try_lock and unlock take a bounded number of steps besides waiting for each other, and while one is under way some thread can go on: try_lock does not wait for the thread which has locked the mutex.", "quantifier": "every number of threads, every execution of threads which unlock what they have locked, every moment in it and every continuation", "why_tests_cant": "that a call returns under all schedules cannot be shown by running some", "anchors": ["include/itlib/mutex.hpp: 62-104"]}
{"id": "C93", "title": "data_mutex waits for guards only", "statement": "When locking does not throw, the functions of data_mutex and of its guards take a bounded number of steps besides waiting for the mutex, and when no thread can go on with its call, a thread which is in no call keeps a guard: once all guards are destroyed, all calls return.", "quantifier": "every number of threads, every execution of threads which make, try, move, use and destroy guards of all three kinds, for mutexes which are recursive or not, shared or not", "why_tests_cant": "a lock left behind, for instance by a guard which was moved from, blocks others only in some schedules, and a test cannot tell waiting long from waiting for ever", "anchors": ["include/itlib/data_mutex.hpp: 61-177"]}
{"id": "C94", "title": "pod_vector adds elements in amortized constant time", "statement": "Starting from an empty pod_vector, in every history of push_back, emplace_back, insert, pop_back, erase, resize and clear (within the limits of memory) the number of elements copied because the allocator was asked for a larger block - counting all elements for every request, whether the block moved or not - is at most five times the number of elements added.", "quantifier": "for all element types, allocators, addresses, and all finite histories of calls which add or take away elements", "why_tests_cant": "Whether growth is geometric shows in no result of a call; a vector which grows by a constant passes every functional test and is only slow, and which interleavings of additions and removals make it slow cannot be enumerated.", "anchors": ["include/itlib/pod_vector.hpp: 441-487, 584-594, 655-742"]}
{"id": "C95", "title": "small_vector adds elements in amortized constant time", "statement": "Starting from an empty small_vector, in every history of push_back, insert, pop_back, erase, resize and clear the number of elements moved from one buffer to another is at most ten times the number of elements added, whatever the static capacity and RevertToStaticBelow are.", "quantifier": "for all element types, static capacities, settings of RevertToStaticBelow, and all finite histories of calls which add or take away elements", "why_tests_cant": "Moves between the static and the dynamic buffer change no result; the histories which move all elements with each call stay at one particular size, and tests which only grow or only shrink do not meet them.", "anchors": ["include/itlib/small_vector.hpp: 59-107, 650-673, 956-998"]}
{"id": "C96", "title": "pod_vector gives memory back to the allocator it came from", "statement": "For any number of pod_vectors with different allocator objects and any history of constructors, copies with and without another allocator, moves, assignments, swaps, recasts from other vectors, destructors and member functions, memory is freed, reallocated and expanded only through the allocator which provided it: a copy keeps its own allocator, a move or recast_take_from takes the allocator along with the memory. Each vector has the elements it should have, and when all vectors are destroyed all memory is freed.", "quantifier": "for all allocators and what moving from them leaves behind, element types, numbers of vectors and finite histories of constructors, destructors, assignments, swaps, recasts and member functions", "why_tests_cant": "The allocators of the tests have no state or are all alike, and freeing memory with another equal malloc-based allocator works by chance; which sequence of moves and swaps separates an allocator from its memory cannot be enumerated.", "anchors": ["include/itlib/pod_vector.hpp: 82-103, 146-286, 304-307, 626-631, 866-906"]}
{"id": "C97", "title": "A pod_vector assigned to, swapped with or recast from itself keeps its elements", "statement": "Copy assigning, move assigning or swapping a pod_vector with itself, and recast_copy_from or recast_take_from with the vector itself as the argument, leave its elements and its allocator, and all other vectors, as they are.", "quantifier": "for all allocators, element types, histories and contents", "why_tests_cant": "Aliased arguments are seldom tested, and after the memory was freed the old pointers often still look right.", "anchors": ["include/itlib/pod_vector.hpp: 232-286, 626-631"]}
{"id": "C98", "title": "any has room for every object it holds", "statement": "The block in which any constructs an object, by emplace, by a converting constructor or assignment, or as a copy of another any's object, has the size and the alignment which the object needs, whatever its type.", "quantifier": "for all types, sizes and alignments, allocators and finite histories of operations on any number of anys, with failing allocations and throwing constructors", "why_tests_cant": "No test holds an object of more than 4 GiB in an any, and a block which is too small only shows when the memory behind it belongs to somebody else.", "anchors": ["include/itlib/any.hpp: 86-91, 100-133, 217-255"]}
{"id": "C99", "title": "dynamic_bitset works over the library's own vectors", "statement": "A dynamic_bitset whose buffer is an itlib::pod_vector, with any allocator, or an itlib::small_vector answers every call as a sequence of booleans does.", "quantifier": "for all word types, allocators, static capacities, numbers of bitsets and finite histories of calls within the limits of memory", "why_tests_cant": "The tests use std::vector only, and what resize finds in memory differs from run to run.", "anchors": ["include/itlib/dynamic_bitset.hpp: 147-318", "include/itlib/pod_vector.hpp: 92, 181-255, 607-621", "include/itlib/small_vector.hpp: 237-317"]}
{"id": "C100", "title": "gmtime yields the calendar date of a time, and from_gmtime leads back", "statement": "With every C library that conforms to POSIX, time_t::gmtime yields the date and time in UTC by the Gregorian calendar, from_gmtime leads from it back to the time, from_gmtime of members out of their ranges yields the time they say and normalises them, and later times have later dates.", "quantifier": "for all times, all values of std::tm, all conforming C libraries and all widths of std::time_t", "why_tests_cant": "Tests convert a few dates; the claim is about all 2^64 times and about every implementation of gmtime_r and timegm.", "anchors": ["include/itlib/time_t.hpp: 80-105, 121-125, 134-144"]}
{"id": "C101", "title": "localtime shows what clocks show, and from_localtime leads back", "statement": "In every time zone, time_t::localtime yields what clocks and calendars there show at that time, and from_localtime leads from it back to the time.", "quantifier": "for all time zones (functions from times to offsets and daylight saving), times, values of std::tm and conforming C libraries", "why_tests_cant": "Tests run in one time zone, and rarely in the hour in which clocks are put back.", "anchors": ["include/itlib/time_t.hpp: 107-111, 146-155"]}
{"id": "C102", "title": "flat_map and flat_set look keys up with logarithmically many comparisons", "statement": "As documented, getting a value by key is O(log2 n): with less than 2^k elements, find, count, at, operator[], insert, emplace and erase by key make at most k + 1 comparisons, lower_bound and upper_bound at most k, equal_range at most 2k, and the other calls none.", "quantifier": "for all containers, comparators, numbers of elements, keys and calls", "why_tests_cant": "Tests check results, which a linear search gives as well; counting comparisons for some sizes says nothing about the others.", "anchors": ["include/itlib/flat_map.hpp: 59-60, 223-372", "include/itlib/flat_set.hpp: 191-304"]}
{"id": "C103", "title": "pod_vector works with allocators whose size_type is narrower than size_t", "statement": "The documentation leaves size_type to the allocator. With an unsigned size_type of W bits pod_vector behaves as the sequence of C16, and reserve(n) and the constructor with n elements provide n, as long as the elements' bytes are a number of size_type.", "quantifier": "for all W up to 64, allocators, element types, families of vectors and histories of calls", "why_tests_cant": "The tests use size_t only; what a narrow size_type cuts off shows only in containers near its limit, and when it does the allocator is asked for a block which happens to be too short.", "anchors": ["include/itlib/pod_vector.hpp: 88-101, 161, 182-186, 426-624, 655-792, 825-897"]}
{"id": "C104", "title": "generators work inside generators, to any depth", "statement": "A coroutine may create, draw from, move and drop generators of its own, which may do the same. Whoever draws gets what the bodies yield, in order; an exception reaches whoever draws, once; every coroutine frame has one owner and is destroyed once; and a generator dropped anywhere, also while suspended inside others, leaves no frame behind. A recursive walk over a tree gives its values in order.", "quantifier": "for all coroutine bodies, depths of nesting and histories of calls which end and use no null, finished (except by next) or moved-to-itself generator; all trees", "why_tests_cant": "The tests have no generator inside a generator; depth and the point at which one is dropped are unbounded, and a leaked or twice destroyed frame shows in no result.", "anchors": ["include/itlib/generator.hpp: 113-148, 152-184, 189-238"]}
{"id": "C105", "title": "mem_ostreambuf works over the vectors of this library", "statement": "Over itlib::static_vector, itlib::small_vector and itlib::pod_vector, a mem_ostreambuf is a file with a position: writes put their characters at the position, tell, peek_container and get_container give the position and the characters before it, clear starts anew, and every write which the container cannot hold throws what the container throws and leaves the file as it was. No call has undefined behaviour and in the end no memory is left allocated.", "quantifier": "for all sizes reserved, static and dynamic capacities, allocators and histories of calls (put, block write, seek, tell, peek, clear, get_container) with seeks within the data", "why_tests_cant": "The tests use std::vector and std::string only; the interplay of growing, of capacity() and of what swap leaves behind differs from container to container, and stale put pointers or memory left over show in no result.", "anchors": ["include/itlib/mem_streambuf.hpp: 97-202", "include/itlib/static_vector.hpp: 331-340, 408-421, 530-598", "include/itlib/small_vector.hpp: 385-394, 462-511, 692-709", "include/itlib/pod_vector.hpp: 349-357, 426-492, 615-634"]}
{"id": "C106", "title": "reading from a mem_istreambuf stops at the end for every count", "statement": "xsgetn gives what was asked for, or what is left if that is less, for every count, and touches no memory outside of the buffer; by the rules of the standard it forms no pointer outside of the buffer either.", "quantifier": "for all arrays, addresses, widths of addresses, positions and counts", "why_tests_cant": "Whether the sum of a pointer and a count wraps around depends on where the memory lies; on the machines where the tests run it does not.", "anchors": ["include/itlib/mem_streambuf.hpp: 216-227, 255-266"]}
{"id": "C107", "title": "anys inside anys are trees", "statement": "An object in an any may have members which are anys, to any depth. Copying an any copies the whole tree, and copy and original are independent from then on; moving takes the tree; assigning or resetting destroys the old tree; a copy which fails somewhere inside (out of memory, or an object which cannot be copied) leaves the any assigned to empty and everything else as it was. Every block is given back exactly once, with the size and alignment it was asked for. An any may be assigned to or from an any inside of it, as std::any.", "quantifier": "for all trees, depths, values, histories of calls and choices of which allocations fail", "why_tests_cant": "The tests hold plain values; depth and the point at which a copy fails are unbounded, and a block leaked or freed twice shows in no result.", "anchors": ["include/itlib/any.hpp: 62-136, 141-159, 162-169, 187, 209-261"]}
{"id": "C108", "title": "copies and moves of a mem_ostreambuf are buffers of their own", "statement": "mem_ostreambuf can be copied, moved and assigned. Each object is then a file of its own: a copy has what the original had and writes to one do not show in the other, a move hands the contents over, and whatever is done with the others, an object gives back what was written to it. No call has undefined behaviour and no memory is left when all objects are gone.", "quantifier": "for all containers (growth policies, null or non-null empty data(), containers which hand their memory over when moved or not), all numbers of buffers and all histories of calls, copies, moves, assignments and destructions", "why_tests_cant": "The tests never copy or move a buffer; a write through a copied pointer shows in another object or not at all, and depends on the room left at the time of the copy.", "anchors": ["include/itlib/mem_streambuf.hpp: 98-202"]}
{"id": "C109", "title": "an exception from moving an element leaves a small_vector which can be destroyed and nothing behind", "statement": "The elements of a small_vector may be of a type whose move constructor throws, or which has none and is copied. When an element throws while a call moves the elements, the vector can be destroyed after it without undefined behaviour, no object is left alive and no memory is left. Calls which move nothing behave as always.", "quantifier": "for all element types, StaticCapacity, RevertToStaticBelow, vectors in either buffer, calls (insertions, erases, resize, reserve, shrink_to_fit, revert_to_static) and all numbers of moves which succeed before the one which throws", "why_tests_cant": "The tests have no element type whose move throws; the outcome depends on which of the moves throws and on the buffer the elements come from and go to, and a leak or the destruction of a dead object shows only in counts.", "anchors": ["include/itlib/small_vector.hpp: 472-557, 583-707, 759-888"]}
{"id": "C110", "title": "an exception from moving an element leaves static_vectors which can be destroyed and nothing behind", "statement": "The elements of a static_vector may be of a type whose move constructor throws, or which has none and is copied. When an element throws while a call moves the elements (an insertion, an erase, a swap, a move construction, a move assignment), the exception gets to the caller, every vector concerned can be destroyed after it without undefined behaviour, and no object is left alive.", "quantifier": "for all element types, capacities, vectors, calls, and all numbers of moves which succeed before the one which throws", "why_tests_cant": "The tests have no element type whose move throws; the outcome depends on which of the moves throws, and an object destroyed twice, or never, shows only in counts.", "anchors": ["include/itlib/static_vector.hpp: 227-268, 424-427, 464-590, 624-670"]}
{"id": "C111", "title": "The algorithms of qalgorithm work on the library's own vectors", "statement": "On a static_vector, a small_vector and a pod_vector, qfind, pfind, qall_of, qany_of and qnone_of (and the _if forms) answer by the first match and change nothing; erase_first erases the first match (also when the value is a part of an element); erase_all with a value from outside, and erase_all_if, erase exactly the matches, keep the order of the others and tell how many; if a predicate throws, the exception comes out, erase_all_if has erased nothing and the vector holds the elements the standard algorithm had reached: the kept ones at the front, behind them the places already gone through, some moved from, and the rest as it was. Never is an object read, assigned to or destroyed which is not alive, no storage is lost, and other vectors' memory is not touched.", "quantifier": "for all contents, capacities, element types and sizes, values, predicates and places where a predicate throws", "why_tests_cant": "the erase calls of each vector have branches of their own (clearing at the end, going back to the static buffer, empty ranges, where two of them are undefined), and a test of the algorithms uses one vector type and a few lengths", "anchors": ["include/itlib/qalgorithm.hpp: 84-167", "include/itlib/static_vector.hpp: 520-528, 641-670", "include/itlib/small_vector.hpp: 639-648, 822-870", "include/itlib/pod_vector.hpp: 573-581, 746-762"]}
{"id": "C112", "title": "flat_map and flat_set take arguments which refer into themselves", "statement": "insert of flat_map and flat_set, and operator[] of flat_map, called with an argument which refers to a part of an element of the same container (m[m[5]] where keys and values have the same type), do exactly what they do with an argument of its own: if the class of the key is there they change nothing and give the element, otherwise they put in the element which the argument stood for when the call was made.", "quantifier": "for all comparators, elements, contents, arguments referring to any element, and for std::vector, static_vector and small_vector as containers", "why_tests_cant": "whether it goes wrong depends on where the element referred to lies relative to the place of the new one, and on the container and its capacity; over std::vector, which the tests use most, it never does", "anchors": ["include/itlib/flat_map.hpp: 285-306, 338-350", "include/itlib/flat_set.hpp: 253-274", "include/itlib/static_vector.hpp: 512-518, 624-639", "include/itlib/small_vector.hpp: 631-637, 760-820"]}
{"id": "C113", "title": "Lists of expecteds whose values own the rest", "statement": "Expecteds whose values own further expecteds (nodes with a std::unique_ptr to the next one) are the lists they should be after every sequence of assignments and emplaces at any depth: an expected assigned from another one, in another list or inside of its own value (x = std::move(*x->next)), becomes what that one was, and everything which no list owns any more is destroyed exactly once.", "quantifier": "for expected<T, E> and expected<T, void>, for all data and errors, all numbers of variables and all sequences of operations at all depths", "why_tests_cant": "what goes wrong is a read of an object which was destroyed a moment before, or a leak, neither of which a test without instrumentation notices, and it depends on where source and target lie relative to each other and on what both hold", "anchors": ["include/itlib/expected.hpp: 195-242, 536-591"]}
{"id": "C114", "title": "Insertions and erasures leave the elements before their position alone", "statement": "For static_vector, small_vector and pod_vector, a call of push_back, pop_back, insert, erase or resize, after which the elements fit into the capacity there is, neither reads nor moves nor destroys nor overwrites the elements before its position, and keeps the buffer: references and iterators to these elements stay good, also if copying an element throws. Part false: small_vector goes back to its static buffer, and frees the other one, in an insertion too.", "quantifier": "for all element types and sizes, all capacities, all allocators, all states, all calls and all elements before the position", "why_tests_cant": "a reference which dangles often still reads the right value, and an element which is moved onto itself and back looks untouched; whether a buffer is kept depends on size, capacity and two template arguments at once", "anchors": ["include/itlib/small_vector.hpp: 84-101, 583-707, 759-888, 956-998", "include/itlib/static_vector.hpp: 424-558, 624-670", "include/itlib/pod_vector.hpp: 441-487, 538-624, 680-762"]}
{"id": "C115", "title": "Pointers stay within their storage", "statement": "static_vector, small_vector, pod_vector and the views of stride_span form only pointers to elements of the array they work on or one past its end, order and subtract only pointers into the same array, and use no pointer into storage which was given back. False of all four as the standard reads: insertions at begin() without reallocation (in small_vector also push_back into an empty vector) count a pointer down to begin() - 1; small_vector subtracts pointers into the buffer it has just deallocated when an erasure goes back to the static buffer; pod_vector's reserve and shrink_to_fit compare with the old begin after it was freed; end() of a stride_span over every n-th element, or over a field, points behind the array.", "quantifier": "for all capacities, sizes, thresholds, allocators, element sizes, strides and field offsets, all calls and all histories", "why_tests_cant": "on the machines the tests run on such pointers are numbers and compare as expected; only a compiler which makes use of the rule, or a checking one, shows the difference, and only in these states", "anchors": ["include/itlib/static_vector.hpp: 424-558, 592-670", "include/itlib/small_vector.hpp: 461-707, 759-998", "include/itlib/pod_vector.hpp: 441-530", "include/itlib/stride_span.hpp: 202-261, 321-368"]}
{"id": "C116", "title": "Writes to elements cannot break a flat_map or flat_set", "statement": "Users can change the elements of a flat_map or flat_set only in ways which keep the keys in order, apart from modify_container(), which is documented as dangerous; and however the elements are ordered, and whatever the comparator answers, every later call stays inside of the container, comes to an end, and adds or removes no more than one element. The first half is false: begin() gives the container's own iterators, through which keys can be assigned. Proved instead: which assignments keep the order, and that the elements are in order exactly if find() finds each of them where it is, so that damage always shows.", "quantifier": "for all containers which behave like a sequence, all contents, all comparators (for the order: all strict weak orders), all histories of calls, writes through iterators and insertions and erasures in modify_container()", "why_tests_cant": "tests use contents in order and comparators which are orders; a test of one broken set says nothing about which other states are noticed, or whether a search leaves the container", "anchors": ["include/itlib/flat_map.hpp: 154-161, 203-212, 223-389", "include/itlib/flat_set.hpp: 117-122, 171-180, 191-321"]}
{"id": "C117", "title": "Objects in anys may use the anys they are in", "statement": "Constructors and destructors of objects which are put into an any may call has_value, type, reset, emplace and move assignment on any anys, the one they are in included: everything is constructed and destroyed once, every block of memory is given back, and the answers are those of an any which holds the object or not. This is false for the any the object is in: reset, emplace and assignments to it are undefined while the constructor or destructor runs, and moving it away leaves a destroyed object in the other any. Proved for all programs which do not do that, to any depth of calls inside of calls, with has_value and type allowed everywhere.", "quantifier": "for all numbers of anys, all programs, all objects whose constructors and destructors are programs again (of any depth), all states between calls and inside of constructors and destructors", "why_tests_cant": "the tests' objects count constructions and do nothing to anys; what a destructor may find and do in the middle of a reset or a move assignment is a question of the order of four lines, and of unboundedly nested calls", "anchors": ["include/itlib/any.hpp: 155-161, 191, 212-241, 265-274"]}
{"id": "C118", "title": "Elements can look at their vector", "statement": "Whenever a static_vector or small_vector runs a constructor or destructor of an element, begin() to end() is a range, and every element in it is alive but perhaps the one whose constructor or destructor runs; so elements may use the vector they are in while they are built or destroyed. This is false: clear, erasures and insertions of several elements, assignments and every move to another buffer count elements which are dead or not built yet, and during assignments into another buffer end() points into another array than begin(). Proved: for every call exactly when it is true (insertions and erasures of one element which stay in their buffer, push_back and pop_back alike, resize which stays in its buffer, shrink_to_fit, and calls on vectors of at most one element), for one call in any state and for all sequences of calls.", "quantifier": "for all capacities, thresholds, sizes, positions and numbers of elements, all states between calls, all sequences of calls", "why_tests_cant": "the tests' elements count their constructions and do not look at the vector; what a destructor would find depends on the order of the assignments of m_size, m_begin and m_end and the loops around them, for every number of elements before and behind the position", "anchors": ["include/itlib/static_vector.hpp: 255-273, 424-550, 590-670", "include/itlib/small_vector.hpp: 319-345, 472-581, 583-712, 726-732, 759-998"]}
{"id": "C119", "title": "References to bits follow the bits when bitsets are moved or swapped", "statement": "Among any number of dynamic_bitsets which are used, copied, appended to each other, moved to each other and swapped, a reference obtained from operator[] or from an iterator reads and writes the same bit wherever it is moved to, until the vector it is in needs another block, is assigned to or is replaced by a moved one; an iterator stays with its bitset object and shows the bits this has at the time; a bitset which was moved from is empty and can be used again.", "quantifier": "for all numbers of bitsets, word widths, choices of the vector how much to allocate, and histories of calls, copies, moves, swaps and uses of kept references and iterators", "why_tests_cant": "the tests move bitsets without keeping references, and a reference into a block which is there no more often still shows the expected value; whether references and iterators part ways at a move is seen only in histories which mix both", "anchors": ["include/itlib/dynamic_bitset.hpp: 164-178, 251-276, 278-302, 305-325, 327-370"]}
{"id": "C120", "title": "Bodies of generators may use any generator, also the one they are run by", "statement": "Through pointers and references, beyond generators of its own (C104), the body of a generator may create, ask, resume, move, reset and destroy generator objects, while others do the same between its steps; next() always returns what the body of this generator yields next, throws what it throws, and gives nothing when it ended, range-for meets what next() would give, and no coroutine frame is leaked. This is false for a body which uses the generator it is run by: next(), done(), reset(), destruction and assignment are undefined then; when it moves its own generator away, next() and begin() use a null handle (iterators there are already go on), and when it puts another generator in its place, next() returns what is in the promise of that one. Proved: for all bodies and histories in which no call touches a generator whose body runs, other than to ask whether it has a handle.", "quantifier": "for all bodies (arbitrary machines which call generators and go on with the answers, to any depth), all histories of calls, all states", "why_tests_cant": "the tests' bodies yield numbers and never touch a generator; which handle next() reads behind the resumption is seen only when the body changes the generator object meanwhile", "anchors": ["include/itlib/generator.hpp: 113-148, 152-224, 228-238"]}
