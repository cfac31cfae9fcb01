# Formal model of itlib in Rocq (Coq 8.16.1)

Source: `/repo/include/itlib/*.hpp` (read as text, never built or run).
Properties: `properties.jsonl` (120). Claims and theorem names: `MANIFEST.json` (473 theorems; 39 proved, 81 partial).
Sources of the model: `rocq/theories/`. Wrong programs tried against the theorems: `seeded/LOG.jsonl` (997).

## Approach

* Every component has a `*Model.v` file (executable Gallina; each definition cites the lines of
  /repo it models), a `*Spec.v` file (a small specification which does not use the model's
  helpers: lists, finite maps, booleans, predicates), `*Proofs.v` files and a `*Props.v` file with
  the property theorems `Cnn_...`, each followed by `Print Assumptions` and by an `Example` which
  shows a concrete, non-trivial case meeting the hypotheses.
* Outcomes are explicit. A call ends in `Ok` with a result and a state, `Throw` with an exception
  and a state (so that the state after an exception can be talked about), `UB` (undefined
  behaviour: use of a dead object, access out of bounds, wrong or double release, data race, ...)
  or `Diverge` (a loop which ran out of fuel). Nothing is totalised away: a theorem which says `Ok`
  also says that there was no undefined behaviour and that the loops ended.
* Sizes, counts and addresses which the code computes in 64 bits are computed modulo 2^64.
* Histories: the main theorem of most components is about every list of calls on any number of
  objects, each call legal in the sense of a `legal`/`ok` predicate of the Spec file; there are no
  bounds on lengths, sizes, values, numbers of objects or threads.
* Where a property as a user reads it is false of the code as it stands, the full statement stays
  in `properties.jsonl`, a theorem `..._refuted` shows the failure (for every state of a described
  kind wherever that is possible, not only for a literal), and `..._partial` proves the part which
  is true, with the hypothesis that separates the two spelled out. Such a property has the status
  `partial` in the manifest: it is not that part of the proof is missing, but that the rest is false.

### Concurrency

`ConcModel.v` is an interleaving machine: methods are sequences of atomic actions on a shared
state, any number of threads, each free to call whatever `allowed` permits at any time; executions
are all sequences of steps. Linearizability is by forward simulation to a one-call-at-a-time
specification (`ConcSpec.v`): every completed call has a point between its begin and end at which
the specification does it with the same result.
Interleaving is exact for mutex.hpp, data_mutex.hpp and atomic_shared_ptr_storage: the first two
access plain members only between lock and unlock of a mutex, the last only between test_and_set
(acquire) and clear (release) of the flag; an access outside of these would be a data race, which
the model makes an explicit bad step and the theorems exclude. For atomic_relaxed_counter it is not
exact: its operations have one total order, but an unsynchronized load may be late. C49 is therefore
about interleaved operations, and C85 about all executions of the C++ memory model. How relaxed
operations of the counter order *other* locations is not modelled.
For atomic_shared_ptr_storage exactness is itself proved (C84): `WmModel.v` has atomic objects as the C++
memory model describes them (modification order, reads of old messages, acquire and release,
happens-before by clocks, data races on plain memory), and every execution of the storage on that
machine has the history of an interleaved one. C86 does the same for mutex.hpp and for the data it guards, C88 for data_mutex.hpp.
C91-C93 are about calls coming to an end (`LiveSpec.v`): waiting is no step, every other action is one.

## What is modelled, and what is not

| Header | Model | Not modelled |
|---|---|---|
| static_vector.hpp | StaticVectorModel, PtrModel, CtorModel, VecViewModel (throwing setting, no assertions); SettingsModel (every setting) | reverse iterators, initializer lists (as ranges), settings other than THROW in constructors |
| small_vector.hpp | SmallVectorModel, PtrModel, SmallAllocModel, CtorModel, VecViewModel (throwing setting, no assertions); SettingsModel (every setting) | StaticCapacity = 0, what an error does when no check is compiled in, reverse iterators; max_size(), which would not compile if used (it calls atraits::max_size without its argument) |
| pod_vector.hpp | PodVectorModel; PodAllocModel (allocators which are objects, constructors) | reverse iterators, allocators whose size_type is not std::size_t |
| flat_map.hpp, flat_set.hpp | FlatModel; FlatEditModel (elements changed by the user); FlatExnModel (with throwing comparisons and containers); SmallFlatModel (over small_vector) | exceptions during construction from a container, reverse iterators |
| dynamic_bitset.hpp | BitsetModel; BitsetExnModel (memory exhaustion); BitsetSelfModel (copy within one bitset); BitsetRefModel (references and iterators kept by the user), BitsetMoveModel (and bitsets which are moved) | buffers other than std::vector (in BitsetExnModel the buffer's assignment is any); moving a bitset to itself |
| mem_streambuf.hpp, rstream.hpp | StreamModel | locales, formatted input and output, memory exhaustion other than refused sizes |
| expected.hpp | ExpectedModel | throwing moves (noexcept: they terminate), conversions between different expected types |
| any.hpp | AnyModel, AnyNestModel, AnyHookModel | allocators with propagation traits |
| span.hpp, stride_span.hpp, poly_span.hpp, memory_view.hpp | SpanModel; PtrModel (stride_span) | constness and converting constructors (they copy the members), assertions (they are preconditions) |
| strutil.hpp, qalgorithm.hpp | StrutilModel, AlgoModel | |
| time_t.hpp | TimeModel, CalendarModel | now; floating point durations; the functions of the C library are any which conform to POSIX (CalendarSpec) |
| generator.hpp | GeneratorModel, GenNestModel (bodies with generators of their own), GenReentModel (bodies which reach any generator) | bodies which never suspend again |
| atomic.hpp, mutex.hpp, data_mutex.hpp | AtomicModel, AtomicWeakModel (C++ memory model), MutexModel, MutexWeakModel (C++ memory model), DmutexModel, DmutexWeakModel (C++ memory model) | ordering of other memory by relaxed operations; std::mutex::lock throwing in mutex.hpp |
| atomic_shared_ptr_storage.hpp | AspsModel; AspsWeakModel (C++ memory model) | the C++20 branch (std::atomic of the standard library) |
| sentry.hpp | SentryModel | what the function does, beyond throwing |
| shared_from.hpp, make_ptr.hpp | SharedModel | throwing constructors and allocations, objects which own shared pointers, threads |
| pmr_allocator.hpp | PmrModel | the C++20 branch (an alias), resources equal but not identical |
| throw_ex.hpp | ThrowModel | exceptions() masks, locales |
| ufunction.hpp | UfunModel | functions which use the ufunction they are in |
| transparent_umap.hpp | UmapModel | hashing (the map is its specification) |
| type_traits.hpp, utility.hpp | TraitsModel | is_instantiation_of, type_identity, force_move, make_nullptr (compile time only); pointers to member functions, enumerations without fixed underlying type |
| tep_vector.hpp | — | the class has no operations yet |

Parts of the C++ standard library which the code calls are modelled by what the standard promises
(std::sort: any function with the promise; allocators: any answers they may give; std::function,
std::shared_ptr, std::mutex, streams: state machines described at the head of each Model file).

## Trusted base

* Coq 8.16.1's kernel, including `vm_compute` (used for witnesses and examples).
* `Print Assumptions` answers "Closed under the global context" for every theorem named in the
  manifest: no axiom, neither of our own nor of the standard library, is used. (`coqchk -o` over the whole
  development lists the module-level parameters of `Coq.ssr.ssrunder`, which the standard library's
  `ZArith`/`Lia` load; no theorem depends on them.)
* The reading of the C++ code by the model, function by function, with the simplifications listed
  at the head of each Model file and in the table above.
* The specifications in the `*Spec.v` files, which say what the English properties mean.

## Testing the theorems

For each component the model was edited in a scratch copy as a realistic bug would, and everything
which depends on it was rebuilt. `seeded/LOG.jsonl` has one line per attempt: the definition, the
edit, the claim it breaks, the theorems which failed, and those which were tightened because they
still held. Edits which turned out to preserve the behaviour are noted as such.

## Properties: plan and result

### C01 static_vector behaves as a bounded sequence — proved

For every history of valid calls (construct, assign, push_back, emplace_back, pop_back, insert one/n/range, emplace, erase one/range (non-empty), resize, clear, copy, move, swap) a static_vector<T,N> holds exactly the sequence the same calls give on a plain list; a call that would make the size exceed N, or pop an empty vector, or erase more elements than there are, throws out_of_range instead and changes nothing, except that assign has emptied the vector by then; a vector move-assigned to itself becomes empty. (Arguments referring to the vector's own elements: C06; counts that wrap 2^64: C04.)

* Modelled: static_vector.hpp: the storage as slots which are raw or hold an object; every loop of grow_at, shrink_at, the insertions, erase, assign, resize, swap and the copies statement by statement; capacity checks in 64 bits; element constructors throw where a countdown (fuse) says
* Proof: each call refines a list operation from every valid state (induction over the loops); histories by an invariant; refutations hold for every state of a described kind
* Result: Any number of vectors, any history of calls. Erasing an empty range before the end (C03) and counts which wrap 2^64 (C04) are outside the history condition.
* Theorems: `C01_static_vector_histories`, `C01_static_vector_call`, `C01_static_vector_copy_construct`, `C01_static_vector_move_construct`, `C01_static_vector_equality`

### C02 static_vector never misuses object lifetimes — proved

In every such history no element is constructed over a live element, no element is read, moved from or destroyed while not alive, the live elements are exactly the first size() slots, and destroying the vector ends the lifetime of every element exactly once.

* Modelled: static_vector.hpp: the storage as slots which are raw or hold an object; every loop of grow_at, shrink_at, the insertions, erase, assign, resize, swap and the copies statement by statement; capacity checks in 64 bits; element constructors throw where a countdown (fuse) says
* Proof: each call refines a list operation from every valid state (induction over the loops); histories by an invariant; refutations hold for every state of a described kind
* Result: Along the same histories as C01: never undefined behaviour, exactly the first size() slots are alive, and destruction leaves no object.
* Theorems: `C02_static_vector_lifetimes`

### C03 static_vector: erasing or inserting an empty range changes nothing — partial

erase(it, it) and insert(it, 0, v) / insert(it, first, first) return it and leave the vector's elements and their lifetimes untouched, for every iterator it of the vector.

* Modelled: static_vector.hpp: the storage as slots which are raw or hold an object; every loop of grow_at, shrink_at, the insertions, erase, assign, resize, swap and the copies statement by statement; capacity checks in 64 bits; element constructors throw where a countdown (fuse) says
* Proof: each call refines a list operation from every valid state (induction over the loops); histories by an invariant; refutations hold for every state of a described kind
* Result: False for erase(it, it) before the end: undefined behaviour in every state (_refuted). Proved for empty insertions and for an empty erase at the end.
* Theorems: `C03_static_vector_empty_erase_refuted`, `C03_static_vector_empty_insert_partial`, `C03_static_vector_empty_erase_partial`

### C04 static_vector rejects every over-capacity request — partial

insert(pos, n, v) throws out_of_range and leaves the vector unchanged whenever size()+n (as a mathematical integer) exceeds the capacity, for every 64-bit n.

* Modelled: static_vector.hpp: the storage as slots which are raw or hold an object; every loop of grow_at, shrink_at, the insertions, erase, assign, resize, swap and the copies statement by statement; capacity checks in 64 bits; element constructors throw where a countdown (fuse) says
* Proof: each call refines a list operation from every valid state (induction over the loops); histories by an invariant; refutations hold for every state of a described kind
* Result: False when size() + count wraps around 2^64: the check passes and memory is corrupted (_refuted). Proved whenever the sum does not wrap.
* Theorems: `C04_static_vector_over_capacity_refuted`, `C04_static_vector_over_capacity_partial`

### C05 static_vector: exceptions from element constructors leave a valid vector — partial

If an element's constructor throws during a call, then after the exception the live elements are still exactly the first size() slots (so destruction is safe); for push_back and emplace_back the contents are moreover unchanged.

* Modelled: static_vector.hpp: the storage as slots which are raw or hold an object; every loop of grow_at, shrink_at, the insertions, erase, assign, resize, swap and the copies statement by statement; capacity checks in 64 bits; element constructors throw where a countdown (fuse) says
* Proof: each call refines a list operation from every valid state (induction over the loops); histories by an invariant; refutations hold for every state of a described kind
* Result: False for the insertions: a throwing construction leaves a hole in the range and destruction is undefined (_refuted). Proved for all other calls, push_back strongly.
* Theorems: `C05_static_vector_insert_exception_refuted`, `C05_static_vector_exceptions_partial`, `C05_static_vector_push_back_strong_partial`

### C06 static_vector: inserting a copy of one of its own elements — partial

v.insert(pos, v[k]) inserts the value v[k] had before the call, as std::vector guarantees.

* Modelled: static_vector.hpp: the storage as slots which are raw or hold an object; every loop of grow_at, shrink_at, the insertions, erase, assign, resize, swap and the copies statement by statement; capacity checks in 64 bits; element constructors throw where a countdown (fuse) says
* Proof: each call refines a list operation from every valid state (induction over the loops); histories by an invariant; refutations hold for every state of a described kind
* Result: False for insert(pos, v[k]) with k >= pos: undefined or the wrong element (_refuted gives the full characterisation). Proved for push_back, resize and k < pos.
* Theorems: `C06_static_vector_insert_own_refuted`, `C06_static_vector_push_back_own_partial`, `C06_static_vector_resize_own_partial`

### C07 small_vector behaves as a sequence — proved

For every history of valid calls (construct, assign, push/emplace_back, pop_back, insert, emplace, erase, resize, reserve, shrink_to_fit, revert_to_static, clear, copy, move) a small_vector<T,S,R> holds exactly the sequence the same calls give on a plain list, whatever buffer it currently uses; invalid positions, inverted ranges and pop_back on empty throw out_of_range and change nothing. (Empty insertions and erases before the end: C12; arguments referring to own elements: C13; exceptions from elements or the allocator: C14.)

* Modelled: small_vector.hpp: as static_vector, with a heap of blocks (allocate, deallocate with the capacity), the static buffer, choose_data, take_impl, the growth loop in 64 bits; allocations fail above a limit (any limit; as a call allocates at most once, this covers an allocation failing at any point)
* Proof: refinement per call from every valid state, invariant over histories of any number of vectors
* Result: Any number of vectors, any history including copy/move assignment, reserve, shrink_to_fit and revert_to_static. Empty insertions/erases before the end are outside the history condition (C12); the allocator can serve 1.5 times each size reached; StaticCapacity > 0.
* Theorems: `C07_small_vector_histories`, `C07_small_vector_call`, `C07_small_vector_copy_construct`, `C07_small_vector_move_construct`, `C07_small_vector_equality`

### C08 small_vector object lifetimes — proved

In every such history no element is constructed over a live one or used/destroyed while not alive, and the live elements are exactly the size() elements of the current buffer.

* Modelled: small_vector.hpp: as static_vector, with a heap of blocks (allocate, deallocate with the capacity), the static buffer, choose_data, take_impl, the growth loop in 64 bits; allocations fail above a limit (any limit; as a call allocates at most once, this covers an allocation failing at any point)
* Proof: refinement per call from every valid state, invariant over histories of any number of vectors
* Result: Along the histories of C07: never undefined behaviour, and what is alive is exactly the size() elements of the current buffer.
* Theorems: `C08_small_vector_lifetimes`

### C09 small_vector storage is balanced — proved

Every buffer obtained from the allocator is returned to it exactly once, with the capacity it was requested with and without live elements in it; between calls the vector owns at most one dynamic buffer, and after destruction none.

* Modelled: small_vector.hpp: as static_vector, with a heap of blocks (allocate, deallocate with the capacity), the static buffer, choose_data, take_impl, the growth loop in 64 bits; allocations fail above a limit (any limit; as a call allocates at most once, this covers an allocation failing at any point)
* Proof: refinement per call from every valid state, invariant over histories of any number of vectors
* Result: Along the histories of C07: deallocate always gets a live block of the right capacity without objects in it; at most one dynamic block is held; the destructor returns it.
* Theorems: `C09_small_vector_storage`

### C10 small_vector::revert_to_static tells the truth — partial

revert_to_static() returns true if and only if the vector is in its static buffer afterwards, and it does move to the static buffer whenever size() does not exceed the static capacity.

* Modelled: small_vector.hpp: as static_vector, with a heap of blocks (allocate, deallocate with the capacity), the static buffer, choose_data, take_impl, the growth loop in 64 bits; allocations fail above a limit (any limit; as a call allocates at most once, this covers an allocation failing at any point)
* Proof: refinement per call from every valid state, invariant over histories of any number of vectors
* Result: False when size() == StaticCapacity while dynamic: answers true and stays dynamic (_refuted). _partial characterises the answer and the resulting buffer exactly for all states.
* Theorems: `C10_revert_to_static_refuted`, `C10_revert_to_static_partial`, `C10_shrink_to_fit`

### C11 small_vector capacity guarantees — partial

size() <= capacity() always; after reserve(n) the capacity is at least n and while no call reduces the size, insertions that keep size() <= n do not move the elements.

* Modelled: small_vector.hpp: as static_vector, with a heap of blocks (allocate, deallocate with the capacity), the static buffer, choose_data, take_impl, the growth loop in 64 bits; allocations fail above a limit (any limit; as a call allocates at most once, this covers an allocation failing at any point)
* Proof: refinement per call from every valid state, invariant over histories of any number of vectors
* Result: False with RevertToStaticBelow: push_back after reserve(n) may go back to the static buffer and lose the capacity (_refuted). Proved: reserve gives the capacity; insertions that fit stay in place when static or when the new size is at least RevertToStaticBelow.
* Theorems: `C11_reserve_refuted`, `C11_reserve_partial`, `C11_push_back_in_place_partial`, `C11_insert_in_place_partial`

### C12 small_vector: erasing or inserting an empty range changes nothing — partial

erase(it, it) and insertion of zero elements at it return it and leave elements and lifetimes untouched.

* Modelled: small_vector.hpp: as static_vector, with a heap of blocks (allocate, deallocate with the capacity), the static buffer, choose_data, take_impl, the growth loop in 64 bits; allocations fail above a limit (any limit; as a call allocates at most once, this covers an allocation failing at any point)
* Proof: refinement per call from every valid state, invariant over histories of any number of vectors
* Result: False before the end when the elements stay in place: undefined behaviour in every such state (_refuted). Proved in the remaining cases (at the end; when the elements move back to the static buffer).
* Theorems: `C12_small_vector_empty_insert_refuted`, `C12_small_vector_empty_erase_refuted`, `C12_small_vector_empty_partial`

### C13 small_vector: adding a copy of one of its own elements — partial

push_back(v[k]), insert(pos, v[k]) and resize(n, v[k]) use the value v[k] had before the call, as std::vector guarantees.

* Modelled: small_vector.hpp: as static_vector, with a heap of blocks (allocate, deallocate with the capacity), the static buffer, choose_data, take_impl, the growth loop in 64 bits; allocations fail above a limit (any limit; as a call allocates at most once, this covers an allocation failing at any point)
* Proof: refinement per call from every valid state, invariant over histories of any number of vectors
* Result: False whenever the call relocates, and for insert with k >= pos (_refuted, for every such state). Proved for push_back, resize and k < pos in place.
* Theorems: `C13_small_vector_push_back_own_refuted`, `C13_small_vector_insert_own_refuted`, `C13_small_vector_resize_own_refuted`, `C13_small_vector_push_back_own_partial`, `C13_small_vector_resize_own_partial`, `C13_small_vector_insert_own_in_place_partial`

### C14 small_vector: exceptions from element constructors leave a valid vector — partial

If an element constructor throws during push_back, insert or assign the vector can still be destroyed safely: all its size() elements are alive and its buffer pointers agree.

* Modelled: small_vector.hpp: as static_vector, with a heap of blocks (allocate, deallocate with the capacity), the static buffer, choose_data, take_impl, the growth loop in 64 bits; allocations fail above a limit (any limit; as a call allocates at most once, this covers an allocation failing at any point)
* Proof: refinement per call from every valid state, invariant over histories of any number of vectors; for every call the number of constructions is counted exactly (the same calls with and without a fuse are compared), and the state at each throwing construction is computed
* Result: False for every call which constructs elements, at every construction which throws (push_back, insert of one, several or a range, resize; assign and copy assignment into another buffer): destruction afterwards is undefined, from every state; also when the allocation of an assignment fails and there were elements. Proved: the number of constructions of every call exactly, assignments in place leave the elements assigned so far, every other exception (failed allocations, bad positions) changes nothing in any call but assignments, calls with fewer constructions than the throwing one behave as usual.
* Theorems: `C14_small_vector_every_throw_partial`, `C14_small_vector_no_throw_partial`, `C14_small_vector_copy_assign_throw_partial`, `C14_small_vector_other_exceptions_partial`, `C14_small_vector_push_back_throw_refuted`, `C14_small_vector_insert_throw_refuted`, `C14_small_vector_assign_throw_refuted`, `C14_small_vector_assign_alloc_refuted`, `C14_small_vector_assign_in_place_partial`, `C14_small_vector_push_back_alloc_partial`, `C14_small_vector_insert_alloc_partial`, `C14_small_vector_reserve_alloc_partial`

### C15 Growth policy arithmetic — proved

For every current capacity >= 1 and every request up to (2^64-1)/3 the capacity chosen by a growing small_vector or pod_vector is reached in finitely many steps, is at least the request, and exceeds it by at most half of it plus one, in 64-bit arithmetic.

* Modelled: small_vector.hpp 967-973, pod_vector.hpp 665-671: the loop in 64-bit arithmetic
* Proof: induction on the distance to the request
* Result: Proved for small_vector's loop and for pod_vector's get_new_capacity, with 64-bit wrap-around explicit; also shown: from capacity 0 the loop never ends (pod_vector avoids that case).
* Theorems: `C15_pod_growth`, `C15_growth`, `C15_growth_from_zero`

### C16 pod_vector behaves as a sequence — proved

For every history of valid calls (resize(n, v) of a non-empty vector is C18) pod_vector holds exactly the sequence the same calls give on a plain list (elements added by emplace_back() with no value are unspecified but stable).

* Modelled: pod_vector.hpp: byte-addressed blocks from an adversarial allocator (addresses, expand's answer, contents of new memory are arbitrary); memmove, memcpy, memset with their preconditions
* Proof: refinement from bytes to lists of elements, invariant over histories of any number of vectors
* Result: Any number of vectors over one byte-level memory, any history of calls incl. copy/move assignment and swap, any allocator answers. Outside the history condition: resize(n, v) of a non-empty vector (C18), sizes of 2^63 bytes and more, failing allocations.
* Theorems: `C16_pod_vector_histories`, `C16_equality`

### C17 pod_vector never touches memory outside its block — proved

No call reads or writes outside the current allocation, and every allocation is freed exactly once through the address the allocator returned.

* Modelled: pod_vector.hpp: byte-addressed blocks from an adversarial allocator (addresses, expand's answer, contents of new memory are arbitrary); memmove, memcpy, memset with their preconditions
* Proof: refinement from bytes to lists of elements, invariant over histories of any number of vectors
* Result: Along the histories of C16: no call is undefined (out-of-block access or pointer, overlapping memcpy, wrong free), and destruction frees every block.
* Theorems: `C17_pod_vector_memory`

### C18 pod_vector::resize(n, v) writes only the new elements — partial

resize(n, v) sets the elements from the old size to n to v, keeps the others and writes nothing else.

* Modelled: pod_vector.hpp: byte-addressed blocks from an adversarial allocator (addresses, expand's answer, contents of new memory are arbitrary); memmove, memcpy, memset with their preconditions
* Proof: refinement from bytes to lists of elements, invariant over histories of any number of vectors
* Result: False for every allocator and type: after assign(n, x), resize(n, x) writes past the block (_refuted). Proved only where size() + n fits the capacity.
* Theorems: `C18_resize_val_refuted`, `C18_resize_val_overrun_refuted`, `C18_resize_val_partial`

### C19 pod_vector aligned storage — proved

data() is always aligned to alignof(T), lies with capacity()*sizeof(T) bytes inside the block obtained from the allocator, and the address passed back on free is the one obtained, for every address the allocator may return.

* Modelled: pod_vector.hpp: byte-addressed blocks from an adversarial allocator (addresses, expand's answer, contents of new memory are arbitrary); memmove, memcpy, memset with their preconditions
* Proof: refinement from bytes to lists of elements, invariant over histories of any number of vectors
* Result: Along the histories of C16, for every address the allocator may give that has its own alignment.
* Theorems: `C19_pod_vector_storage`

### C20 pod_vector recasts — partial

recast_copy_from and recast_take_from give a vector whose bytes are the source's bytes (truncated to whole elements of the new type), whose storage is aligned for the new type, and whose capacity fits the block; take leaves the source empty.

* Modelled: pod_vector.hpp: byte-addressed blocks from an adversarial allocator (addresses, expand's answer, contents of new memory are arbitrary); memmove, memcpy, memset with their preconditions
* Proof: refinement from bytes to lists of elements, invariant over histories of any number of vectors
* Result: recast_copy_from proved. recast_take_from proved for allocator-aligned types, equal alignments, or lower alignment without expand; otherwise misaligned data() or capacity past the block (_refuted).
* Theorems: `C20_recast_copy`, `C20_recast_take_partial`, `C20_recast_take_misaligned_refuted`, `C20_recast_take_expand_refuted`

### C21 pod_vector: adding a copy of one of its own elements — partial

push_back(v[k]) and insert(pos, v[k]) store the value v[k] had before the call.

* Modelled: pod_vector.hpp: byte-addressed blocks from an adversarial allocator (addresses, expand's answer, contents of new memory are arbitrary); memmove, memcpy, memset with their preconditions
* Proof: refinement from bytes to lists of elements, invariant over histories of any number of vectors
* Result: False when the call relocates (use after free) and for insert(pos, v[i]) with i > pos (_refuted). Proved for push_back with room or early load, and insert with room and i < pos.
* Theorems: `C21_push_back_own_partial`, `C21_insert_own_partial`, `C21_insert_own_shifted_refuted`, `C21_own_relocated_refuted`

### C22 flat_map is a finite map — proved

For any strict weak order on keys and any history of insert, emplace, operator[], erase (by key, by position), at, find, count and clear, a flat_map gives the same answers as a finite map over equivalence classes of keys: insert never overwrites, operator[] creates a default value only if absent, at throws out_of_range exactly for absent keys.

* Modelled: flat_map.hpp and flat_set.hpp once, over a projection to the key and a record of container operations; search loops of lower_bound etc. step by step; std::sort is any function with the standard's promise
* Proof: invariant (strictly ascending) and refinement to a finite map over equivalence classes of any strict weak order; std::vector's list and static_vector's model are proved to be containers in that sense
* Result: Any number of maps, any comparators, any conforming container; search loops modelled step by step, answers (iterators too) compared with a finite map. Comparator and element constructors do not throw; self-swap and self-move are left out.
* Theorems: `C22_flat_map_histories`, `C22_std_vector_conforms`, `C22_flat_map_empty`, `C22_flat_map_equality`

### C23 flat_map and flat_set iterate in strictly ascending order — proved

After construction from any sequence and after every call the elements are strictly ascending under the comparator: sorted and without two equivalent keys.

* Modelled: flat_map.hpp and flat_set.hpp once, over a projection to the key and a record of container operations; search loops of lower_bound etc. step by step; std::sort is any function with the standard's promise
* Proof: invariant (strictly ascending) and refinement to a finite map over equivalence classes of any strict weak order; std::vector's list and static_vector's model are proved to be containers in that sense
* Result: After every legal history and after construction from any sequence.
* Theorems: `C23_flat_map_ascending`, `C23_flat_set_ascending`, `C23_construction_ascending`

### C24 flat_map/flat_set bounds — proved

lower_bound(k) is the first element not less than k, upper_bound(k) the first greater than k, equal_range(k) is exactly the elements equivalent to k (at most one), for every key and heterogeneous key type consistent with the order.

* Modelled: flat_map.hpp and flat_set.hpp once, over a projection to the key and a record of container operations; search loops of lower_bound etc. step by step; std::sort is any function with the standard's promise
* Proof: invariant (strictly ascending) and refinement to a finite map over equivalence classes of any strict weak order; std::vector's list and static_vector's model are proved to be containers in that sense
* Result: Lookup keys of any type ordered consistently with the keys; at most one element when the lookup key stands for a key.
* Theorems: `C24_bounds`, `C24_equal_range_one`

### C25 Construction of flat containers from a sequence — proved

Building a flat_map or flat_set from any sequence keeps exactly one representative, taken from the sequence, of each class of equivalent keys, for every conforming std::sort.

* Modelled: flat_map.hpp and flat_set.hpp once, over a projection to the key and a record of container operations; search loops of lower_bound etc. step by step; std::sort is any function with the standard's promise
* Proof: invariant (strictly ascending) and refinement to a finite map over equivalence classes of any strict weak order; std::vector's list and static_vector's model are proved to be containers in that sense
* Result: std::sort is any function with the standard's promise; std::unique is modelled element by element.
* Theorems: `C25_construction`

### C26 flat_set is a finite set — proved

For any strict weak order and any history of insert, emplace, erase, find, count and clear a flat_set answers as a finite set of equivalence classes, insert keeping the element already present.

* Modelled: flat_map.hpp and flat_set.hpp once, over a projection to the key and a record of container operations; search loops of lower_bound etc. step by step; std::sort is any function with the standard's promise
* Proof: invariant (strictly ascending) and refinement to a finite map over equivalence classes of any strict weak order; std::vector's list and static_vector's model are proved to be containers in that sense
* Result: As C22, on the part of the model shared by flat_set and flat_map.
* Theorems: `C26_flat_set_histories`, `C26_flat_set_equality`

### C27 flat_map over a bounded container — proved

A flat_map over static_vector throws and stays unchanged when a new key is inserted into a full container, and still accepts insertions of present keys.

* Modelled: flat_map.hpp and flat_set.hpp once, over a projection to the key and a record of container operations; search loops of lower_bound etc. step by step; std::sort is any function with the standard's promise
* Proof: invariant (strictly ascending) and refinement to a finite map over equivalence classes of any strict weak order; std::vector's list and static_vector's model are proved to be containers in that sense
* Result: static_vector's model is proved to be a conforming bounded container, so C22-C26 hold over it; the exact state is unchanged by the throw.
* Theorems: `C27_static_vector_conforms`, `C27_flat_map_over_static_vector`

### C28 dynamic_bitset is a sequence of booleans — proved

test, set, reset, flip, push_back, resize, assign, append and iteration agree with a list of booleans for every word width; bits beyond the old size are false after growing, whatever the history. (A bitset appended to itself: C58; sizes near the top of size_t: C59.)

* Modelled: dynamic_bitset.hpp: list of words of W bits, masks, shifts, integer promotion, word_size in 64 bits
* Proof: refinement to lists of booleans by testing bits
* Result: Any number of bitsets, any word width > 0, any history. The buffer is std::vector; memory exhaustion is not modelled.
* Theorems: `C28_bitset_histories`, `C28_bitset_empty`

### C29 dynamic_bitset all/any/none — partial

all() is true iff every one of the (at least one) bits is true, any() iff some bit is, none() iff no bit is, for every word type and regardless of stale bits beyond the size.

* Modelled: dynamic_bitset.hpp: list of words of W bits, masks, shifts, integer promotion, word_size in 64 bits
* Proof: refinement to lists of booleans by testing bits
* Result: any and none proved. all() is false with uint8_t/uint16_t words as soon as one word is full (_refuted, every such state); proved for words of 32 bits and more, or when no word is full.
* Theorems: `C29_any_none`, `C29_all_partial`, `C29_all_narrow_refuted`

### C30 dynamic_bitset::copy copies bit ranges — partial

copy(from, to, src) makes bits [from,to) equal to the to-from bits starting at src and changes no other bit.

* Modelled: dynamic_bitset.hpp: list of words of W bits, masks, shifts, integer promotion, word_size in 64 bits
* Proof: refinement to lists of booleans by testing bits
* Result: For bits of another bitset. False when the last partial word needs bits of two source words: they come out false (_refuted, every such case). Proved in all other cases.
* Theorems: `C30_copy_partial`, `C30_copy_tail_refuted`

### C31 mem_ostreambuf collects what is written — partial

For any sequence of character and block writes and any initial reserve, get_container() returns exactly the concatenation of the written data and leaves the buffer empty and reusable, for every suitable container.

* Modelled: mem_streambuf.hpp, rstream.hpp over std::streambuf's pointers (int pbump), any container with a growth policy
* Proof: refinement to a file (text and position) over histories
* Result: Any container policy, reserve and sequence of writes, clears and get_containers; impossible sizes throw. False after get_container() when a new container's data() is not null, and for blocks of 2^31 characters (_refuted).
* Theorems: `C31_writes_partial`, `C31_reserve_throws`, `C31_after_get_refuted`, `C31_huge_block_refuted`

### C32 mem_ostreambuf put positions — partial

seeking relative to the beginning, current position or end moves the put position to the corresponding offset in the written data, and later writes overwrite from there.

* Modelled: mem_streambuf.hpp, rstream.hpp over std::streambuf's pointers (int pbump), any container with a growth policy
* Proof: refinement to a file (text and position) over histories
* Result: Seeks from the beginning and the current position, below 2^31: the buffer is a file. Seeking from the end uses the spare capacity as data, and positions from 2^31 on are undefined (_refuted).
* Theorems: `C32_seeks_partial`, `C32_end_refuted`, `C32_far_refuted`

### C33 mem_istreambuf reads exactly its buffer — partial

Any sequence of reads and seeks returns the bytes of the given memory at the current position, clips at the end and never accesses memory outside it.

* Modelled: mem_streambuf.hpp, rstream.hpp over std::streambuf's pointers (int pbump), any container with a growth policy
* Proof: refinement to a file (text and position) over histories
* Result: Seeks within the memory proved. A seek outside is accepted and the next block read is out of bounds (_refuted).
* Theorems: `C33_reads_partial`, `C33_outside_refuted`

### C34 redirect_rstream restores the position — partial

When a redirect_rstream is destroyed the wrapped stream is at the position it had when the redirect was created, whatever was read through the redirect.

* Modelled: mem_streambuf.hpp, rstream.hpp over std::streambuf's pointers (int pbump), any container with a growth policy
* Proof: refinement to a file (text and position) over histories
* Result: Restored whenever the stream has not failed; reads right for any nesting within the contents. A read through the redirect which hits the end leaves the stream failed at its end (_refuted).
* Theorems: `C34_restored_partial`, `C34_within_partial`, `C34_end_refuted`

### C35 expected holds exactly one alternative — partial

Through construction, move, assignment and destruction an expected (all specialisations) has exactly one of value/error alive, equal to the last one given, reports it by has_value, and never touches a member that is not alive; accessors and value_or return that alternative.

* Modelled: expected.hpp: primary template and all five specialisations as unions with alive flags, any number of objects
* Proof: invariant over histories and refinement to an optional sum
* Result: All six specialisations, any number of objects, any history. False for expected<void, E>: assigning a value to a value uses the dead error (_refuted, every such state). The throwing copy is C36, emplace of the own value C62.
* Theorems: `C35_histories_partial`, `C35_void_assign_refuted`

### C36 expected<T,void> copy assignment and exceptions — partial

If copying the value throws during copy assignment of an optional-like expected, the target remains in a state that reports truthfully whether it has a value.

* Modelled: expected.hpp: primary template and all five specialisations as unions with alive flags, any number of objects
* Proof: invariant over histories and refinement to an optional sum
* Result: False when the target has no value: it then reports one that was never constructed (_refuted). Proved in the other three combinations.
* Theorems: `C36_copy_assign_partial`, `C36_no_value_refuted`

### C37 any stores an independent copy — partial

An any built or assigned from an object holds its own copy: copying, copy-assigning (also from itself) and moving anys preserve the stored value and later changes to the original object do not affect it.

* Modelled: any.hpp: blocks tagged with allocator, size, alignment and content, any number of anys
* Proof: refinement to values over histories, balance invariant
* Result: Proved for all histories of any number of anys, allocators, throwing constructors and allocations which never store an lvalue: answers are those of anys holding values of their own, and an any keeps its value until it is itself changed. Refuted: an any made from or assigned an lvalue holds a reference (any_cast sees later changes; UB after the variable's end); copy assignment to itself leaves it empty.
* Theorems: `C37_independent_partial`, `C37_untouched_partial`, `C37_lvalue_refuted`, `C37_self_copy_refuted`

### C38 any storage is balanced — partial

Every block an any obtains is released exactly once, with the same size and alignment and through an allocator equal to the one that provided it, for every history, including throwing constructors.

* Modelled: any.hpp: blocks tagged with allocator, size, alignment and content, any number of anys
* Proof: refinement to values over histories, balance invariant
* Result: Proved for all legal histories including faults and references: no wrong deallocation, blocks are exactly those of the held objects, none left when the anys are gone. Refuted: move assignment between unequal allocators transfers the block but not the allocator, so the next release is UB. any has no swap of its own.
* Theorems: `C38_balanced_partial`, `C38_move_assign_refuted`

### C39 any_cast is type safe — proved

any_cast to T succeeds exactly when the any holds a T, yields the stored object, and otherwise gives null (pointer form) or throws bad_cast (value form).

* Modelled: any.hpp: blocks tagged with allocator, size, alignment and content, any number of anys
* Proof: refinement to values over histories, balance invariant
* Result: Proved for every state, stored and requested type, in the pointer, value and moving forms (for a held reference: while its variable exists).
* Theorems: `C39_any_cast`

### C40 span slicing stays inside — partial

first, last, subspan, remove_prefix and remove_suffix give views of elements of the original view only: subspan(off,n) shows elements off..min(off+n,size), clipped, for all off and n; last(n) shows the last min(n,size) elements.

* Modelled: span.hpp, stride_span.hpp, poly_span.hpp, memory_view.hpp: 64-bit address arithmetic over a memory
* Proof: arithmetic modulo 2^64; refinement of sequences of slices to list slices
* Result: Proved for every sequence of first, last, subspan, remove_prefix, remove_suffix whose arguments do not wrap: size, empty, operator[], front, back, iteration in both directions and as_bytes show exactly the sliced list. Refuted for all views: subspan with an offset whose address wraps, and last of more than the size, give views which begin before the original.
* Theorems: `C40_slices_partial`, `C40_null`, `C40_slices_not_null`, `C40_subspan_refuted`, `C40_last_refuted`

### C41 stride_span/poly_span iterators are random access — partial

For iterators a, b of one strided view: (a+n)-a == n, a-b == -(b-a), a[n] == *(a+n), a<b iff b-a>0, and begin+i refers to the element i strides on, for every stride.

* Modelled: span.hpp, stride_span.hpp, poly_span.hpp, memory_view.hpp: 64-bit address arithmetic over a memory
* Proof: arithmetic modulo 2^64; refinement of sequences of slices to list slices
* Result: Proved: dereference, ++, --, +=, -=, comparison, and differences a-b with a not before b (all differences for stride 1). Refuted for every stride >= 2: the difference of an iterator and a later one is a huge positive number (ptrdiff_t divided by size_t). t_iterator has no operator[] and no n + a, so those expressions do not compile.
* Theorems: `C41_iterators_partial`, `C41_one_byte_partial`, `C41_difference_refuted`

### C42 stride_span views stay inside the array — partial

make_stride_span_from_array(arr, len, stride, offset) shows exactly the elements offset, offset+stride, ... below len; subspan/first/last of a strided view show the corresponding elements, clipped.

* Modelled: span.hpp, stride_span.hpp, poly_span.hpp, memory_view.hpp: 64-bit address arithmetic over a memory
* Proof: arithmetic modulo 2^64; refinement of sequences of slices to list slices
* Result: Proved: make_stride_span_from_array shows every k-th element, member and base views show the fields, all sequences of slices, poly_span shows the results of its function. Refuted: strides for which the count or the stride in bytes wraps, and last of more than there is (an empty view).
* Theorems: `C42_from_array_partial`, `C42_slices_partial`, `C42_member_view`, `C42_from_buf`, `C42_huge_stride_refuted`, `C42_zero_stride_refuted`, `C42_last_refuted`, `C42_poly_span_partial`

### C43 memory_view slicing and byte sizes — proved

Any sequence of slice, remove_prefix, remove_suffix and reset(size) of a memory_view shows exactly the elements the same sequence of operations on the list of elements leaves (slice clipping offset and count), through operator[], back and iteration; make_memory_view of a container shows exactly its elements from the offset on.

* Modelled: span.hpp, stride_span.hpp, poly_span.hpp, memory_view.hpp: 64-bit address arithmetic over a memory
* Proof: arithmetic modulo 2^64; refinement of sequences of slices to list slices
* Result: Proved in full for every sequence of slices.
* Theorems: `C43_memory_view`, `C43_make_memory_view`

### C44 strutil prefixes and suffixes — proved

starts_with/ends_with hold iff the text is prefix+rest / rest+suffix; remove_prefix_all/remove_suffix_all terminate and return the text with all leading/trailing repetitions removed so that none remains.

* Modelled: strutil.hpp: views into memory, loops with fuel
* Proof: induction on the text; termination shown by giving enough fuel for every input
* Result: Proved in full, including termination and that the returned view is the right part of the original.
* Theorems: `C44_starts_ends`, `C44_remove_all`, `C44_make_string_view`

### C45 qalgorithm erases and searches — proved

erase_all(_if) removes exactly the matching elements, keeps the others in order and returns the number removed; erase_first(_if) removes only the first match and reports it; qfind/pfind/qall_of/qany_of/qnone_of agree with quantification over the elements.

* Modelled: qalgorithm.hpp: std::find/remove as loops, values by reference possibly inside the container
* Proof: induction on the container
* Result: Proved for every content, predicate and (separate) value; what a throwing predicate leaves is proved exactly. Values inside the container are C64.
* Theorems: `C45_find`, `C45_quantifiers`, `C45_erase`, `C45_throwing`

### C46 time_t::strftime returns the formatted text — partial

strftime(format, tm) returns exactly the text std::strftime produces for that format, however long or short it is.

* Modelled: time_t.hpp: the doubling loop of strftime, duration_cast with its intermediate overflow
* Proof: well-founded argument on the buffer size; arithmetic over Z
* Result: Proved for every non-empty text for which buffers of up to twice its length can be allocated. Refuted for the empty text: std::strftime returns 0 for it, so the buffer is doubled until allocation or the maximal size fails.
* Theorems: `C46_strftime_partial`, `C46_empty_text_refuted`

### C47 time_t arithmetic — partial

Whenever the exact results are representable in 64 bits, time_t plus and minus durations and the difference of time_t values are consistent: (t+d)-t is d truncated to whole seconds, (t+d)-d == t, and comparison is the order of the seconds.

* Modelled: time_t.hpp: the doubling loop of strftime, duration_cast with its intermediate overflow
* Proof: well-founded argument on the buffer size; arithmetic over Z
* Result: Proved for signed integral durations whose count times the numerator of the period is representable. Refuted for periods n/m with n, m > 1: duration_cast overflows although the exact result is representable; and for durations counted in std::uint64_t, from 2^63 seconds on (overflow) and where the product wraps (silently too small a result, for every such duration); proved for those otherwise. Floating point representations are not modelled.
* Theorems: `C47_arithmetic_partial`, `C47_difference`, `C47_period_refuted`, `C47_unsigned_partial`, `C47_unsigned_seconds_refuted`, `C47_unsigned_wraps_refuted`

### C48 generator yields in order, once, and then ends — partial

For every coroutine body next() returns its yielded values one by one in order, then rethrows the body's exception if it threw, and after that always returns empty; a range-for visits the same values; the coroutine frame is destroyed exactly once under any moves, resets and assignments.

* Modelled: generator.hpp: any coroutine body as a machine, frames and handles
* Proof: refinement to the rest of the body; invariant for ownership of frames
* Result: Proved for every coroutine body and every history of allowed calls (refinement to 'a generator holds the rest of its body'), including exceptions, moves, resets and frame ownership; next in order and ever empty afterwards; range-for on an unfinished generator. Refuted: self move assignment keeps the handle of the destroyed frame, range-for on a finished generator resumes it (UB).
* Theorems: `C48_histories_partial`, `C48_next_in_order`, `C48_range_for_partial`, `C48_self_move_refuted`, `C48_finished_range_refuted`

### C49 atomic_relaxed_counter loses no update — partial

Whatever the interleaving of increments, decrements and additions by any number of threads, the final value is the initial value plus the sum of all changes modulo the type's range, and each ++ returns a distinct value when only increments happen (up to wrap).

* Modelled: atomic.hpp on the machine of ConcModel.v
* Proof: linearizability by a step-by-step simulation, counting invariant
* Result: Proved for every number of threads, every program and schedule and every integral type: linearizable to one call at a time, the sum modulo the range, distinct results; no UB for unsigned or narrow types or when sums stay in range. Refuted: ++x, --x, += and -= of a signed type from int on overflow (UB) where std::atomic wraps; a counter assigned to itself loses a concurrent update. The steps are interleaved here; C85 has the C++ memory model, under which an unsynchronized load may be late.
* Theorems: `C49_linearizable_partial`, `C49_no_lost_update_partial`, `C49_distinct_partial`, `C49_defined_partial`, `C49_overflow_refuted`, `C49_self_assign_refuted`

### C50 atomic_shared_ptr_storage operations are linearizable — proved

Under every interleaving of load, store, exchange and compare_exchange by any number of threads every call takes effect atomically at one point between its start and end, and reference counts are exact: the stored object is never freed while stored or held by a loaded pointer, and is freed when neither.

* Modelled: atomic_shared_ptr_storage.hpp: spin lock, copies, swaps and releases of shared pointers as separate atomic steps, destructors which may use the storage again
* Proof: invariants of all reachable states; simulation to the atomic specification; the deadlock is shown for all continuations
* Result: Proved for every number of threads, calls and schedules: linearizable to 'holds one pointer' (compare_exchange by address), use counts exact, objects destroyed at most once, never while owned, and all without owner destroyed when no call is under way; no data race. std::shared_ptr itself is modelled by its specification. The C++20 branch is std::atomic and not modelled.
* Theorems: `C50_linearizable`, `C50_counts`, `C50_defined`

### C51 atomic_shared_ptr_storage never runs user code under its lock — partial

No destructor of a managed object runs while the storage's internal lock is held, so that an object's destructor may itself use the storage.

* Modelled: atomic_shared_ptr_storage.hpp: spin lock, copies, swaps and releases of shared pointers as separate atomic steps, destructors which may use the storage again
* Proof: invariants of all reachable states; simulation to the atomic specification; the deadlock is shown for all continuations
* Result: False as stated: a failing compare_exchange releases the old value of expect under the lock (refuted), and if that destructor uses the storage the thread spins for ever (refuted: in all continuations). Partial: it is the only case, nothing else is destroyed under the lock.
* Theorems: `C51_outside_lock_partial`, `C51_under_lock_refuted`, `C51_deadlock_refuted`

### C52 data_mutex guards data with its mutex — partial

Under every interleaving data is accessible only through a guard whose mutex is locked by that guard (exclusively, or shared for read-only access), each successful lock is undone exactly once, also through moves of guards and failed try-locks, and an exception from locking never unlocks a mutex that is not held.

* Modelled: data_mutex.hpp: locks, guards, moves of guards, accesses with duration, exceptions from locking
* Proof: invariants and simulation
* Result: Proved for every number of threads, schedules, guard histories with moves, elided or not, failed and spuriously failing try-locks, recursive or not, while locking does not throw: reads and writes linearizable, no race, one lock per guard that points, exclusivity, mutex free when no guard points. Refuted: lock() throwing unlocks a mutex not held (UB, or releases another guard's lock of a recursive mutex); try_lock() throwing reads an uninitialised pointer.
* Theorems: `C52_linearizable_partial`, `C52_defined_partial`, `C52_locked_partial`, `C52_exclusive_partial`, `C52_free_partial`, `C52_throw_refuted`, `C52_throw_unlocks_refuted`, `C52_try_throw_refuted`

### C53 strong_try_rec_mutex — partial

try_lock by a thread succeeds iff the mutex is free or already held by the same thread (never failing spuriously); it becomes free again exactly when the holder unlocked as many times as it locked; two threads never hold it at once.

* Modelled: mutex.hpp: std::mutex as specified, owner and depth as plain members
* Proof: invariants and simulation
* Result: Proved for every number of threads and schedule: linearizable to 'try_lock succeeds iff no other thread holds it', exclusion, freed after as many unlocks as locks, no race/assert/overflow, while the depth fits std::int_fast32_t. Refuted: one lock more than the depth can count is UB. std::mutex::lock throwing is not modelled.
* Theorems: `C53_linearizable_partial`, `C53_exclusion_partial`, `C53_defined_partial`, `C53_free_again_partial`, `C53_depth_refuted`

### C54 sentry runs its function exactly once — partial

The function given to make_sentry runs exactly once, when the last owner of it in a chain of moves is destroyed, also when the scope is left by an exception.

* Modelled: sentry.hpp and programs of blocks, new/delete, moves, throw, return, try
* Proof: induction over programs with an invariant on the trace
* Result: Proved for every program of blocks, new/delete, moves, throw, return, try (before and since C++17): a function runs exactly when the last owner in its chain of moves is destroyed, exactly once, also when left by an exception; terminate only if a function or its move throws. Refuted: if constructing m_func throws the function never runs; a throwing function terminates and the others do not run.
* Theorems: `C54_on_time_partial`, `C54_once_partial`, `C54_not_twice_partial`, `C54_scope_partial`, `C54_terminate_partial`, `C54_ctor_throws_refuted`, `C54_call_throws_refuted`

### C55 shared pointers made by helpers share ownership — proved

make_aliased(owner, p) is null when owner is empty and otherwise points to p and keeps owner's object alive; shared_from(p)/weak_from(p) point to p and share ownership with the pointer that owns the object (throwing bad_weak_ptr when there is none); the owned object is destroyed exactly once, when the last owner goes, whatever the history of copies and resets.

* Modelled: shared_from.hpp, make_ptr.hpp over std::shared_ptr with control blocks and two counts
* Proof: simulation to a specification with owners only, invariant on counts
* Result: Proved for every history of copies, moves, assignments, resets, aliasing, locks and the members of enable_shared_from, in C++14 and C++17: all outcomes as specified, no UB, each object destroyed exactly once, when its last owner goes, control blocks freed. Simplified: constructors do not throw, objects own nothing themselves, one thread; std::shared_ptr and enable_shared_from_this by their specification.
* Theorems: `C55_history`, `C55_destroyed_once`, `C55_blocks_freed`, `C55_every_call`

### C56 pmr_allocator object allocation — partial

allocate_object<U>(n) provides room for n objects for every n it accepts, new_object releases the memory if the constructor throws, delete_object destroys then releases with the same size and alignment.

* Modelled: pmr_allocator.hpp with resources, blocks and objects; byte counts in 64 bits
* Proof: refinement of histories to a bookkeeping specification
* Result: Proved for every history of calls on any number of allocators and resources, failing allocations and throwing constructors, while sizes fit 64 bits: room for n objects, no leak after a throwing constructor, objects destroyed before release, released once to the same resource with the same size and alignment. Refuted: for every n with n*sizeof(U) >= 2^64 allocate_object succeeds with too small a block and using it is UB. Constructors do not use the allocator in the model.
* Theorems: `C56_history_partial`, `C56_tidy_partial`, `C56_released_partial`, `C56_overflow_refuted`

### C57 throw_ex composes and throws — partial

A throw_ex statement throws an exception of the chosen type whose message is the concatenation of all streamed parts in order; only if another exception is already propagating does it terminate instead.

* Modelled: throw_ex.hpp, streams with failing state, programs of blocks, handlers and destructors
* Proof: induction over programs, comparison of two evaluations
* Result: Proved for all programs of blocks, handlers and destructors whose operands neither fail nor throw: message is the concatenation, terminate exactly while another exception propagates. Refuted: after an operand which sets failbit/badbit the later texts are missing; if the exception's constructor throws, another exception comes out.
* Theorems: `C57_programs_partial`, `C57_only_partial`, `C57_failing_operand_refuted`, `C57_constructor_refuted`

### C58 dynamic_bitset appended to itself — partial

b.append(b) doubles the sequence.

* Modelled: dynamic_bitset.hpp: list of words of W bits, masks, shifts, integer promotion, word_size in 64 bits
* Proof: refinement to lists of booleans by testing bits
* Result: False when the size is a multiple of the word width: undefined behaviour (_refuted). Proved otherwise.
* Theorems: `C58_self_append_partial`, `C58_self_append_refuted`

### C59 dynamic_bitset sizes — partial

A bitset constructed with or resized to any 64-bit size has a buffer with room for all its bits (or the call throws).

* Modelled: dynamic_bitset.hpp: list of words of W bits, masks, shifts, integer promotion, word_size in 64 bits
* Proof: refinement to lists of booleans by testing bits
* Result: False within a word width of 2^64: empty buffer with a huge size (_refuted). Proved for all other sizes.
* Theorems: `C59_size_partial`, `C59_size_refuted`

### C60 get_container after seeking back — partial

After any writes and seeks within the data, get_container() returns all the data written, wherever the put position is.

* Modelled: mem_streambuf.hpp, rstream.hpp over std::streambuf's pointers (int pbump), any container with a growth policy
* Proof: refinement to a file (text and position) over histories
* Result: False: everything after the put position is lost (_refuted). True with the position at the end.
* Theorems: `C60_get_after_seek_refuted`, `C60_get_at_end_partial`

### C61 unexpected(lvalue) does not change the lvalue — partial

Building an expected from unexpected(x) with an lvalue x leaves x unchanged.

* Modelled: expected.hpp: primary template and all five specialisations as unions with alive flags, any number of objects
* Proof: invariant over histories and refinement to an optional sum
* Result: False: x is moved from (_refuted). True when moving does not change the error.
* Theorems: `C61_unexpected_lvalue_refuted`, `C61_trivial_errors_partial`

### C62 emplace from the own value — partial

e.emplace(e.value()) leaves the expected with the value it had.

* Modelled: expected.hpp: primary template and all five specialisations as unions with alive flags, any number of objects
* Proof: invariant over histories and refinement to an optional sum
* Result: False for expected<T, void>: the constructor reads the destroyed value (_refuted). True for references and void.
* Theorems: `C62_own_value_refuted`, `C62_no_object_partial`

### C63 any can be given the object it holds — partial

Assigning to an any, or emplacing in it, from (a reference to) the object it holds leaves it with a copy of that object, without undefined behaviour.

* Modelled: any.hpp: blocks tagged with allocator, size, alignment and content, any number of anys
* Proof: refinement to values over histories, balance invariant
* Result: Refuted for every any which holds an object of its own: emplace reads the destroyed object, assignment stores a dangling reference. Proved for an any which holds a reference to a living variable.
* Theorems: `C63_own_object_refuted`, `C63_linked_partial`

### C64 qalgorithm with values inside the container — partial

qfind, pfind, erase_first and erase_all give the same result when the value passed by reference is (a part of) an element of the container as when it is a copy of it.

* Modelled: qalgorithm.hpp: std::find/remove as loops, values by reference possibly inside the container
* Proof: induction on the container
* Result: Proved for qfind, pfind, erase_first. Refuted for erase_all for every container in which the referenced element is the first match and the next one is kept: the value is overwritten by that one.
* Theorems: `C64_search_partial`, `C64_erase_all_refuted`

### C65 atomic_shared_ptr_storage compares as std::atomic<std::shared_ptr> does — partial

compare_exchange succeeds exactly when the stored and the expected pointer have the same address and the same owner, as with std::atomic<std::shared_ptr>, which the same header uses where it is available.

* Modelled: atomic_shared_ptr_storage.hpp: spin lock, copies, swaps and releases of shared pointers as separate atomic steps, destructors which may use the storage again
* Proof: invariants of all reachable states; simulation to the atomic specification; the deadlock is shown for all continuations
* Result: False as stated: == compares addresses only (refuted: not linearizable to the std::atomic specification). Partial: it is when every address has one owner.
* Theorems: `C65_as_std_partial`, `C65_owner_ignored_refuted`

### C66 enable_shared_from gives the managing pointer — partial

shared_from_this() and weak_from_this() of enable_shared_from return the managing pointer, type erased to void: the same address the owner holds.

* Modelled: shared_from.hpp, make_ptr.hpp over std::shared_ptr with control blocks and two counts
* Proof: simulation to a specification with owners only, invariant on counts
* Result: False as stated: the pointer is to the enable_shared_from base, not the managing one, if the base has another offset (refuted). Partial: it is the managing one when that base comes first.
* Theorems: `C66_first_base_partial`, `C66_other_base_refuted`

### C67 throw_ex can replace throw — partial

A program in which statements throw E(text) are replaced by throw_ex<E>{} << text does the same: the same exceptions reach the same handlers, in every block, handler and destructor.

* Modelled: throw_ex.hpp, streams with failing state, programs of blocks, handlers and destructors
* Proof: induction over programs, comparison of two evaluations
* Result: False as stated: in a destructor run by unwinding throw_ex terminates even inside a try block, and an operand whose evaluation (since C++17) or insertion throws terminates (refuted). Partial: equal to throw in all programs whose destructors do not use it and whose operands are quiet.
* Theorems: `C67_as_throw_partial`, `C67_unwinding_refuted`, `C67_inserter_refuted`, `C67_argument_refuted`

### C68 ufunction is the unique owner of its function — partial

After any history of constructions, moves, assignments and calls a ufunction calls the function last given to it, in the state earlier calls left it in; it is empty and throws bad_function_call otherwise; functions are not copied, have one owner and are destroyed exactly once, when it goes or is given another.

* Modelled: ufunction.hpp over std::function with places of function objects
* Proof: simulation over histories, counting argument for ownership
* Result: Proved for all histories over any number of ufunctions: outcomes as specified, one owner, released exactly once, no parameter or temporary left, while moving function objects does not throw and memory does not run out. Refuted: otherwise the noexcept constructor and assignment terminate. std::function by its specification (source of a move is empty); functions do not use the ufunction they are in.
* Theorems: `C68_history_partial`, `C68_every_call_partial`, `C68_released_once_partial`, `C68_no_leak_partial`, `C68_throws_refuted`

### C69 ufunction is equivalent to std::move_only_function — partial

As documented, ufunction is essentially equivalent to std::move_only_function: in particular one made of a null function pointer or of an empty function is empty.

* Modelled: ufunction.hpp over std::function with places of function objects
* Proof: simulation over histories, counting argument for ownership
* Result: False as stated: made of a null pointer to a function of another type or an empty std::function a ufunction says it is not empty, and calling the former is UB (refuted). Partial: equivalent for all other function objects, including null pointers of type F*.
* Theorems: `C69_as_move_only_partial`, `C69_wrapped_null_refuted`, `C69_null_call_refuted`

### C70 transparent_umap's overloads are selected when the map is transparent — partial

With transparent Hash and KeyEqual, at, operator[] and try_emplace of transparent_umap called with a key of another type look up by that key without making a Key, exactly where the overloads of C++23/26 do.

* Modelled: transparent_umap.hpp: overload resolution on facts about types; behaviour over an association list
* Proof: case analysis; refinement over histories
* Result: False as stated: is_transparent is asked of the key type instead of Hash and KeyEqual, so ordinary key types never select the overloads; lvalues never do in operator[] and try_emplace; try_emplace with a hint does not compile (refuted, for all types). Partial: as the standard for Key itself, and for rvalues of types which name is_transparent themselves. Overload resolution is modelled on facts about the types.
* Theorems: `C70_ordinary_keys_refuted`, `C70_lvalues_refuted`, `C70_hint_refuted`, `C70_selection_partial`

### C71 transparent_umap's overloads behave as a map — proved

Where selected, at, operator[] and try_emplace with a key of another type behave as on a finite map: at throws for a missing key, the others insert at most one element and leave an existing one untouched; an exception changes nothing.

* Modelled: transparent_umap.hpp: overload resolution on facts about types; behaviour over an association list
* Proof: case analysis; refinement over histories
* Result: Proved for all histories, given that comparing with another key is comparing with the Key made of it. std::unordered_map by its specification; hashing is part of that comparison.
* Theorems: `C71_history`

### C72 is_noop_convertible is true only for casts which are no-ops — partial

As documented, where is_noop_convertible<From, To> is true, casting any value of From to To is a no-op: the cast exists and the result has the same bytes.

* Modelled: type_traits.hpp is_noop_convertible, utility.hpp owner_from_member, bit_cast; bytes of scalar values on a 64-bit machine (Itanium ABI)
* Proof: arithmetic modulo powers of two
* Result: False as stated: a cast to a base class which is not first, of pointers to members, of numbers to enumerations of bool, between floating point formats of one size and of nullptr to pointer to member changes the bytes, and some casts do not exist (refuted, each for all such types). Partial: all other pairs of scalar types of the model are no-ops. Itanium ABI, 64 bit; no pointers to member functions, no enumerations without fixed underlying type.
* Theorems: `C72_noop_partial`, `C72_base_pointer_refuted`, `C72_member_pointer_refuted`, `C72_bool_enum_refuted`, `C72_formats_refuted`, `C72_null_member_refuted`, `C72_no_cast_refuted`

### C73 owner_from_member and bit_cast are exact — partial

owner_from_member gives the address of the object of which the member is a member; bit_cast keeps every byte and is its own inverse.

* Modelled: type_traits.hpp is_noop_convertible, utility.hpp owner_from_member, bit_cast; bytes of scalar values on a 64-bit machine (Itanium ABI)
* Proof: arithmetic modulo powers of two
* Result: Proved of the machine's arithmetic for all addresses; partial as the standard leaves &(null->*ptr) undefined. bit_cast is memcpy of a list of bytes.
* Theorems: `C73_owner_partial`, `C73_bit_cast`

### C74 small_vector uses its static buffer when its documentation says — partial

As documented, is_static() and capacity() of a small_vector depend only on the sizes it went through: it leaves the static buffer when the elements do not fit, goes back when erase or resize reduce the size below RevertToStaticBelow, and on shrink_to_fit and revert_to_static whenever they fit.

* Modelled: small_vector.hpp as for C07-C14; the specification follows sizes only
* Proof: invariant on the place and capacity through every call and history
* Result: False as stated: resize never goes back to the static buffer (refuted, from every state and for every size). Partial: erase, pop_back and clear go back exactly when the new size is below RevertToStaticBelow, and after every history over any number of vectors, including moves, is_static() and capacity() are those of a specification on sizes only.
* Theorems: `C74_buffer_histories_partial`, `C74_erase_reverts_partial`, `C74_resize_refuted`

### C75 small_vector follows the allocator's traits — partial

As with std::vector, which small_vector is documented to be compatible with: copy assignment propagates the allocator exactly if propagate_on_container_copy_assignment, move assignment exactly if propagate_on_container_move_assignment, copies use select_on_container_copy_construction, and memory goes back to an allocator equal to the one it came from.

* Modelled: small_vector.hpp as for C07-C14, each vector with its allocator and each block with the allocator it came from
* Proof: invariant: every block held came from the vector's allocator; simulation of histories
* Result: False as stated: copy assignment never propagates the allocator and move assignment always does (refuted after every history, for all allocators which differ). Partial: exactly as the traits say where these agree; and for any traits memory always goes back to the allocator it came from and destroyed vectors leave nothing. Elements' constructors do not use the allocator in the model, all allocators refuse the same sizes.
* Theorems: `C75_every_history_partial`, `C75_traits_partial`, `C75_copy_refuted`, `C75_move_refuted`

### C76 pod_vector's resizing methods tell whether the elements moved — proved

reserve(n), resize(n), resize(n, v) and shrink_to_fit() of itlib::pod_vector answer true exactly if data() is another address after the call than before, i.e. iterators were invalidated; false after a successful realloc or expand in place.

* Modelled: pod_vector.hpp as for C16-C21
* Proof: addresses of blocks never change (closure over the members), then inversion of each member
* Result: From every state which holds elements (the invariant of C16), for every allocator. resize(n, v) of a vector with elements may overrun the buffer (C18); whenever it returns, its answer is right.
* Theorems: `C76_moves_told`

### C77 pod_vector copes with an allocator which has no memory — partial

If the allocator cannot serve a request, the itlib::pod_vector call reports that, or at least the vector stays as it was: never undefined behaviour, lost elements or a lost block; calls which need no memory are not affected.

* Modelled: pod_vector.hpp as for C16-C21, allocators which may answer null
* Proof: histories within the capacity do the same with an allocator which has memory; refutations by symbolic execution
* Result: False for every call which needs memory and gets null: reserve answers as if nothing happened and the next push_back is undefined, growing a vector with elements is undefined at once, and an empty vector loses its block (_refuted). Proved: histories within the capacity never call the allocator, whatever it would do.
* Theorems: `C77_within_capacity_partial`, `C77_reserve_refuted`, `C77_grow_refuted`, `C77_leak_refuted`

### C78 pod_vector never claims more capacity than it has memory for — partial

After reserve(n), resize(n) or assign(n, v) the memory behind data() has room for capacity() elements, also if n * sizeof(T) does not fit in 64 bits (then the call has to fail).

* Modelled: pod_vector.hpp as for C16-C21, with e2b in 64 bits
* Proof: symbolic execution with the byte count as a parameter
* Result: False when n * sizeof(T) wraps: reserve succeeds with a smaller block and assign writes past it, for every such n (_refuted). Proved when 1.5 n elements need less than 2^63 bytes.
* Theorems: `C78_room_partial`, `C78_reserve_refuted`, `C78_assign_refuted`

### C79 pod_vector's operator== compares elements — partial

a == b for two itlib::pod_vector answers what std::vector's would: the same size and elements which are pairwise equal; a != b is its negation.

* Modelled: operator== and operator!= of pod_vector.hpp; == of the elements is a parameter
* Proof: the specification of C16_equality
* Result: False for elements which are equal with different bytes or not equal to themselves (_refuted, for all vectors). Proved when == of the elements is equality of their bytes; != is the negation always.
* Theorems: `C79_equality_partial`, `C79_not_equal_partial`, `C79_same_value_refuted`, `C79_nan_refuted`

### C80 A vector's constructor which throws leaves nothing behind — partial

If a constructor of itlib::static_vector or itlib::small_vector exits with an exception (an element's constructor threw, the elements do not fit, or memory was refused), every element made so far is destroyed and all memory is given back; if it does not throw, the vector has the elements asked for.

* Modelled: the constructors of static_vector.hpp and small_vector.hpp, with the destructor that runs (delegation) or does not run after a throw
* Proof: each constructor is reduced to its loop of constructions; induction over it under an arbitrary fuse
* Result: False as stated. static_vector: constructors do not delegate, so after a throw the elements made so far are never destroyed (_refuted for every constructor, content and position). small_vector: the destructor does run, but is UB if the elements need a dynamic block, and always in small_vector(count) (_refuted). Proved: contents when nothing throws; nothing left when the range check, the allocation, static_vector's first construction or a construction in small_vector's static buffer fails.
* Theorems: `C80_static_vector_refuted`, `C80_static_vector_copy_refuted`, `C80_static_vector_partial`, `C80_static_vector_copy_partial`, `C80_small_vector_refuted`, `C80_small_vector_count_refuted`, `C80_small_vector_copy_refuted`, `C80_small_vector_partial`, `C80_small_vector_copy_partial`

### C81 flat_map and flat_set are as they were after an exception — partial

If a call on an itlib::flat_map or itlib::flat_set exits with an exception (a comparison threw, the container could not grow or move its elements, an element's constructor threw), the object holds what it held before, in order, and can go on being used; if no exception comes, the call does what C22 and C26 say.

* Modelled: the functions of C22 with every comparison a call which may throw; std::vector with throwing moves and copies, static_vector with throwing constructors
* Proof: closure of "does the same or throws and leaves the state" under sequencing; the refutations follow the element moves by induction
* Result: False as stated. Over std::vector an insertion during which moving an element up throws leaves an element twice; copy assignment which gets no memory has already taken the other's comparator; over static_vector a throwing element constructor leaves an object which cannot be destroyed (_refuted, each for all contents and positions). Proved: throwing comparisons leave the object exactly as it was, for every call; and so does every exception if the container is as it was after one, which std::vector with non-throwing moves and static_vector with non-throwing constructors are.
* Theorems: `C81_no_throw_same`, `C81_flat_map_comparisons_partial`, `C81_flat_set_comparisons_partial`, `C81_strong_partial`, `C81_strong_containers`, `C81_insert_refuted`, `C81_copy_assign_refuted`, `C81_copy_assign_partial`, `C81_static_vector_refuted`

### C82 Error handling settings change only what happens on an error — proved

Whatever error handling setting (none, throw, assert, assert and throw) itlib::static_vector and itlib::small_vector are compiled with, with or without NDEBUG and the debug bounds check, a program whose calls are all within range gets the same answers and contents, and no assertion fails. A call which is an error is answered by the exception, by a failed assertion or not at all, as the setting says; an access outside the elements fails the debug check where that is on. flat_map::at finds a key which is present under both its settings, and for one which is not it throws, or with ITLIB_FLAT_MAP_NO_THROW fails an assertion (without assertions it answers with the value of the next greater key).

* Modelled: static_vector.hpp 117-154, small_vector.hpp 159-192, flat_map.hpp 102-108: every member of the two vectors which contains a check is written out again with the macro it uses, as a program that may also abort; small_vector's assertions on its own state (478, 479, 858) and flat_map::at
* Proof: a compositional relation: where the default setting does not report an error the other one runs the same; histories by the invariants of C01 and C07; errors by following each call into the unchecked code
* Result: Proved. With the checks off, an erroneous call on a static_vector is undefined behaviour (proved); for small_vector the model does not describe what happens then. The constructors' checks are modelled under the throwing setting only.
* Theorems: `C82_static_vector_histories`, `C82_static_vector_call`, `C82_static_vector_errors`, `C82_static_vector_access`, `C82_small_vector_histories`, `C82_small_vector_call`, `C82_small_vector_errors`, `C82_small_vector_access`, `C82_flat_map_at`

### C83 flat_map and flat_set over small_vector — partial

itlib::flat_map and itlib::flat_set with an itlib::small_vector as their container are a finite map and a finite set as with std::vector: whatever the static capacity and the threshold for going back to the static buffer, any history of insertions, erasures, lookups, operator[], at, assignments between objects and construction from a vector has the answers and leaves the contents of the finite map or set, while the elements move between the static and the dynamic buffer. A call which throws leaves the object as it was.

* Modelled: small_vector (SmallVectorModel) as the container argument of FlatModel's flat_map and flat_set; its missing member swap is undefined
* Proof: the container conforms to the requirements of C22 up to any bound on the number of elements; a history is run with a bound which rises with every call; exceptions by C81 and a closure of the calls which throw only before they change anything
* Result: False as stated when constructing the new element throws: the object cannot be destroyed any more (_refuted, for all contents and keys). swap of the two containers does not compile over small_vector, which has no member swap; histories are without it. Proved for all other histories as long as memory suffices, and that a call which fails for want of memory leaves the object as it was.
* Theorems: `C83_flat_map_partial`, `C83_flat_set_partial`, `C83_construction`, `C83_equality`, `C83_out_of_memory_partial`, `C83_element_throws_refuted`

### C84 atomic_shared_ptr_storage needs no more than acquire and release — proved

With the spinlock's flag as an atomic object of the C++ memory model - test_and_set with acquire, clear with release, reads of any message that coherence allows, stores anywhere in the modification order that coherence allows - no execution has a data race on the stored pointer, a use of a destroyed pointer or a use count below zero; every call of load, store, exchange and compare_exchange takes effect at one moment between its begin and end; and the use counts are exact.

* Modelled: asps_spinlock's flag as a modification order of messages with release clocks (WmModel), m_ptr as plain memory with a log of accesses: an access not ordered by happens-before with a conflicting one is undefined behaviour (AspsWeakModel); the rest as AspsModel
* Proof: invariant on the modification order (a clear follows a set; the holder's message and all behind it are sets; what is known at the holder, or at the last message, covers the whole log), then a simulation of each weak execution by an interleaved one of AspsModel with the same history, by recursion over the code; C50's theorems carry over
* Result: Proved. The use counts of std::shared_ptr are atomic as in C50 (their orders are the standard library's). The machine leaves out what the standard forbids beyond per-thread coherence, so it has more executions. That a spinning thread eventually sees the flag cleared is not claimed.
* Theorems: `C84_defined`, `C84_linearizable`, `C84_counts`, `C84_as_interleaved`

### C85 atomic_relaxed_counter under the C++ memory model — proved

With every operation relaxed as in the code (reads of any message that coherence allows, stores anywhere in the modification order that coherence allows, read-modify-writes next to what they read) and threads which synchronize by other means, the calls - except that of assigning a counter to itself, which is two operations - have one total order that agrees with each thread's order and with happens-before and gives every result; a load by a thread that has synchronized with all others after their last calls gives the initial value plus the sum of all changes modulo the type's range; increments return distinct values (up to wrap); there is no undefined behaviour for unsigned and narrow types or while no sum leaves a signed type's range. What C49 says of interleaved steps goes no further: an unsynchronized load may miss an increment that has already returned.

* Modelled: atomic.hpp on the machine of WmModel.v: the counter as a modification order of messages; load reads any message not hidden by coherence, fetch_add and fetch_sub go next to the message read, store is placed anywhere coherence allows; synchronization between threads joins clocks (AtomicWeakModel)
* Proof: invariant: the calls in the order of the modification order, each load in the block of the message it read, is a legal run one call at a time, keeps every thread's order and has what a thread knows before its calls; sums and distinctness are then counted in that order as for C49
* Result: Proved. Synchronization between threads (joining, mutexes, ...) is a call that takes over what the other thread knows at that moment. The machine leaves out what the standard forbids beyond per-thread coherence, so it has more executions. C85_stale_load shows that order in time is not kept for unsynchronized loads. For signed types from int on, overflow in ++x, --x, += and -= is undefined as in C49.
* Theorems: `C85_one_order`, `C85_no_lost_update`, `C85_distinct`, `C85_defined`, `C85_stale_load`

### C86 strong_try_rec_mutex synchronizes the data it guards — proved

Under the C++ memory model, data which threads use only while they have locked a strong_try_rec_mutex is free of data races: everything done with it happens before what the next owner does, also when the owner's last unlock and the next try_lock are all that connects them; the mutex' own members are free of data races; a read of the data gives what was written last; and the mutex is still linearizable.

* Modelled: mutex.hpp with m_owner, m_depth and the users' data as plain memory with logs of accesses; std::mutex hands the clock of the unlocking thread to the next one (MutexWeakModel)
* Proof: simulation by C53's machine: what is known inside m_mutex covers the members' logs, what the owner knows covers the data's log; the owner of an idle holder comes from C53's invariant
* Result: Proved. std::mutex is what the standard promises: exclusion, and unlock synchronizes with the next lock. Users unlock only what they have locked and lock at most as often as m_depth counts (C53 has what happens otherwise).
* Theorems: `C86_defined`, `C86_linearizable`, `C86_happens_before`, `C86_data`

### C87 dynamic_bitset when its buffer runs out of memory — partial

When an operation of the buffer throws for want of memory, the call on the bitset throws and the bitset holds the bits it held before, so that every later call on it is defined.

* Modelled: dynamic_bitset.hpp over a buffer whose growing operations may throw as an environment decides (BitsetExnModel)
* Proof: case analysis of every call into done / unchanged / thrown out of resize / thrown out of the buffer's assignment, on top of C28's lemmas; histories by induction; for the refutations, the words left are too few for the size left
* Result: False as stated: resize stores the new size before the buffer is resized, so that resize, push_back and append within a word leave the new size over the old words (_refuted, for all contents and sizes which need more words), and resizing back loses bits; assign and copy assignment leave the old size over whatever the buffer's assignment leaves (_refuted when it leaves fewer words, as small_vector does). Proved for reserve, append at a word boundary, every call which needs no more words, and every call which is not refused memory.
* Theorems: `C87_calls_partial`, `C87_history_partial`, `C87_resize_refuted`, `C87_bits_lost_refuted`, `C87_assign_refuted`

### C88 data_mutex synchronizes the data it guards (C++ memory model) — proved

When locking does not throw, no two accesses to the data through guards race in the sense of the C++ memory model: all earlier accesses happen before those through a guard for exclusive access, all earlier writes before those through a shared guard; reads and writes linearize, and each guard which points to the data accounts for exactly one lock.

* Modelled: data_mutex.hpp's guards as in C52, the data being plain memory with a log of accesses; the mutex hands clocks from unlock to lock as the standard says (DmutexWeakModel)
* Proof: every action is simulated by some of C52's machine, or leads that machine to what it cannot reach; what the exclusive owner, the last exclusive unlock, the shared unlocks and the present readers know covers the log
* Result: Proved. The mutex is what the standard promises: exclusion; unlock synchronizes with later locks of any kind, unlock_shared with later exclusive ones only. Users use a guard in the thread which made it and keep the rules of the mutex (C52's). What happens when locking throws is in C52.
* Theorems: `C88_defined`, `C88_linearizable`, `C88_happens_before`, `C88_locked`

### C89 dynamic_bitset::copy within one bitset — partial

copy(from, to, source) with source in the same bitset gives the bits [from, to) the values which the source's bits had before, whenever std::copy could (the ranges do not overlap, or the destination begins before the source), and changes no other bit.

* Modelled: copy with both ranges in one buffer: what was written is read again (BitsetSelfModel)
* Proof: simulation: the loops write the same words as C30's copy from an unchanged second bitset, because the bits still to be read are not among those written; the tail is then C30's
* Result: False as stated for the reason of C30: when the last, partial, word needs bits of two words of the source, those of the second come out as false (_refuted, in all such cases). Proved in all other cases, overlapping ranges included.
* Theorems: `C89_copy_partial`, `C89_tail_refuted`

### C90 dynamic_bitset's references and iterators are positions — proved

A reference from operator[] or from an iterator reads and writes exactly the bit it was taken for until the bitset needs more words than it had room for or is assigned to; iterators stay the positions they are, with the arithmetic of positions; other uses of kept references are undefined.

* Modelled: bitref, iterator and the vector's blocks and capacity; references into another block are undefined (BitsetRefModel)
* Proof: simulation by a view with positions and the room which is there for sure; references are words and masks of the present block, iterators are the positions
* Result: Proved. The buffer is std::vector as the standard describes it (references stay valid without reallocation; assignment invalidates them). Several bitsets which are moved are in C119.
* Theorems: `C90_history`, `C90_dangling`

### C91 Calls of atomic_shared_ptr_storage come to an end — proved

Whatever the schedule, a call takes a bounded number of steps besides waiting for the lock, and as long as a call is under way some thread can go on, so that all calls return when no more begin; unless a destructor which a compare_exchange runs under the lock uses the storage. (While other threads call it without end, one call may wait for ever.)

* Modelled: the machine and calls of C50; steps which only wait are none (LiveSpec)
* Proof: a measure: the number of actions left of each call under way; the lock is held by a thread in a call whose next action is not waiting, by recursion over the code of the calls; starvation by an explicit infinite execution
* Result: Proved on the interleaving machine of C50 (C84 shows that it has all executions). Destructors nest at most n deep, for any n; C91_goes_on has the exact exception (the deadlock is C51's). C91_starvation shows that one call may wait for ever while others return: atomic_flag is not fair.
* Theorems: `C91_bounded`, `C91_goes_on`, `C91_all_return`, `C91_starvation`

### C92 strong_try_rec_mutex never blocks — proved

Whatever the schedule, try_lock and unlock take a bounded number of steps besides waiting for each other, and while one is under way some thread can go on: try_lock does not wait for the thread which has locked the mutex.

* Modelled: the machine and calls of C53
* Proof: as C91, with m_mutex as the lock
* Result: Proved on the interleaving machine of C53. std::mutex::lock does not throw, and a free std::mutex can be locked by some waiting thread.
* Theorems: `C92_bounded`, `C92_goes_on`, `C92_all_return`

### C93 data_mutex waits for guards only — proved

When locking does not throw, the functions of data_mutex and of its guards take a bounded number of steps besides waiting for the mutex, and when no thread can go on with its call, a thread which is in no call keeps a guard: once all guards are destroyed, all calls return.

* Modelled: the machine and calls of C52
* Proof: a thread waits only while somebody else has locked the mutex; who has, does not wait, and is in no call or can go on
* Result: Proved on the interleaving machine of C52. A thread may wait for a guard which is never destroyed; that is the user's.
* Theorems: `C93_bounded`, `C93_goes_on`, `C93_all_return`

### C94 pod_vector adds elements in amortized constant time — proved

Starting from an empty pod_vector, in every history of push_back, emplace_back, insert, pop_back, erase, resize and clear (within the limits of memory) the number of elements copied because the allocator was asked for a larger block - counting all elements for every request, whether the block moved or not - is at most five times the number of elements added.

* Modelled: AmortSpec (what is counted) over PodVectorModel; every request to the allocator counts as a copy of all elements
* Proof: a potential 3*size - 2*capacity: each call lowers it by what it copies less five times what it adds; capacity grows by half at least (PodAmortProofs)
* Result: Assignments (which replace all elements), reserve and shrink_to_fit are not counted. Within the limits of memory and sizes of C16.
* Theorems: `C94_pod_vector_amortized`

### C95 small_vector adds elements in amortized constant time — partial

Starting from an empty small_vector, in every history of push_back, insert, pop_back, erase, resize and clear the number of elements moved from one buffer to another is at most ten times the number of elements added, whatever the static capacity and RevertToStaticBelow are.

* Modelled: AmortSpec over SmallVectorModel; elements which change buffers count
* Proof: potential of size and place (static, or dynamic with its capacity), from C74's description of the buffers; proved for RevertToStaticBelow of at most half the static capacity (0 included, the default). Otherwise false: with StaticCapacity + 1, the setting of the documentation's example, push_back and pop_back at the full static buffer move all elements each time, for ever (refuted for every static capacity)
* Result: Proved for RevertToStaticBelow of at most half the static capacity, which includes the default 0. False otherwise: for every static capacity SC, with RevertToStaticBelow = SC + 1 (the documentation's example is small_vector<int, 4, 5>) n times push_back and pop_back at size SC move 2*SC*n elements.
* Theorems: `C95_small_vector_amortized_partial`, `C95_small_vector_thrashing_refuted`

### C96 pod_vector gives memory back to the allocator it came from — proved

For any number of pod_vectors with different allocator objects and any history of constructors, copies with and without another allocator, moves, assignments, swaps, recasts from other vectors, destructors and member functions, memory is freed, reallocated and expanded only through the allocator which provided it: a copy keeps its own allocator, a move or recast_take_from takes the allocator along with the memory. Each vector has the elements it should have, and when all vectors are destroyed all memory is freed.

* Modelled: PodAllocModel: vectors of PodVectorModel with an allocator each; for every block of memory the allocator it came from; freeing, reallocating or expanding with another one is undefined. All constructors, the destructor, both assignments, swap through a temporary and the two recasts (same element type, other vector) as in the code.
* Proof: Invariant: PodVectorProofs' family of vectors, and every vector's block is of its allocator. Member functions change only the vector's own block (PodVectorProofs' frame). No block is larger than size_t can say (PodBlockProofs), so the sizes recasts compute do not wrap.
* Result: Recasts between vectors of the same element type. Allocators are numbers, equal numbers being allocators which can free each other's memory. Within the limits of memory and sizes of C16.
* Theorems: `C96_memory_goes_back`

### C97 A pod_vector assigned to, swapped with or recast from itself keeps its elements — partial

Copy assigning, move assigning or swapping a pod_vector with itself, and recast_copy_from or recast_take_from with the vector itself as the argument, leave its elements and its allocator, and all other vectors, as they are.

* Modelled: PodAllocModel: the same functions with equal indices; recast_copy_from and recast_take_from for the same element type.
* Proof: Assignments and swap from C96's lemmas. recast_copy_from: computed from the cleared state. recast_take_from: the addition to the freed pointer is undefined. Both refutations hold after every history.
* Result: Assignments and swap proved. False for recast_copy_from, which clears the vector before reading it: it always ends up empty, and for recast_take_from, which frees the memory and then uses it (_refuted, after every history).
* Theorems: `C97_assigned_to_itself_partial`, `C97_recast_copy_empties_refuted`, `C97_recast_take_uses_freed_memory_refuted`, `C97_recast_from_itself_refuted`

### C98 any has room for every object it holds — partial

The block in which any constructs an object, by emplace, by a converting constructor or assignment, or as a copy of another any's object, has the size and the alignment which the object needs, whatever its type.

* Modelled: AnyModel.narrow: emplace's constants size and alignment, cut to 32 bits as by the conversion to uint32_t; the histories of C37 and C38 with them.
* Proof: Every block has the size and alignment which emplace computed for its object (C38's invariant is_world); arithmetic modulo 2^32.
* Result: Proved for types whose obj_block_for takes less than 2^32 bytes. False otherwise: emplace stores sizeof in a uint32_t, so the block of an object of 2^32 bytes or more is too small for it, after every history (_refuted).
* Theorems: `C98_room_partial`, `C98_large_refuted`

### C99 dynamic_bitset works over the library's own vectors — partial

A dynamic_bitset whose buffer is an itlib::pod_vector, with any allocator, or an itlib::small_vector answers every call as a sequence of booleans does.

* Modelled: BitsetBufModel: the functions of dynamic_bitset over any family of buffers (record buffers), and the families of pod_vectors (pod_buffers, words as bytes in PodVectorModel's memory, temporaries constructed and destroyed) and of small_vectors (small_buffers).
* Proof: Every function does to the buffers what BitsetModel's does to lists of words (simulation, by induction on the loops), for buffers which conform (BitsetBufSpec.buffers_ok); both families conform, by the lemmas of C10 and C16; then C28.
* Result: Proved for small_vector, and for pod_vector with allocators whose zero_fill_new() is true. False for the others: bits which resize adds are whatever was in the memory (_refuted). Appending a bitset to itself at a word boundary is excluded, as in C28.
* Theorems: `C99_over_pod_vector_partial`, `C99_over_small_vector`, `C99_no_zero_fill_refuted`

### C100 gmtime yields the calendar date of a time, and from_gmtime leads back — partial

With every C library that conforms to POSIX, time_t::gmtime yields the date and time in UTC by the Gregorian calendar, from_gmtime leads from it back to the time, from_gmtime of members out of their ranges yields the time they say and normalises them, and later times have later dates.

* Modelled: CalendarModel: gmtime, from_gmtime, from_seconds and the operators over any C library (record libc) and any width of std::time_t. CalendarSpec: the calendar by the rule for the next day, POSIX's promises about gmtime_r and timegm.
* Proof: The calendar repeats every 146097 days (computed once, then for all by induction), so every day has exactly one date and later days later dates; the functions then inherit the promises of the library. A concrete library is shown to conform.
* Result: Proved for times a std::time_t holds whose year, counted from 1900, is an int. False beyond: gmtime ignores the failure of gmtime_r and returns something that is not the date, from_gmtime turns the failure of timegm into the last second of 1969, and where std::time_t has 32 bits gmtime, from_seconds and operator+ wrap in 2038 while operator+= does not (_refuted).
* Theorems: `C100_calendar`, `C100_gmtime_partial`, `C100_from_gmtime_partial`, `C100_far_refuted`, `C100_failure_refuted`, `C100_narrow_refuted`, `C100_narrow_partial`

### C101 localtime shows what clocks show, and from_localtime leads back — partial

In every time zone, time_t::localtime yields what clocks and calendars there show at that time, and from_localtime leads from it back to the time.

* Modelled: CalendarModel: localtime, from_localtime. CalendarSpec: a time zone is any function from times to offsets and daylight saving; POSIX's promises about localtime_r and mktime.
* Proof: As C100; two times with the same local time and the same tm_isdst have the same offset where only daylight saving changes clocks. The refutation holds for every library.
* Result: Proved for all zones where clocks are changed for daylight saving only, and in general for times no other time shows the same as. False where clocks are put back otherwise: two times have the same local time, and no C library can lead back to both; and local times are not in the order of times (_refuted).
* Theorems: `C101_localtime_partial`, `C101_round_trip`, `C101_from_localtime_partial`, `C101_put_back_refuted`, `C101_order_refuted`

### C102 flat_map and flat_set look keys up with logarithmically many comparisons — proved

As documented, getting a value by key is O(log2 n): with less than 2^k elements, find, count, at, operator[], insert, emplace and erase by key make at most k + 1 comparisons, lower_bound and upper_bound at most k, equal_range at most 2k, and the other calls none.

* Modelled: FlatExnModel, whose comparisons are calls, with comparators which count (FlatCostSpec.counted).
* Proof: Every function with counting comparators does what FlatModel's does and counts at most the bound; composed call by call, the loops by induction on k, since both halves of less than 2^(k+1) elements have less than 2^k.
* Result: With libstdc++'s std::lower_bound, upper_bound and equal_range. Construction from a range (std::sort) is not counted, nor are the moves of elements.
* Theorems: `C102_flat_map`, `C102_flat_set`

### C103 pod_vector works with allocators whose size_type is narrower than size_t — partial

The documentation leaves size_type to the allocator. With an unsigned size_type of W bits pod_vector behaves as the sequence of C16, and reserve(n) and the constructor with n elements provide n, as long as the elements' bytes are a number of size_type.

* Modelled: PodNarrowModel: the functions of PodVectorModel with every conversion to a size_type of W bits (parameters, results, arguments of the allocator), integer promotion of sums below 32 bits included.
* Proof: With room, spare capacity and padding included, every function equals the wide one (by going through both side by side), so C16 carries over (_partial). Without: after assign(n, x) of a length whose grown capacity does not fit, push_back is undefined for every allocator; reserve and the constructor provide n mod 2^W; assigning or inserting a range of 2^W elements is undefined (_refuted). These go through the code with the fact that the new block is shorter than what is put into it.
* Result: Proved while the bytes of the grown capacity, and the padding, fit in size_type. False nearer the limit: growing by half cuts the number of bytes, so the new block is smaller than the old one and push_back is undefined although the elements would fit; reserve and the constructor silently provide n mod 2^W; a range of 2^W elements is copied out of bounds (_refuted). Which size_t-sized parameters are meant to be cut is not documented.
* Theorems: `C103_narrow_histories_partial`, `C103_growth_refuted`, `C103_reserve_refuted`, `C103_constructor_refuted`, `C103_range_refuted`

### C104 generators work inside generators, to any depth — proved

A coroutine may create, draw from, move and drop generators of its own, which may do the same. Whoever draws gets what the bodies yield, in order; an exception reaches whoever draws, once; every coroutine frame has one owner and is destroyed once; and a generator dropped anywhere, also while suspended inside others, leaves no frame behind. A recursive walk over a tree gives its values in order.

* Modelled: GenNestModel: coroutine bodies as arbitrary machines which also make calls on their own generators; the frames on a heap, with promise, local generators and where the body is (suspended, running, finished); resume runs the body, which may resume others; destroy goes through the local variables. Steps are counted, Diverge when they do not suffice.
* Proof: GenNestSpec has generators as values (a tree of bodies with their generators) and a big-step relation. By induction on it: the frames reachable from a handle are those of the tree, each once, and the call changes nothing else; destroying by induction on the tree. More steps never change the outcome. C104_walk goes by induction on the tree walked.
* Result: Bodies reach only generators of their own, as local variables (not through pointers, so none resumes itself). Bodies which run forever are outside: the theorem is about calls which end.
* Theorems: `C104_refines`, `C104_no_leaks`, `C104_walk`

### C105 mem_ostreambuf works over the vectors of this library — partial

Over itlib::static_vector, itlib::small_vector and itlib::pod_vector, a mem_ostreambuf is a file with a position: writes put their characters at the position, tell, peek_container and get_container give the position and the characters before it, clear starts anew, and every write which the container cannot hold throws what the container throws and leaves the file as it was. No call has undefined behaviour and in the end no memory is left allocated.

* Modelled: StreamBufModel: the functions of mem_ostreambuf over a record of what they use of the container; pointers tell which memory they point into, sums wrap at 2^64, memcpy from or to null is undefined. The containers are the models of static_vector, small_vector and pod_vector as they are.
* Proof: StreamBufProofs: laws of a container (a list, a capacity, what resize, clear, take do) and one refinement proof from them to the file of StreamBufSpec; StreamBufInst proves the laws of the three containers from the lemmas of C01-C20.
* Result: Partial because the full statement is false: over small_vector get_container() does not compile (there is no member swap), although the documentation calls it suitable; over pod_vector an empty block write to a new buffer passes null to memcpy (_refuted); over static_vector writes after get_container() and before clear() are undefined, since data() is never null there (_refuted). Seeks from the end are counted from the end of the container and not of what was written (C105_seek_end_refuted; C105_*_seek_end_partial says for every history where they lead). Other seeks beyond the data written are outside. C105_what_is_checked says what the model checks pointers for.
* Theorems: `C105_static_partial`, `C105_static_reserve_throws`, `C105_small_partial`, `C105_pod_partial`, `C105_empty_write_refuted`, `C105_after_get_refuted`, `C105_static_seek_end_partial`, `C105_small_seek_end_partial`, `C105_pod_seek_end_partial`, `C105_seek_end_refuted`, `C105_what_is_checked`

### C106 reading from a mem_istreambuf stops at the end for every count — partial

xsgetn gives what was asked for, or what is left if that is less, for every count, and touches no memory outside of the buffer; by the rules of the standard it forms no pointer outside of the buffer either.

* Modelled: StreamAddrModel: xsgetn with pointers as numbers of W bits which wrap around, over a memory which says what may be read; and with the pointers of the standard, which may not leave their array.
* Proof: Directly, by induction on the number of characters read.
* Result: False in general: gptr() + count may wrap around where memory lies in the upper half of the addresses, and then memory behind the buffer is read (C106_wrap_refuted); by the standard every read of more than is left forms a pointer outside of the array, and a default constructed buffer gives memcpy a null pointer (_refuted). Proved for sums which do not wrap, so for memory in the lower half, and strictly for reads of no more than is left.
* Theorems: `C106_read_partial`, `C106_lower_half`, `C106_wrap_refuted`, `C106_pointer_refuted`, `C106_default_refuted`, `C106_strict_partial`

### C107 anys inside anys are trees — partial

An object in an any may have members which are anys, to any depth. Copying an any copies the whole tree, and copy and original are independent from then on; moving takes the tree; assigning or resetting destroys the old tree; a copy which fails somewhere inside (out of memory, or an object which cannot be copied) leaves the any assigned to empty and everything else as it was. Every block is given back exactly once, with the size and alignment it was asked for. An any may be assigned to or from an any inside of it, as std::any.

* Modelled: AnyNestModel: blocks which hold a value and member anys; an any is a variable or a member of the object in some block, so it can vanish while it is used; reset, copy_from with clone_to, move assignment, emplace, with constructors left by exceptions. Steps are counted, Diverge when they do not suffice.
* Proof: AnyNestSpec has trees and paths into them. Trees whose nodes know their blocks determine the state; reset and copying by induction on such a tree, and replacing the tree at a path by induction on the path.
* Result: False where an any is assigned to or from an any inside of it: a = a.child and a = std::move(a.child) destroy the source first (_refuted, for every history), a.child = a reads a block not constructed yet, and a.child = std::move(a) leaks (_refuted). Proved for all other histories. One allocator; member anys are empty when their object is emplaced.
* Theorems: `C107_trees_partial`, `C107_from_inside_refuted`, `C107_to_inside_refuted`

### C108 copies and moves of a mem_ostreambuf are buffers of their own — partial

mem_ostreambuf can be copied, moved and assigned. Each object is then a file of its own: a copy has what the original had and writes to one do not show in the other, a move hands the contents over, and whatever is done with the others, an object gives back what was written to it. No call has undefined behaviour and no memory is left when all objects are gone.

* Modelled: StreamCopyModel: the functions of mem_ostreambuf once more, over one memory of blocks which all the buffers share; pointers are a block and an offset and a write goes where they point, also into memory of another buffer or of none. The implicit copy and move operations, member by member; containers given by a growth policy and by whether they hand their memory over when moved.
* Proof: StreamCopySpec: one file of C32 per buffer, or one which may only be cleared, assigned to or destroyed. Invariant: every block has one owner, and a buffer in use points into its own; each function changes only the memory of its buffer.
* Result: False: the implicit copy operations copy the base class's pointers, so a copy points into the original's memory. It cannot tell its position or give its contents, its writes get into the original, and after the original is gone into memory which is there no more (C108_copy_refuted, for every history); a move does the same when the container does not hand its memory over, as a short std::string (C108_move_refuted). Proved: histories in which a copy and a buffer which was moved from are cleared or assigned to before they are used. C108_what_is_checked says what the model checks pointers for.
* Theorems: `C108_independent_partial`, `C108_copy_refuted`, `C108_move_refuted`, `C108_what_is_checked`

### C109 an exception from moving an element leaves a small_vector which can be destroyed and nothing behind — partial

The elements of a small_vector may be of a type whose move constructor throws, or which has none and is copied. When an element throws while a call moves the elements, the vector can be destroyed after it without undefined behaviour, no object is left alive and no memory is left. Calls which move nothing behave as always.

* Modelled: SmallMoveModel: the members of SmallVectorModel with every move of an element replaced by one which may throw before it changes anything. C07-C15 are about element types whose moves do not throw. Left out: the move constructor and move assignment, which are noexcept.
* Proof: SmallMoveSpec counts the objects alive and the blocks held. Induction over each loop of moves, cut short after any number of steps; the calls without exception are shown equal to those of SmallVectorModel. A call whose moves all succeed is shown equal to that of SmallVectorModel with that many moves counted, for each way the elements can go.
* Result: False: an insertion before the end and an erase which stay in their buffer leave a hole among the elements which the destructor destroys once more (C109_insert_refuted, C109_erase_refuted: undefined behaviour for every such state and every move which throws); a move to another buffer leaks the objects made there and the buffer (C109_relocation_refuted); shrink_to_fit and revert_to_static lose and leak the rest of the elements (C109_shrink_to_fit_refuted). Proved: after a relocation which throws the vector has all its elements and its buffer, with exact counts of what is left behind; calls which move nothing, calls in which nothing throws, and calls whose moves all succeed (exactly so many as the elements which must go elsewhere) are those of C07-C15.
* Theorems: `C109_no_throw_same`, `C109_relocation_refuted`, `C109_insert_refuted`, `C109_erase_refuted`, `C109_shrink_to_fit_refuted`, `C109_relocation_partial`, `C109_no_moves_partial`, `C109_all_moves_partial`

### C110 an exception from moving an element leaves static_vectors which can be destroyed and nothing behind — partial

The elements of a static_vector may be of a type whose move constructor throws, or which has none and is copied. When an element throws while a call moves the elements (an insertion, an erase, a swap, a move construction, a move assignment), the exception gets to the caller, every vector concerned can be destroyed after it without undefined behaviour, and no object is left alive.

* Modelled: StaticMoveModel: the members of StaticVectorModel with every move of an element replaced by one which may throw before it changes anything; move constructor, move assignment (std::terminate as an outcome of its own, for its noexcept) and swap, whose std::swap of two elements is three moves. C01-C06 are about element types whose moves do not throw.
* Proof: Induction over each loop of moves, cut short after any number of steps. The hole which the loop leaves is shown to be a slot below the size without an object, on which clear is undefined; all-moves theorems by induction over the same loops.
* Result: False: an insertion which throws after its first move, an erase which throws at any, and a swap which throws after the first move of the longer vector's rest leave a vector whose destruction is undefined (C110_insert_refuted, C110_erase_refuted, C110_swap_refuted, for every such state); a move assignment ends in std::terminate for a type with a noexcept move assignment and a throwing move constructor (C110_move_assign_noexcept_refuted); a move constructor which throws leaves the objects made so far, which no destructor destroys (C110_move_construct_refuted). Proved: an insertion whose first move throws changes nothing; calls whose moves all succeed, and calls in which nothing throws, are those of C01-C06; a full vector throws before any move; what a move assignment and a swap leave, for each number of moves.
* Theorems: `C110_no_throw_same`, `C110_insert_refuted`, `C110_erase_refuted`, `C110_swap_refuted`, `C110_move_assign_noexcept_refuted`, `C110_move_construct_refuted`, `C110_insert_partial`, `C110_all_moves_partial`, `C110_no_room_partial`, `C110_move_assign_partial`, `C110_move_assign_all_partial`, `C110_swap_partial`

### C111 The algorithms of qalgorithm work on the library's own vectors — proved

On a static_vector, a small_vector and a pod_vector, qfind, pfind, qall_of, qany_of and qnone_of (and the _if forms) answer by the first match and change nothing; erase_first erases the first match (also when the value is a part of an element); erase_all with a value from outside, and erase_all_if, erase exactly the matches, keep the order of the others and tell how many; if a predicate throws, the exception comes out, erase_all_if has erased nothing and the vector holds the elements the standard algorithm had reached: the kept ones at the front, behind them the places already gone through, some moved from, and the rest as it was. Never is an object read, assigned to or destroyed which is not alive, no storage is lost, and other vectors' memory is not touched.

* Modelled: VecAlgoModel: the algorithms of AlgoModel over five operations of a container (size, read, move-assign, erase, erase of a range); these are instantiated with the models of static_vector, small_vector and pod_vector. Assigning to an element needs a live object. Element moves and comparisons do not throw.
* Proof: A step-by-step simulation of the algorithms on sequences; for each vector the five operations are shown to do what they should (erases by C01, C07 and C16's lemmas, move assignments directly on the slots and bytes).
* Result: Proved for the three vectors by showing that each follows the algorithms on sequences (C45) step by step. erase_all with a part of an element of the container itself is C64.
* Theorems: `C111_static_vector`, `C111_small_vector`, `C111_pod_vector`

### C112 flat_map and flat_set take arguments which refer into themselves — partial

insert of flat_map and flat_set, and operator[] of flat_map, called with an argument which refers to a part of an element of the same container (m[m[5]] where keys and values have the same type), do exactly what they do with an argument of its own: if the class of the key is there they change nothing and give the element, otherwise they put in the element which the argument stood for when the call was made.

* Modelled: FlatOwnModel: insert and operator[] whose argument is a reference to element j, read by the lookup and again by the constructor inside the container's emplace; emplace of std::vector (as the standard requires), of static_vector and of small_vector with the read after grow_at. One element is referred to, and it is not moved from.
* Proof: The lookup is C22's; the containers' grow_at leaves a known hole (lemmas of C06 and C13), so the slot which is read is computed for each position; where it is right the call equals the one with an argument of its own, of which C22 and C83 tell.
* Result: True over std::vector, whose emplace must cope with such arguments (C112_std_vector_*). False over static_vector and small_vector, which make room before the constructor reads the argument: an argument in the element before which the new one belongs is a destroyed object, one behind it is taken from the wrong element, which can leave the keys out of order; and whenever a small_vector changes its buffer the argument dangles (C112_static_vector_*_refuted, C112_small_vector_*_refuted, for every state). The _partial theorems over them: right if the class is there, if a static_vector is full (it throws), or if the element referred to is less than the new key and the buffer stays.
* Theorems: `C112_std_vector_insert_partial`, `C112_std_vector_index_partial`, `C112_static_vector_insert_partial`, `C112_static_vector_index_partial`, `C112_static_vector_insert_refuted`, `C112_static_vector_index_refuted`, `C112_small_vector_insert_partial`, `C112_small_vector_index_partial`, `C112_small_vector_insert_refuted`, `C112_small_vector_index_refuted`

### C113 Lists of expecteds whose values own the rest — partial

Expecteds whose values own further expecteds (nodes with a std::unique_ptr to the next one) are the lists they should be after every sequence of assignments and emplaces at any depth: an expected assigned from another one, in another list or inside of its own value (x = std::move(*x->next)), becomes what that one was, and everything which no list owns any more is destroyed exactly once.

* Modelled: ExpListModel: expecteds at addresses, each a variable or owned by the node in another's value; the move constructors, move assignments, destructors, clear and emplace of expected<T, E> and expected<T, void> statement by statement; the node's moves with unique_ptr's reset(release()), recursive destruction. Copies are not modelled (such a node has none), data and errors are plain.
* Proof: Invariant: each variable is a chain through addresses of its own, all chains are apart, and the heap has nothing else. Destruction of a chain by induction over it; each operation gives the heap at every address; refuted parts hold in every reachable state.
* Result: False where an expected<T, E> with a value is assigned an error from inside of that value: the value is destroyed first and the error with it, then it is read (C113_error_from_inside_refuted, in every reachable state); the same for emplace of expected<T, void> with its own value or one inside (C113_emplace_from_inside_refuted). An expected moved into one inside of itself makes a leak (C113_to_inside_refuted), as it would with the standard's. Proved for all other sequences, assignments of values from inside among them.
* Theorems: `C113_lists_partial`, `C113_error_from_inside_refuted`, `C113_emplace_from_inside_refuted`, `C113_to_inside_refuted`

### C114 Insertions and erasures leave the elements before their position alone — partial

For static_vector, small_vector and pod_vector, a call of push_back, pop_back, insert, erase or resize, after which the elements fit into the capacity there is, neither reads nor moves nor destroys nor overwrites the elements before its position, and keeps the buffer: references and iterators to these elements stay good, also if copying an element throws. Part false: small_vector goes back to its static buffer, and frees the other one, in an insertion too.

* Modelled: The models of static_vector, small_vector and pod_vector as they are. RefsSpec says what it is for a call not to touch a slot (or byte): it does the same whatever is there, and leaves it there.
* Proof: Untouched is shown primitive by primitive and carried through sequences and loops (by induction over them), together with: the buffer, the capacity and the slot's content are the same afterwards. The refuted part: the block is freed in every such call and nothing brings it back.
* Result: static_vector and pod_vector: proved for every state (C114_static_vector, C114_pod_vector). small_vector: proved when the buffer stays (C114_small_vector_partial). False otherwise: an insertion into a dynamic buffer with room to spare, after which there are less than RevertToStaticBelow elements, frees the buffer, and every reference into it dangles (C114_small_vector_refuted); the documentation names erase and resize only (and resize to less elements keeps the buffer).
* Theorems: `C114_static_vector`, `C114_small_vector_partial`, `C114_small_vector_refuted`, `C114_pod_vector`

### C115 Pointers stay within their storage — partial

static_vector, small_vector, pod_vector and the views of stride_span form only pointers to elements of the array they work on or one past its end, order and subtract only pointers into the same array, and use no pointer into storage which was given back. False of all four as the standard reads: insertions at begin() without reallocation (in small_vector also push_back into an empty vector) count a pointer down to begin() - 1; small_vector subtracts pointers into the buffer it has just deallocated when an erasure goes back to the static buffer; pod_vector's reserve and shrink_to_fit compare with the old begin after it was freed; end() of a stride_span over every n-th element, or over a field, points behind the array.

* Modelled: PtrModel: pointers as the standard has them (array and offset), arrays of elements without content, and the functions of static_vector, small_vector and stride_span statement by statement with every pointer they form, compare, dereference or deallocate checked; forming one outside and using one into freed storage are outcomes of their own. pod_vector: its model as it is, which knows freed blocks.
* Proof: For every state with right pointers and every call with iterators of the vector the outcome is determined: loops by induction over the distance, then case by case over where choose_data puts the elements; exactly the calls named in PtrSpec go wrong, all others keep the pointers right, hence histories. pod_vector: whenever m_begin is in another block afterwards, the old block is marked as freed when the comparison is made. stride_span: arithmetic of the rounded-up division.
* Result: False as the standard reads. static_vector: insertions at begin() with room (C115_static_vector_refuted) and pop_back of nothing, exactly these (C115_static_vector_partial). small_vector: push_back into an empty vector and insertions at begin() which keep the buffer (C115_small_vector_refuted), erasures which go back to the static buffer (C115_small_vector_erase_refuted), exactly these (C115_small_vector_partial, C115_small_vector_history_partial; for a StaticCapacity of at least 1). pod_vector: the last comparison of reserve and shrink_to_fit (C115_pod_vector_refuted). stride_span: end() unless the stride divides the number of elements (C115_stride_span_partial), or unless the field is the first one (C115_stride_span_refuted); by index all is well.
* Theorems: `C115_static_vector_partial`, `C115_static_vector_refuted`, `C115_small_vector_partial`, `C115_small_vector_history_partial`, `C115_small_vector_refuted`, `C115_small_vector_erase_refuted`, `C115_pod_vector_refuted`, `C115_stride_span_partial`, `C115_stride_span_refuted`, `C115_what_is_checked`

### C116 Writes to elements cannot break a flat_map or flat_set — partial

Users can change the elements of a flat_map or flat_set only in ways which keep the keys in order, apart from modify_container(), which is documented as dangerous; and however the elements are ordered, and whatever the comparator answers, every later call stays inside of the container, comes to an end, and adds or removes no more than one element. The first half is false: begin() gives the container's own iterators, through which keys can be assigned. Proved instead: which assignments keep the order, and that the elements are in order exactly if find() finds each of them where it is, so that damage always shows.

* Modelled: flat_map.hpp and flat_set.hpp as for C22-C27 (the standard's searches as libstdc++ writes them: formally the standard leaves searches in unsorted ranges undefined), and assignments through iterators, insertions and erasures through modify_container()
* Proof: the searches' ranges by induction, with no assumption on comparator or contents; order from lookups: two lookups of a binary search which end at different places part at an element which separates the keys
* Result: The first half is false: in every map or set with two elements there is a write through begin() after which some element is not found where it is (C116_keys_protected_refuted). Proved: the second half (C116_flat_set_safe, C116_flat_map_safe, with no assumption on the comparator); the elements are in order exactly if all of them are found where they are (C116_found_iff_ordered); a write keeps them in order exactly if the new element is between its neighbours (C116_writes_partial).
* Theorems: `C116_flat_set_safe`, `C116_flat_map_safe`, `C116_found_iff_ordered`, `C116_writes_partial`, `C116_keys_protected_refuted`

### C117 Objects in anys may use the anys they are in — partial

Constructors and destructors of objects which are put into an any may call has_value, type, reset, emplace and move assignment on any anys, the one they are in included: everything is constructed and destroyed once, every block of memory is given back, and the answers are those of an any which holds the object or not. This is false for the any the object is in: reset, emplace and assignments to it are undefined while the constructor or destructor runs, and moving it away leaves a destroyed object in the other any. Proved for all programs which do not do that, to any depth of calls inside of calls, with has_value and type allowed everywhere.

* Modelled: any.hpp: has_value, type, reset, emplace, move assignment and free_block on numbered anys, with constructors and destructors which are lists of such calls, nested without bound (AnyHookModel.v); constructors do not throw here (C38 has exceptions)
* Proof: simulation of cells (empty, holding, in use) by induction on the depth of calls, with the pointers and blocks of anys in use unchanged by every call; termination by the number of calls written in the program and in the destructors of held objects; layered programs by an invariant which ranks anys
* Result: False for the any an object is in: reset, emplace and assignment are undefined there while its constructor or destructor runs (C117_own_any_may_be_changed_refuted), has_value is true though no object is alive (C117_has_value_means_alive_refuted), and moving away leaves a destroyed object in the other any (C117_moving_away_refuted). Proved: all programs which do not change an any in use do what the cells say (C117_objects_may_use_anys_partial), none needs a depth above its size (C117_depth_is_enough), programs whose objects only change later anys always run to their end (C117_layered_programs_run), and nothing leaks (C117_everything_given_back).
* Theorems: `C117_objects_may_use_anys_partial`, `C117_depth_is_enough`, `C117_layered_programs_run`, `C117_everything_given_back`, `C117_own_any_may_be_changed_refuted`, `C117_has_value_means_alive_refuted`, `C117_moving_away_refuted`

### C118 Elements can look at their vector — partial

Whenever a static_vector or small_vector runs a constructor or destructor of an element, begin() to end() is a range, and every element in it is alive but perhaps the one whose constructor or destructor runs; so elements may use the vector they are in while they are built or destroyed. This is false: clear, erasures and insertions of several elements, assignments and every move to another buffer count elements which are dead or not built yet, and during assignments into another buffer end() points into another array than begin(). Proved: for every call exactly when it is true (insertions and erasures of one element which stay in their buffer, push_back and pop_back alike, resize which stays in its buffer, shrink_to_fit, and calls on vectors of at most one element), for one call in any state and for all sequences of calls.

* Modelled: static_vector.hpp and small_vector.hpp, all modifying calls on one vector, with elements which are alive or not and a record of begin(), end() and the living elements at every construction and destruction (VecViewModel.v); the values are in C1, C2, C7 and C8, exceptions in C5 and C14
* Proof: a Hoare-like rule for runs with what they show, one lemma for each loop by induction on its steps (all that is shown is whole, or something is not), one for each call from those, sequences of calls by induction
* Result: False: clear of two or more elements of a static_vector (C118_static_clear_refuted), push_back into a full small_vector (C118_small_push_refuted) and assignments into another buffer (C118_assign_end_without_begin_refuted) show elements of which some are dead or not there. Proved: the calls for which it is true, exactly, for every state (C118_static_partial, C118_small_partial) and for all sequences of calls (C118_static_histories_partial, C118_small_histories_partial). C118_what_is_checked and C118_refused say what the model checks and which calls throw.
* Theorems: `C118_static_partial`, `C118_static_histories_partial`, `C118_static_clear_refuted`, `C118_small_partial`, `C118_small_histories_partial`, `C118_small_push_refuted`, `C118_assign_end_without_begin_refuted`, `C118_what_is_checked`, `C118_refused`

### C119 References to bits follow the bits when bitsets are moved or swapped — proved

Among any number of dynamic_bitsets which are used, copied, appended to each other, moved to each other and swapped, a reference obtained from operator[] or from an iterator reads and writes the same bit wherever it is moved to, until the vector it is in needs another block, is assigned to or is replaced by a moved one; an iterator stays with its bitset object and shows the bits this has at the time; a bitset which was moved from is empty and can be used again.

* Modelled: dynamic_bitset.hpp: several bitsets, each with words in a numbered block, as in C90; references to words by block, iterators by bitset object and index; move and copy assignment, std::swap by three moves, append of another bitset (BitsetMoveModel.v)
* Proof: simulation of lists of booleans with references as (bitset, bit) which are sent along by moves, step by step and by induction on histories; moves and dangling references also stated for every single state
* Result: Proved. The buffer is std::vector with equal allocators, whose moves hand the block over. Moving a bitset to itself is outside (the standard leaves the vector unspecified).
* Theorems: `C119_history`, `C119_moves`, `C119_dangling`

### C120 Bodies of generators may use any generator, also the one they are run by — partial

Through pointers and references, beyond generators of its own (C104), the body of a generator may create, ask, resume, move, reset and destroy generator objects, while others do the same between its steps; next() always returns what the body of this generator yields next, throws what it throws, and gives nothing when it ended, range-for meets what next() would give, and no coroutine frame is leaked. This is false for a body which uses the generator it is run by: next(), done(), reset(), destruction and assignment are undefined then; when it moves its own generator away, next() and begin() use a null handle (iterators there are already go on), and when it puts another generator in its place, next() returns what is in the promise of that one. Proved: for all bodies and histories in which no call touches a generator whose body runs, other than to ask whether it has a handle.

* Modelled: generator.hpp: coroutine frames which are suspended, running or finished, with promise and exception; generator objects with handles, reachable from every body; bodies as arbitrary machines whose calls run in the same store; next() reads the handle again behind safe_resume, as the code does (GenReentModel.v)
* Proof: simulation of generators as rests of bodies, a running one being busy, by induction on the steps of all bodies together; busy generators keep their handles through every call; refutations for every state and body of the given shape
* Result: False for a body which uses its own generator: next, done, reset, destruction and assignment are undefined in every state (C120_own_refuted), moving it away makes the next() which resumed the body undefined (C120_moved_refuted), replacing it makes next() answer with the value of another generator (C120_replaced_refuted). Proved: all bodies, histories and numbers of steps in which no generator whose body runs is touched (C120_history_partial, C120_call_partial), without leaks; range-for then gives what next() would (C120_range_partial). An iterator goes on when the body moves its own generator away (C120_iterator_follows), but a range-for which begins with that is undefined (C120_range_moved_refuted). Which calls are undefined is said for all states, histories and depths (C120_undefined, C120_undefined_history, C120_range_refuted). C104 is about generators which are local to bodies.
* Theorems: `C120_history_partial`, `C120_call_partial`, `C120_own_refuted`, `C120_undefined`, `C120_undefined_history`, `C120_moved_refuted`, `C120_replaced_refuted`, `C120_range_partial`, `C120_iterator_follows`, `C120_range_moved_refuted`, `C120_range_refuted`

