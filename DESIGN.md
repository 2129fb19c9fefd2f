# Formal model of vecmem in Rocq: design

This directory holds an executable Gallina model of `acts-project/vecmem`
(sources in `/repo`, read as text) and machine-checked theorems about it.
The list of properties is in `properties.jsonl`; the map from properties to
theorem names is `MANIFEST.json`; mutation experiments are logged in
`seeded/LOG.jsonl`.

## 1. How the code is modelled

* **Values.** Addresses, sizes and alignments are `Z`.  Indices into lists
  are `nat`.  Wrap-around of 64-bit and 32-bit integers is written explicitly
  (`mod 2^64`, `mod 2^32`) where the code relies on it or where a property is
  about overflow; elsewhere the theorem states the bound it needs.  `nullptr`
  is address `0`.
* **Outcomes.** Every operation that may fail returns `Ret v`, `Throw e`
  (a C++ exception) or `UB` (undefined behaviour *or* a failed `assert`, the
  debug-build view of the same violated precondition).  Nothing is totalised
  silently: reading an empty free list, dereferencing `end()`, an out-of-range
  page index all yield `UB`, and so does running out of fuel in the few
  functions that need it.
* **Upstream memory resources** are adversarial: an oracle `nat -> option Z`
  gives the answer to the n-th upstream request (`None` is `std::bad_alloc`),
  and all calls are logged.  A theorem quantifies over all oracles; the
  contract an upstream must keep (blocks disjoint, aligned, non-null) is a
  predicate on the log, stated as an explicit hypothesis.
* **Histories** are inductive `reach` relations: initial state, any request,
  and deallocation of a live block with its original arguments (the contract
  of `std::pmr`).  Properties are proved for every reachable state.
* **Interleavings** are small-step relations in which every atomic access is
  one step; theorems quantify over all schedules.
* **Memory** for copies is a map from addresses to bytes with explicit
  definedness; object lifetimes (`static_vector`, `device_vector`,
  `unique_ptr`) are tracked per slot.
* **Device runtimes** (CUDA, HIP, SYCL) are modelled by their contracts only:
  in-order streams or out-of-order queues, events, allocation calls with a
  current device.

Files: `X.v` hold only definitions (with the source lines they model),
`XProofs.v`/`XTheorems.v` lemmas, and `PropX.v` the property theorems, with
`Print Assumptions` beneath each and `Example`s showing that the hypotheses
are met by a concrete non-trivial case.

A property that turned out to be false of the code has a theorem
`Cnn_..._refuted`, which states the negation (by a witness in the model), and
a theorem with the suffix `_partial` for the part that does hold; its status
in the manifest is "partial".

## 2. Property by property

(model file(s); proof method; R = refuted in general by a witness, with a
restricted theorem proved)

| id | model | proof |
|----|-------|-------|
| C01, C02 | `IntMath`: loops of `round_up`, `clzl` with explicit 64-bit words | arithmetic, induction on the loop |
| C03-C07 | `Buddy`, `BuddyTree`: heap-indexed page arrays, superpage list, find/split/unsplit loops | invariant (tree shape, live = OCCUPIED pages), dyadic interval lemma |
| C08, C55 | same | R |
| C09-C11, C13, C63 | `Pool`: buckets, chunks, oversized list, cache | invariant over histories |
| C12, C14, C62, C64 | same | R |
| C15-C19, C66 | `Arena`, `ArenaSets`: address-ordered sets, first fit, coalescing, expand | R |
| C20, C113, C114 | same | invariant under a non-adjacency hypothesis; tiling; first fit |
| C21, C22 | `Contiguous`: `std::align` bump pointer | invariant |
| C23-C26 | `Forwarding`: choice, coalescing, conditional, debug | invariants / trace equations |
| C27, C28 | `Instrument`: events, hooks, monitor | trace equations and sums |
| C56, C57 | same | R |
| C29 | `Sync`: threads, lock, upstream | interleaving invariant; linearization = lock order |
| C30 | `HostRes` | trace function |
| C31, C58 | `HostRes`: `aligned_alloc`, `malloc` with bookkeeping | arithmetic modulo 2^64; C58 R |
| C32, C33, C59-C61 | `UniquePtr`: `make_unique_*`, deleters, allocator | trace equations; C33, C59, C60 R |
| C65 | `Align`: `std::align`, `is_aligned` | arithmetic; R |
| C34-C36, C67-C70, C117 | `Placement`: aligned_multiple_placement, `vector_buffer`, `jagged_vector_buffer` | induction over the list of types; C67, C68, C70 R |
| C50, C71, C72 | `EdmBuffer`: SoA buffers | induction over the schema; C71 R |
| C37, C38, C51, C73, C74 | `DeviceVector`, `AppendConc`: sequential and interleaved | refinement to lists; induction over schedules; C73, C74 R |
| C39-C41, C75-C77 | `StaticVector`, `Slots`: slots with lifetimes | refinement; C40, C41, C75, C76 R |
| C42-C46, C78-C81 | `Copy`: byte memory, vector and jagged copies | equations on the memory; C42, C46, C78, C79 R |
| C82-C87 | `EdmCopy`: copies of SoA containers | equations on the memory; C83, C84, C86, C87 R |
| C118-C121 | `CopyHost`, `EdmToHost`: copies into new or resized targets | reduction to the copies above; C118 R |
| C47, C48, C88-C91, C115 | `Atomics`: compare-exchange loops, builtins, fallback | induction over schedules; C48, C90 R |
| C49, C92-C94 | `EdmHost` | induction over the schema; C94 R |
| C124, C125 | `EdmDevice` | address arithmetic over the layout of C50 |
| C129, C130 | `Kernel`: threads appending at byte level; buffer, setup, kernel, copy back | simulation by the abstract threads of C28; composition |
| C134 | `JaggedKernel`: threads appending to the inner vectors of a jagged vector, description read from memory | one invariant per inner vector; frame steps for the others |
| C135 | jagged buffer, setup, jagged kernel, copy back to a vector of vectors | composition of C36, C121, C134 and C119 |
| C136 | `EdmKernel`: threads calling `edm::device::push_back_default` and assigning through proxies | invariant over indices claimed and cells owned; rank for termination |
| C137 | SoA buffer, setup, kernel, copy to `edm::host` | composition of C50, C86_setup_partial, C136 and C120 |
| C138 | `Races`: the accesses of every step of `Kernel` and `JaggedKernel` | invariants of C129 and C134; a claimed index stays with its thread |
| C139 | `Races`: the accesses of every step of `EdmKernel` | invariant of C136; witness for the plain read of the counter |
| C140 | `Stack`: any list of resources, the upstream log of one being the calls of the next; the models of C01–C14, C21, C27, C28 and the forwarding resources | rules that every resource keeps (`StackProofs`), induction on the stack; the invariants of the single resources |
| C141 | `SyncStack`: the mutex of `Sync` (C29) over the stacks of C140 | invariant over interleavings: the live blocks are those held by the threads and those of calls in flight |
| C142 | `EdmHostData`: `edm::data` and `get_data` of `edm::host`, with the log of the memory resource and the written memory | induction over the variables: the live blocks are those of the variables not yet handled, of the new descriptions and of earlier users; failures at any allocation |
| C143 | `Graph`: any numbered list of resources over a log that names the called resource; the layers of C140 and the choice and coalescing resources of `Forwarding` | rules that every node keeps (`GraphProofs`), replacing the calls of one node at a time by those it makes; progress by running the requests of a node one after the other (`GraphProgress`) |
| C144 | `Tuple`: objects in a store, members that are objects or references, all constructors, get, tie, make_tuple | conversion is construction from the elements; induction on the list of types |
| C145 | `ProxyTypes`: types and constness of the expressions in the proxies; a body that does not compile is a distinct result | case analysis of variables, containers and proxies; induction on the schema |
| C146 | `SyncPrivate`: the calls of one thread at the synchronized resource of `SyncStack`, with a stack (`Stack`) of its own above | induction over the execution: the blocks held by all threads are owned by one thread each; the stack theorem (C140) for the resources of one thread gives the legality of the next call, C141 for the shared ones its correct answer |
| C147 | `SyncCopy`: objects with a mutex each and the upstream resource they were given or copied; threads as in `Sync`, each call through one object | a witness of two overlapping calls; for one object the holder of its mutex is the thread inside the call (induction over the execution) |
| C148 | `MemOrder`: machine that performs the accesses of a thread out of order unless they are on one location or separated by fences, acquire, release or sequentially consistent accesses; the accesses made by every function of the three implementations | what must keep its order keeps it in all runs (induction on the schedule with the accesses that are left); chains through the fences; values: the only write to a location decides what later reads see; witnesses for the ignored orders |
| C149 | `HostMemory`: vectors with polymorphic allocators (resource and elements) as in the standard, edm::host as vectors and a stored resource, programs that construct, copy, move, assign, resize and change containers | invariant of all programs for inner vectors; invariant of the programs without copies from and assignments between other resources; what the others do |
| C150 | `HostMemory`: moved-from vectors are empty; overload resolution of the brace initialisation in host_alloc | invariant of programs without moves; witnesses |
| C151 | `ConstViews`: a small language over views with a type checker (what compiles) and an untyped semantics | type soundness by an invariant that records the types with which arrays of inner views were made; witness |
| C152 | `ConstViews`: the enabling conditions of the converting constructors | reflection of the boolean conditions into relations, which are preorders; witness |
| C153 | `SyncGraph`: threads with stacks of nested calls; entering a synchronized resource locks its mutex | locks are taken in descending order of the numbers of the resources, so that the waiting thread with the lowest one gives a thread that can go on; invariant for exclusion |
| C154 | `BufProg`: programs of constructions, moves, destructions, setup, memset, copies, reads and writes of any number of vector buffers, on the functions of `Placement` and `Copy`; a judge of results by independent lists | invariant: every buffer has its own live block, with header and elements in it, that agrees with its list; each operation changes bytes of one block only; graphs by C143 |
| C155 | `KernProg`: the programs of `BufProg` with launches of kernels whose threads read an element of one buffer and may `push_back` to another, step by step in any schedule | simulation by the appending kernel of C129 (threads that append nothing are dropped, the others renumbered), whose changes stay in the block of the output; then the invariant of C154 |
| C156 | `KernRaces`: the accesses of the next step of a thread of a kernel of `KernProg` | threads that do not append only read the block of the input; two that append have different positions in the simulating kernel of C155, so that C138 applies |
| C157 | `ElemProg`: programs of C155 and kernels whose threads are trees of size reads and byte reads and writes of elements | ghost lists for every thread, as if it were alone; bytes owned by at most one thread; simulation of C154 per step; the final lists agree byte by byte |
| C158 | `ElemProg`: accesses of the next step of each thread | every access is to the size or to a byte in the footprint of its thread; buffers are disjoint |
| C159 | `HistProg`: threads that read an element and add to words of another buffer | additions commute, so the pending additions of all threads can be folded in any order; the invariant of C130 holds after every step |
| C160 | `HistProg`: accesses of the next step of each thread | every access is a read in the input buffer or an atomic access in the other one; buffers are disjoint |
| C161 | `StreamProg`: programs of `BufProg` with a stream that lags behind by any number of operations | the memory after the pending operations satisfies the invariant of C154; the pending operations touch only busy buffers, so they commute with what the host does (frame lemma) |
| C162 | `StreamProg`: `QWait` on the event of the last call | witness: setup of a fixed buffer after a memset; otherwise the tags on the stream are sorted and below the event |
| C163 | `StreamsProg`: `StreamProg` with a stream for every call; any stream may go on | what a pending operation writes is in a buffer that other streams do not use, so operations of different streams commute; invariant `J` of C161 in the order of issue |
| C164 | `StreamsProg` judged by `qjudge_all` of C161 | witness: memset on one stream, copy on another; with one stream both judgements agree |
| C126-C128 | `Views`: views, `get_data`, `jagged_vector_data` | byte-level encoding of views; C126 R |
| C52, C53, C95, C96 | `Iterators`: reverse and jagged iterators, arrays | arithmetic |
| C54, C97-C100 | `Async`, `AsyncJagged`: stream FIFO, events, host programs | simulation by the synchronous copy; C99, C100 R |
| C131-C133 | `Backends`: do_copy and do_memset of all backends, CUDA events | case analysis; induction over the calls of the user; C131, C133 R |
| C101 | `Sycl`: out-of-order queue | permutation of independent operations; R |
| C102-C107, C116 | `Devices`: CUDA/HIP/SYCL memory resources | trace equations; C103, C105-C107 R |
| C108-C112 | `Wrappers`: stream and queue wrappers | invariant of reference counts; C109, C111, C112 R |
| C122, C123 | `ResEqual`: `do_is_equal` of stacks of resources | induction on the stack; C122 R |

### What is not modelled

Template overload resolution and SFINAE, `const` correctness, type traits,
debug printing and timing values in events, the bodies of the CUDA, HIP and
SYCL runtimes, memory orders weaker than sequential consistency, the C++ rules
on pointer provenance, the contents of `std::` containers other than through
their documented behaviour, floating-point rounding in
`memory_monitor::average_allocation`, the build system, tests and benchmarks.
The simplifications of each part are listed in the header comment of the model
file and at the definitions.

## 3. Trusted base

* The Coq 8.16.1 kernel, including `vm_compute`, which closes some of the
  examples and witnesses.
* The reading of the C++ sources: each definition cites the lines it models.
* The specifications in the theorem statements and the predicates they use
  (`upstream_ok`, `frees_ok`, the `reach` relations, ...), and the stated
  contracts of the standard library and of the device runtimes.
* What `Print Assumptions` lists: every property theorem is reported as
  "Closed under the global context"; no theorem depends on an axiom.
* Loading `lia` and `zify` pulls in `Coq.ssr.ssrunder`, whose module type
  `Under_rel` is reported by `coqchk` as seven entries of the library context:
  `Coq.ssr.ssrunder.Under_rel.Under_rel`, `.Under_rel_from_rel`, `.Under_relE`,
  `.Over_rel`, `.over_rel`, `.over_rel_done`, `.under_rel_done`.  They belong
  to the standard library, are opaque constants of a module in it, and no
  theorem here depends on them.

There are no axioms, parameters or section-less variables in `theories/`, and
no functors or module types.

## 4. Testing the theorems: mutants

Mutants of the model are made in a scratch copy outside this directory: a
boundary is moved, a case dropped, an argument swapped, an update forgotten.
The copy is rebuilt; where a proof fails, it is replaced by `Admitted` (in the
scratch copy only) so that the later files can be built too.  A claim counts
as killed if one of its theorems fails itself or depends, by the references
in the `.glob` files, on a lemma whose proof failed.  This is an
over-approximation: a proof script may fail although the statement is still
true, so a kill shows only that the theorem does not go through unchanged.  A
surviving mutant is the strong signal: its claim's theorems are true of the
wrong program.  Each survivor was either shown to be equivalent to the
original, or led to a stronger theorem; `seeded/LOG.jsonl` names the theorems
that were tightened, and such mutants were run again afterwards.

## 5. Findings

### Properties that are false of the code

The witness is in the theorem named; the reference is to the sources.

* **C08, binary_page: the alignment argument is honoured.** False: the
  alignment argument is ignored; witness: alignment 64 requested, upstream
  block at 4112 (16-aligned as asked), result 4112. Proved instead: every
  block is 16-aligned. (`C08_refuted`;
  core/src/memory/details/binary_page_memory_resource_impl.cpp: allocate
  (alignment parameter unused))
* **C12, pool: option validation guarantees safe operation.** False:
  min_blocks_per_chunk = min_bytes_per_chunk = 0 is accepted and the first
  allocation calls back() on an empty vector; min_bytes_per_chunk = 1000 with
  min_blocks_per_chunk = 1 is accepted and fails assert(bytes >=
  min_bytes_per_chunk). Proved instead under opts_safe, which the default
  options satisfy. (`C12_refuted`;
  core/src/memory/details/pool_memory_resource_impl.cpp: check_valid,
  allocate)
* **C14, pool: the documented cached-size cutoff is respected.** False: the
  size cutoff is not checked again after the search for an aligned block;
  default options, cache {130@32, 65536@64}, request 128@64 gets the
  65536-byte block. Proved instead when all large-enough cached blocks are
  aligned enough. (`C14_refuted`;
  core/src/memory/details/pool_memory_resource_impl.cpp: allocate lines
  114-152)
* **C15, arena: live blocks are disjoint.** False: expand_arena inserts the
  new superblock into the free set and get_block then also merges it with the
  block below, so the set holds overlapping ranges; upstream blocks 4096 and
  4608 of 512 bytes, requests 256, 512, 256. Proved for upstream blocks that
  do not touch (C20). (`C15_refuted`;
  core/src/memory/details/arena_memory_resource_impl.cpp: expand_arena,
  get_block, coalesce_block, first_fit)
* **C16, arena: a successful allocation returns usable memory.** False:
  requests above the superblock size return nullptr without an exception;
  requests within 256 bytes of 2^64 are rounded up to 0 bytes. Proved under
  the conditions of C20. (`C16_refuted`;
  core/src/memory/details/arena_memory_resource_impl.cpp: allocate, get_block,
  expand_arena)
* **C17, arena: deallocating live memory is well defined.** False:
  coalesce_block dereferences end() when the free set is empty. Proved under
  the conditions of C20 for a non-empty free set. (`C17_refuted`;
  core/src/memory/details/arena_memory_resource_impl.cpp: deallocate,
  coalesce_block)
* **C18, arena: maximum_size bounds upstream use.** False: maximum_size_ is
  stored but never compared; initial 512, maximum 600, two superblocks. Proved
  instead: current_size_ counts the bytes held modulo 2^64, and every
  superblock has the initial size or 2^18 bytes. (`C18_refuted`;
  core/src/memory/details/arena_memory_resource_impl.cpp: expand_arena)
* **C19, arena: memory handed back upstream matches what was obtained.** False
  for adjacent upstream blocks, where merged blocks are handed back with sizes
  never obtained. Proved for upstream blocks that do not touch, requests
  within the limits of C20 and a free set that is not empty at destruction.
  (`C19_refuted`; core/src/memory/details/arena_memory_resource_impl.cpp:
  ~arena_memory_resource_impl)
* **C33, unique_obj_ptr: objects are constructed at suitably aligned
  addresses.** False: make_unique_obj calls allocate(s) with the default
  alignment; a type aligned to 64 over an upstream answering 4112 is
  misaligned. Proved instead for alignments up to 16. (`C33_refuted`;
  core/include/vecmem/memory/unique_ptr.hpp: make_unique_obj)
* **C40, static_vector: element lifetimes are balanced.** False:
  static_vector(size, value) sets m_size before calling assign(), whose
  clear() destroys objects that were never created; undefined for every
  positive size and non-trivial type. The partial theorems cover all other
  constructors and all operations. (`C40_refuted`;
  core/include/vecmem/containers/impl/static_vector.ipp:
  static_vector(size_type, const_reference), assign, insert, erase, clear)
* **C41, static_vector: insert of an element of the vector itself.** False:
  insert moves the elements before reading the argument; an argument at or
  beyond pos + n is replaced by the element n places before it. Arguments
  before that are proved correct. (`C41_refuted`;
  core/include/vecmem/containers/impl/static_vector.ipp: insert, emplace)
* **C42, copy: a vector copy makes the target hold the source's elements.**
  False: copying an empty source returns early and leaves a resizable target
  with its old size. Proved for non-empty sources. (`C42_refuted`;
  core/include/vecmem/utils/impl/copy.ipp: copy_view_impl (vector))
* **C46, copy: memset fills exactly the payload.** False: for an empty jagged
  view is_contiguous is called with size 0, against its assert. Proved for one
  dimensional views and for jagged views with at least one inner vector.
  (`C46_refuted`; core/include/vecmem/utils/impl/copy.ipp: memset,
  memset_impl, is_contiguous)
* **C48, atomic<T>::compare_exchange_strong reports success.** False: the
  CUDA/HIP branch returns the old value converted to bool and never updates
  expected. Proved for the SYCL and host branches. (`C48_refuted`;
  core/include/vecmem/memory/impl/atomic.ipp: compare_exchange_strong)
* **C55, binary_page: a completely free superpage serves every request it can
  hold.** False: a superpage is skipped for requests below its smallest page
  size (find_free_page, line 204); witness: free 2^30-byte superpage, request
  of 100 bytes goes upstream. C05/C06 state exactly when a free superpage does
  serve. (`C55_refuted`;
  core/src/memory/details/binary_page_memory_resource_impl.cpp: find_free_page
  (line 204))
* **C56, memory_monitor: average_allocation is defined in every state.**
  False: before the first allocation the average is 0/0, a NaN, whose
  conversion to std::size_t is undefined. Proved instead: with at least one
  recorded allocation the result is the quotient rounded to nearest (floating
  point taken as exact). (`C56_refuted`; core/src/utils/memory_monitor.cpp:
  average_allocation)
* **C57, memory_monitor: can be attached at any time.** False: allocate 10
  bytes, attach a monitor, free the block: outstanding (0) is smaller than 10,
  the assert of pre_deallocate fails (in release builds the counter wraps).
  Proved for a monitor attached while no block is live. (`C57_refuted`;
  core/src/utils/memory_monitor.cpp: constructor, pre_deallocate)
* **C58, host_memory_resource: never hands out less than requested.** False:
  2^64-8 bytes at alignment 16 ask aligned_alloc for 0 bytes; 2^64-22 bytes
  ask malloc for 1 byte and the bookkeeping pointer is written out of bounds.
  C31 covers sizes below 2^63. (`C58_refuted`;
  core/src/memory/host_memory_resource.cpp: do_allocate)
* **C59, make_unique_obj / new_object: exception safety.** False: a throwing
  constructor leaks the block and leaves the elements constructed so far
  alive; C59_lost_partial states exactly what is left for every element index.
  (`C59_refuted`; core/include/vecmem/memory/unique_ptr.hpp: make_unique_obj)
* **C60, array functions: the byte count is not smaller than the array.**
  False: n = 2^61+2 elements of 8 bytes allocate 16 bytes. Proved when n *
  sizeof(T) is below 2^64. (`C60_refuted`;
  core/include/vecmem/memory/unique_ptr.hpp)
* **C62, pool: a fitting cached block within the cutoffs is used.** False: the
  alignment cutoff is applied to the first candidate only; default options,
  cache {128@4096, 256@64}, request 128@64 goes upstream. Proved when no
  suitable cached block is beyond the alignment cutoff. (`C62_refuted`;
  core/src/memory/details/pool_memory_resource_impl.cpp: allocate lines
  114-160)
* **C64, pool: invalid options are reported by an exception.** False:
  smallest_block_size = 0 reaches log2_ri(0), which is undefined, in the
  initialiser list before check_valid. Proved for non-zero sizes.
  (`C64_refuted`; core/src/memory/details/pool_memory_resource_impl.cpp:
  constructor, check_valid)
* **C65, is_aligned is exact.** False: for alignment 2^62 the space
  4*alignment wraps to 0. Proved for alignments up to 2^61. (`C65_refuted`;
  core/src/memory/details/is_aligned.cpp: is_aligned)
* **C66, arena: requested alignment is respected.** False: the alignment
  argument is ignored; alignment 32, upstream block at 4112. Proved under the
  conditions of C20 for alignments up to 16. (`C66_refuted`;
  core/src/memory/details/arena_memory_resource_impl.cpp: allocate, get_block)
* **C67, aligned_multiple_placement: oversized requests are reported.** False:
  the byte count wraps: counts 2^61 and 2^61+1 of 8-byte elements allocate 24
  bytes, the first pointer is null and the second sub-array leaves the block.
  C34 covers totals below 2^64. (`C67_refuted`;
  core/include/vecmem/containers/impl/aligned_multiple_placement.ipp)
* **C68, jagged_vector_buffer: payload aligned for the element type.** False:
  the fixed-size buffer allocates raw bytes with the default alignment; a type
  aligned to 32 over an upstream block at 20112 is misaligned. Proved instead
  for resizable buffers and for alignments up to 16. (`C68_refuted`;
  core/include/vecmem/containers/impl/jagged_vector_buffer.ipp:
  jagged_vector_buffer)
* **C70, jagged_vector_buffer: requested capacities are preserved.** False:
  capacities are cast to a 32-bit size type; 2^32+5 becomes 5. C36 covers
  capacities below 2^32. (`C70_refuted`;
  core/include/vecmem/containers/impl/jagged_vector_buffer.ipp:
  jagged_vector_buffer)
* **C71, edm::buffer: the payload view covers the payload at any size.**
  False: the length of the view is cast to a 32-bit size type; one jagged
  vector of 2^29+1 doubles gives an 8-byte payload view. C50 covers memory
  needs below 4 GiB. (`C71_refuted`; core/include/vecmem/edm/impl/buffer.ipp:
  setup_fixed, setup_resizable)
* **C73, device_vector: bulk_append_implicit beyond the capacity is caught.**
  False: the assert compares (index + n) in 32 bits: size 2, capacity 5, n =
  2^32-1 passes the assert and leaves size 1. C37 covers calls within the
  capacity. (`C73_refuted`;
  core/include/vecmem/containers/impl/device_vector.ipp: bulk_append_implicit,
  bulk_append_implicit_unsafe)
* **C74, device_vector: a reader concurrent with push_back may read every
  element below size().** False: the size is incremented before the element is
  constructed; a reader between the two steps sees an unconstructed element.
  C38 covers the state after all calls have returned. (`C74_refuted`;
  core/include/vecmem/containers/impl/device_vector.ipp: push_back, size)
* **C75, static_vector: copy assignment replaces the elements properly.**
  False: the implicit copy assignment copies the bytes; old elements are not
  destroyed, and the new ones were never constructed. The values read are
  proved right. (`C75_refuted`;
  core/include/vecmem/containers/static_vector.hpp: static_vector (no copy
  assignment declared))
* **C76, static_vector: elements are suitably aligned.** False: the elements
  start 8 bytes into an object of alignment 8; element types of alignment 16
  are misaligned. Proved for alignments dividing 8. (`C76_refuted`;
  core/include/vecmem/containers/static_vector.hpp: array_type, m_size,
  m_elements)
* **C78, copy: copying into a fixed-size target yields a target equal to the
  source.** False: a source of 2 elements copied into a fixed-size target of 5
  succeeds and keeps the last 3 old elements. (`C78_refuted`;
  core/include/vecmem/utils/impl/copy.ipp: copy_view_impl (vector), 500-539)
* **C79, copy: set_sizes reports inconsistent targets.** False: with a
  resizable inner vector before a fixed one, set_sizes silently does nothing.
  Proved when a fixed inner vector comes before a resizable one.
  (`C79_refuted`; core/include/vecmem/utils/impl/copy.ipp: set_sizes, 294-320)
* **C83, edm copy: no target vector gets a size beyond its capacity.** False:
  only the lengths of the payloads are compared. Jagged vectors with
  capacities 2,3 and 3,2, or a vector of 2 chars and one of 1 char before a
  padded scalar, are copied without an error and leave a size beyond the
  capacity. With equal capacities C82 gives the exact contents.
  (`C83_refuted`; `C83_padding_refuted`;
  core/include/vecmem/utils/impl/copy.ipp: operator() (edm::view), 386-388)
* **C84, edm copy: a copy that reports a length error has not written
  anything.** False: the numbers of size variables are compared after the
  payload has been overwritten. (`C84_refuted`;
  core/include/vecmem/utils/impl/copy.ipp: operator() (edm::view), 399-416)
* **C86, edm setup: a resizable container is empty afterwards.** False: setup
  returns early for a capacity of zero, but a resizable buffer without jagged
  vectors has a size variable even then; get_size reads it uninitialised.
  Proved for non-zero capacities. (`C86_refuted`;
  core/include/vecmem/utils/impl/copy.ipp: setup (edm::view), 330-360;
  get_size, 448-485)
* **C87, edm memset: exactly the payload is set.** False: a buffer without any
  payload and with a jagged vector runs into the assert of is_contiguous.
  Proved for non-empty payloads. (`C87_refuted`;
  core/include/vecmem/utils/impl/copy.ipp: memset (edm::view), 362-376;
  memset_impl, 745-763)
* **C90, dummy_device_atomic_ref: calls are atomic with its own
  compare_exchange_strong.** False: reading and writing are separate accesses;
  an addition is lost, and load(), which writes back a zero, undoes a
  concurrent store. Proved for a single thread. (`C90_refuted`;
  core/include/vecmem/memory/impl/dummy_device_atomic_ref.ipp:
  compare_exchange_strong, 86-93; load, 49-51)
* **C94, edm::host: a resize that throws leaves a usable container.** False:
  the variables are resized one after the other; after a bad_alloc the first
  ones have the new size, and size() throws length_error. (`C94_refuted`;
  core/include/vecmem/edm/details/host_traits.hpp: host_resize, 134-150)
* **C99, asynchronous copies: a call that throws leaves nothing in flight.**
  False: the copy of an SoA container variable by variable throws length_error
  on the second variable while the copy of the first one is in flight, without
  an event to wait for. Proved for vectors and for length errors of jagged
  vectors. (`C99_throw_refuted`; core/include/vecmem/utils/impl/copy.ipp:
  operator() (edm::view), 378-432; copy_payload_impl, 904-926)
* **C100, asynchronous copies: functions wait on or ignore every event that
  they do not return.** False: memset of an SoA container drops the events of
  the inner calls. Proved for all functions on vectors, setup and memset of
  jagged vectors, setup of containers. (`C100_events_refuted`;
  core/include/vecmem/utils/impl/copy.ipp: memset (edm::view), 362-376;
  memset_impl, 745-763)
* **C101, sycl::async_copy: the operations are performed in the order in which
  they were issued.** False: the queues that the library makes are out of
  order, and async_copy passes no dependencies. Proved for operations that do
  not conflict. (`C101_order_refuted`; sycl/src/utils/sycl/async_copy.sycl)
* **C103, select_device: device() is the selected device.** False: device()
  returns the device that was current before; the claim holds only if that was
  d. (`C103_device_refuted`; cuda/src/utils/select_device.hpp)
* **C105, device resources: equal resources provide the same kind of memory.**
  False: device, host and shared SYCL resources on one queue are equal. Proved
  for the others. (`C105_kind_refuted`;
  sycl/src/memory/memory_resource_base.sycl: do_is_equal, 34-43)
* **C106, coalescing resource over device resources: falls back when an
  upstream is out of memory.** False: the CUDA and HIP resources throw
  runtime_error, only bad_alloc is caught. Proved for lists of SYCL resources.
  (`C106_coalescing_refuted`;
  core/src/memory/details/coalescing_memory_resource_impl.cpp: allocate,
  31-53)
* **C107, device resources: alignment.** False: the CUDA and HIP resources
  ignore the alignment. Proved for alignments up to that of the runtime.
  (`C107_alignment_refuted`; cuda/src/memory/device_memory_resource.cpp:
  do_allocate)
* **C109, cuda::stream_wrapper: assignment.** False: assigning a view of its
  own stream to the only owner destroys the stream. Proved if the right-hand
  side is an owner or a view of a foreign stream. (`C109_assign_refuted`;
  cuda/src/utils/stream_wrapper.cpp: operator=)
* **C111, sycl::queue_wrapper: a copy denotes the same queue.** False:
  assigning a view to an owner keeps the owned queue, and later copies are
  made of that. Proved for wrappers that denote what they own, and for views.
  (`C111_copy_refuted`; sycl/src/utils/sycl/queue_wrapper.sycl: copy
  constructor, copy assignment)
* **C112, sycl::queue_wrapper: move assignment.** False: moving a view of its
  own queue to the owner leaves a dangling pointer. Proved for sources that
  denote what they own, and for views of anything else. (`C112_move_refuted`;
  sycl/src/utils/sycl/queue_wrapper.sycl: move assignment)
* **C118, copy::to for jagged vectors.** False: the constructor of the buffer
  dereferences the pointers to the sizes on the host, which is undefined for
  resizable device buffers. Proved if the sizes are in host memory or the
  source is not resizable. (`C118_refuted`;
  core/include/vecmem/utils/impl/copy.ipp: to, 215-234)
* **C122, memory resources: is_equal is an equivalence relation.** False: a
  synchronized resource calls its own upstream resource equal, but not the
  other way round. Proved: is_equal is reflexive and transitive, and symmetric
  exactly between stacks with the same layers. (`C122_refuted`;
  core/src/memory/synchronized_memory_resource.cpp lines 59-73)
* **C126, get_data: the view describes the vector.** False: get_data casts the
  size to unsigned int, so that the view of 2^32 + 1 elements has size 1.
  Proved for fewer than 2^32 elements. (`C126_refuted`;
  core/include/vecmem/containers/impl/vector.ipp lines 12-28)
* **C131, copy: the implementations of do_copy and do_memset agree.** False:
  vecmem::copy passes null pointers of empty vectors on to ::memset and
  ::memcpy, which the C standard does not allow even for zero bytes (e.g.
  memset of a jagged vector with an empty inner vector). Everything else is
  proved; memset for sizes up to 2^63 - 9. (`C131_refuted`;
  core/src/utils/copy.cpp)
* **C133, cuda::async_copy: errors reported by an event can be handled.**
  False: the destructor of an event waits again, and an exception from a
  destructor ends the program; errors of CUDA that persist therefore end it
  although the exception was caught. Proved: a single error can be handled, if
  wait or ignore is called. (`C133_refuted`;
  cuda/src/utils/cuda/async_copy.cpp lines 34-62)
* **C139, edm::device: concurrent push_back_default and at are free of data
  races.** False: edm::device::size reads the counter with *m_size, without an
  atomic operation, and at calls it in its assertion; another thread may
  increase the counter at the same time. Proved: no other accesses conflict,
  so a build with NDEBUG that does not call size() while elements are appended
  is free of races. (`C139_refuted`; core/include/vecmem/edm/impl/device.ipp
  lines 33-42 (size))
* **C142, edm::host: the views made by get_data.** False: for containers whose
  variables are all scalars, get_data default-initialises its result and never
  sets the capacity and size (host.ipp lines 211-226; view() = default leaves
  m_capacity and m_size indeterminate, view.hpp lines 70 and 168-189), so that
  making an edm::device from it uses indeterminate values (C142_refuted, for
  all such containers). Everything else of the statement is proved, for all
  containers with at least one vector variable (C142_access, C142_memory,
  C142_length). (`C142_refuted`; core/include/vecmem/edm/impl/host.ipp lines
  165-300)
* **C145, edm proxies: every variable can be accessed from const and non-const
  containers.** False: in a device container with a jagged vector of non-const
  elements, at() const and operator[]() const do not compile, because the
  constant proxy wants a jagged_device_vector<const T> and gets a
  jagged_device_vector<T>, between which there is no conversion; for the same
  reason the const get() of a non-const proxy does not compile for this
  variable (C145_refuted, C145_ill_formed). C145_access_partial: all other
  accesses compile and give access to the right data with the right constness.
  (`C145_refuted`; core/include/vecmem/edm/details/proxy_traits.hpp:
  proxy_var_type, 51-241; proxy_data_creator, 250-381)
* **C147, synchronized: copies of a synchronized resource synchronize with
  each other.** False: every object has a mutex of its own, while copies and
  moved-from objects share the upstream resource: a thread can be inside a
  call of the upstream resource through one object when another thread begins
  a call of it through a copy. Proved: calls through the same object exclude
  each other, and so do all calls of an upstream resource that only one object
  uses. (`C147_refuted`; core/src/memory/synchronized_memory_resource.cpp
  lines 13-57)
* **C148, device_atomic_ref: the requested memory orders are honoured.**
  False: cuda::device_atomic_ref ignores the order of exchange,
  compare_exchange_strong and fetch_* (they call atomicExch etc., which order
  nothing, without a fence), and sycl::custom_device_atomic_ref ignores all
  orders, so that a thread can see a flag changed with a sequentially
  consistent operation and yet the old data (C148_refuted). The partial
  theorems prove the property for all functions of posix_device_atomic_ref and
  for store and load of cuda::device_atomic_ref, which have fences. The
  machine performs every access at one moment for all threads.
  (`C148_refuted`;
  core/include/vecmem/memory/impl/posix_device_atomic_ref.ipp)
* **C149, edm::host: every variable uses the memory resource that resource()
  returns.** False: the implicit copy constructor copies m_resource, but the
  copied vectors use the default memory resource
  (std::pmr::polymorphic_allocator is not propagated by copies); the implicit
  assignments rebind m_resource, but the vectors keep their resource
  (C149_refuted; C149_copy and C149_assign in general). A copy of a container
  in managed or pinned memory is thus not in such memory, and resource() can
  refer to a resource that the container does not keep alive or use.
  C149_resource_partial proves the property for programs that copy only from
  the default resource and assign only between containers with the same
  resource. C149_inner (inner vectors agree with the outer ones in all
  programs) and C149_values (the values are right) have no such restriction.
  (`C149_refuted`; core/include/vecmem/edm/host.hpp: m_data, m_resource,
  148-151)
* **C150, edm::host: scalars always have their value, and new containers are
  empty.** False: scalars are vectors of one element, which are empty after a
  move and are not filled again by resize, so that get is undefined; and
  host_alloc uses braces, with which the initializer_list constructor is
  chosen for element types that a pointer to a memory resource converts to
  (void pointers, std::any): the new vector has the address of the resource as
  its element and uses the default resource (C150_refuted). The partial
  theorems prove the property without moves and for other element types.
  (`C150_refuted`; core/include/vecmem/edm/details/host_traits.hpp: host_type,
  28-53; host_alloc, 70-83)
* **C151, views: const data is not written through the conversions of views.**
  False: the conversion of jagged_vector_view<T> to jagged_vector_view<const
  T> lets both refer to the same array of inner views, through
  reinterpret_cast (jagged_vector_view.ipp lines 27-35), as the conversion of
  T** to const T** would, which C++ forbids; through the second a view of
  const elements can be stored (ptr() is not const), and be taken out through
  the first as a view of non-const elements. Proved for all programs that do
  not store through jagged_vector_view<const T>. (`C151_refuted`;
  core/include/vecmem/containers/data/vector_view.hpp lines 50-90)
* **C152, views: conversions add const and do nothing else.** False: the views
  of scalars are pointers, and std::is_constructible holds also for pointers
  to a derived and to a base class, so that a view of a container with a
  scalar of a derived class converts to one with the base class, while its
  payload still has the layout of the derived class. Proved exactly for
  schemas whose scalars are not related in this way; the other parts are
  proved in full. (`C152_refuted`; core/include/vecmem/utils/type_traits.hpp
  lines 32-94)
* **C162, a wait on the event of the last call finishes the stream.** False: a
  call that has nothing to do (setup of a buffer that is not resizable or has
  no capacity, memset of a buffer without capacity, copy of an empty buffer)
  returns the event of vecmem::copy, whose wait does nothing; operations of
  earlier calls may still be pending. It is proved for calls that have started
  something. (`C162_last_event_refuted`;
  core/include/vecmem/utils/impl/copy.ipp lines 28-63 and 83-95)
* **C164, the rule for one stream is enough for several.** False: a buffer is
  filled on one stream and copied on another; the copy may be performed first
  and copies garbage, although the host waits for the copy before it reads the
  target. It is proved for programs in which all copy objects have the same
  stream. (`C164_streams_refuted`; core/include/vecmem/utils/impl/copy.ipp
  lines 28-63 and 487-539)

### Further observations

Not stated as properties, found while reading or modelling the code:

* `debug_memory_resource::do_allocate` throws when the new block overlaps a
  live one without giving it back upstream.
* `coalescing_memory_resource`: if recording the block throws `bad_alloc`
  after a successful upstream allocation, the block is lost and the next
  upstream is tried.
* `instrumenting_memory_resource` records failed allocations only for
  `bad_alloc`; the CUDA and HIP resources throw `runtime_error`.
* `arena_memory_resource`: with the default initial size the first request
  asks upstream for nearly 2^64 bytes; the destructor may hand back merged
  blocks; the alignment is ignored; requests above the superblock size give a
  null pointer.
* `pool_memory_resource_options`: alignment 0 is accepted, and the product in
  `check_valid` may overflow.
* `edm::device::size()` reads the size without an atomic access, while
  `push_back_default` updates it atomically.
* `array::front() const`, the accessors of `static_array<T, 0>`, copying a
  view of a schema with scalars only into `edm::host`, copying a jagged view
  into a `std::vector<std::vector<T>>` with the default allocator, and the
  `const` `get` of a non-const device proxy on a jagged variable do not
  compile when instantiated.
* `array` can be neither copied nor moved.
* `reverse_iterator` has no difference and ordering operators, so it does not
  model a random access iterator.
* Moved-from `stream_wrapper` and `queue_wrapper` objects keep their plain
  pointer.
* `edm` `get_data` on a host container casts the outer size to 32 bits.
* `get_data` of an `edm::host` container allocates the description of every jagged
  vector twice: once when the result is made, and again when it is filled.
* The concatenation constructor of `vecmem::tuple` accepts a tail whose elements are
  objects for a tuple of const references; the references then denote objects that are
  destroyed with the temporary tail (`C144_dangling_ex`). vecmem does not use it so.
* `device_vector::bulk_append_implicit` passes the element `m_ptr[index]` instead of its
  address to `std::start_lifetime_as_array`: with a standard library that has this function
  the call does not compile, except for elements that are pointers themselves, where the
  indeterminate value of the new element is used as the address.
* `cuda::device_atomic_ref::store` and `load` (and those of `vecmem::atomic`) declare `volatile pointer addr`, which is a volatile pointer to a plain `T` and not a pointer to a volatile `T`: the accesses to the value themselves are plain ones. C148 treats them as such; the fences around them are what orders them.
* `edm::details::host_alloc` initialises the vectors of host containers with braces. For `bool`
  variables this selects the initializer_list constructor with a narrowing conversion from a
  pointer, so that host containers with `type::scalar<bool>` or `type::vector<bool>` do not compile
  (C150 has the element types for which the wrong constructor is called).
