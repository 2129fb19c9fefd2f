{"id": "C01", "title": "round_up yields the least sufficient power-of-two exponent", "statement": "For every request size n with 0 <= n <= 2^63, round_up(n) returns the least i < 64 such that 2^i >= n; for n in (2^63, 2^64) a release build returns 0 (so 2^0 < n) and a debug build asserts.", "quantifier": "all 64-bit sizes n", "why_tests_cant": "2^64 inputs; unit tests sample a handful of sizes and the off-by-one cases sit at powers of two", "anchors": ["core/src/utils/integer_math.hpp: round_up"]}
{"id": "C02", "title": "log2, log2_ri and is_power_of_2 compute floor/ceil logarithms", "statement": "For every 0 < n < 2^64: log2(n) is the greatest i with 2^i <= n, log2_ri(n) the least i with 2^i >= n; is_power_of_2(n) holds exactly when n = 0 or n is a power of two.", "quantifier": "all 64-bit n", "why_tests_cant": "2^64 inputs", "anchors": ["core/src/utils/integer_math.hpp: clzl, log2, log2_ri, is_power_of_2"]}
{"id": "C03", "title": "binary_page: live blocks are disjoint and lie inside upstream memory", "statement": "In any history of allocate/deallocate calls on a binary_page_memory_resource (each deallocate naming a live block with its original size), at every point all live blocks have pairwise disjoint address ranges, and every block of requested size s lies inside one block obtained from upstream, provided upstream's own blocks are disjoint.", "quantifier": "every upstream behaviour, every legal call history of any length, every size up to 2^63", "why_tests_cant": "histories are unbounded; overlap needs particular split/merge patterns over several superpages", "anchors": ["core/src/memory/details/binary_page_memory_resource_impl.cpp: allocate, deallocate, find_free_page, allocate_upstream, page_ref::split/unsplit/get_addr"]}
{"id": "C04", "title": "binary_page: deallocating live memory never hits undefined behaviour", "statement": "In any legal history on a binary_page_memory_resource no assertion fails, no empty optional is dereferenced and no page index leaves the page array: deallocate of a live block always finds its superpage and the page it maps to is OCCUPIED; allocate always finds a page after a successful upstream allocation.", "quantifier": "every upstream behaviour with disjoint blocks, every legal history, every size up to 2^63", "why_tests_cant": "assertions fire only in states reached by specific histories", "anchors": ["core/src/memory/details/binary_page_memory_resource_impl.cpp: deallocate, allocate, find_free_page"]}
{"id": "C05", "title": "binary_page: memory fully coalesces when everything is freed", "statement": "After any legal history that leaves no live block, every superpage consists of a single vacant root page again, so a following request larger than half the smallest page of some superpage (any request if that smallest page is the 256-byte minimum) and not larger than that superpage is served without asking upstream.", "quantifier": "every legal history of any length that ends with no live blocks", "why_tests_cant": "fragmentation bugs appear only for particular free orders; there are exponentially many", "anchors": ["core/src/memory/details/binary_page_memory_resource_impl.cpp: deallocate, page_ref::unsplit"]}
{"id": "C06", "title": "binary_page: upstream is asked only if no free page fits, and success upstream means success", "statement": "allocate(s) contacts upstream if and only if no vacant page of at least the rounded-up size exists in any superpage whose smallest page size does not exceed the rounded-up size; it throws bad_alloc only when upstream does; and the page taken from existing memory is of the smallest vacant size that fits.", "quantifier": "every reachable state and every size up to 2^63", "why_tests_cant": "depends on global allocator state", "anchors": ["core/src/memory/details/binary_page_memory_resource_impl.cpp: allocate, find_free_page, allocate_upstream"]}
{"id": "C07", "title": "binary_page: every superpage is returned upstream exactly once, with its original size", "statement": "Over the life of a binary_page_memory_resource (history followed by destruction) each upstream allocation is deallocated exactly once, with the same pointer and size, and nothing is deallocated before destruction.", "quantifier": "every history and upstream behaviour", "why_tests_cant": "needs whole-lifetime reasoning", "anchors": ["core/src/memory/details/binary_page_memory_resource_impl.hpp: superpage::m_memory", "core/include/vecmem/memory/unique_ptr.hpp: make_unique_alloc", "core/include/vecmem/memory/details/unique_alloc_deleter.hpp"]}
{"id": "C08", "title": "binary_page: the alignment argument is honoured", "statement": "A pointer returned by binary_page_memory_resource::allocate(size, alignment) is a multiple of alignment, provided upstream honours alignments.", "quantifier": "all sizes and alignments that are powers of two", "why_tests_cant": "alignment of addresses is accidental in tests", "anchors": ["core/src/memory/details/binary_page_memory_resource_impl.cpp: allocate (alignment parameter unused)"]}
{"id": "C09", "title": "pool: live blocks are disjoint", "statement": "In any legal history (power-of-two alignments up to 2^61) on a pool_memory_resource with valid options - accepted by check_valid and with max_blocks_per_chunk * largest_block_size below 2^64 - with pooled and oversized requests mixed and caching on or off, live blocks have pairwise disjoint address ranges and lie in live upstream blocks, provided upstream's live blocks are disjoint.", "quantifier": "every valid option set, upstream behaviour and legal history", "why_tests_cant": "state space of free lists, chunks and oversized cache is unbounded", "anchors": ["core/src/memory/details/pool_memory_resource_impl.cpp: allocate, deallocate"]}
{"id": "C10", "title": "pool: blocks are large enough and aligned", "statement": "With valid options (as in C09), every block returned by pool_memory_resource::allocate(bytes, alignment) has at least bytes usable bytes and an address that is a multiple of alignment, including blocks reused from the oversized cache.", "quantifier": "every valid option set, power-of-two alignment, history", "why_tests_cant": "cache reuse depends on history", "anchors": ["core/src/memory/details/pool_memory_resource_impl.cpp: allocate"]}
{"id": "C11", "title": "pool: upstream memory is released exactly once with matching arguments", "statement": "Over the life of a pool_memory_resource with valid options (as in C09), every upstream deallocation names a live upstream block with the size and alignment it was allocated with, no upstream block is deallocated twice, and after destruction the only upstream blocks not released are oversized blocks the user still holds.", "quantifier": "every legal history followed by destruction", "why_tests_cant": "needs whole-lifetime reasoning over chunks and the cache", "anchors": ["core/src/memory/details/pool_memory_resource_impl.cpp: deallocate, ~pool_memory_resource_impl"]}
{"id": "C12", "title": "pool: option validation guarantees safe operation", "statement": "If the constructor accepts the options (check_valid does not throw) then no later allocate/deallocate in a legal history reads from an empty free list or fails an assertion.", "quantifier": "all option structures accepted by check_valid, all legal histories", "why_tests_cant": "option space is a product of nine 64-bit fields", "anchors": ["core/src/memory/details/pool_memory_resource_impl.cpp: check_valid, allocate"]}
{"id": "C13", "title": "pool: freed pooled blocks are reused LIFO without upstream traffic", "statement": "With valid options (as in C09), after deallocating a pooled block, the next pooled allocation of the same bucket returns exactly that block and makes no upstream call.", "quantifier": "every reachable state and every size/alignment served from pools", "why_tests_cant": "state dependent", "anchors": ["core/src/memory/details/pool_memory_resource_impl.cpp: allocate, deallocate"]}
{"id": "C14", "title": "pool: the documented cached-size cutoff is respected", "statement": "A cached oversized block whose size is at least cached_size_cutoff_factor times the request is never used to serve that request.", "quantifier": "every option set, cache content and request", "why_tests_cant": "needs two cached blocks with particular size/alignment orders", "anchors": ["core/src/memory/details/pool_memory_resource_impl.cpp: allocate lines 114-152", "core/include/vecmem/memory/pool_memory_resource.hpp: cached_size_cutoff_factor"]}
{"id": "C15", "title": "arena: live blocks are disjoint", "statement": "In any legal history on an arena_memory_resource over an upstream whose live blocks are disjoint, live blocks have pairwise disjoint address ranges.", "quantifier": "every upstream behaviour and legal history", "why_tests_cant": "needs an upstream that returns adjacent superblocks", "anchors": ["core/src/memory/details/arena_memory_resource_impl.cpp: expand_arena, get_block, coalesce_block, first_fit"]}
{"id": "C16", "title": "arena: a successful allocation returns usable memory", "statement": "arena_memory_resource::allocate(bytes) either throws or returns a non-null block with at least bytes usable bytes.", "quantifier": "all initial sizes and request sizes", "why_tests_cant": "only requests above the superblock threshold fail, and tests use small ones", "anchors": ["core/src/memory/details/arena_memory_resource_impl.cpp: allocate, get_block, expand_arena"]}
{"id": "C17", "title": "arena: deallocating live memory is well defined", "statement": "In any legal history, arena_memory_resource::deallocate of a live block never dereferences the end iterator of the free-block set.", "quantifier": "every legal history", "why_tests_cant": "needs the free set to be exactly empty", "anchors": ["core/src/memory/details/arena_memory_resource_impl.cpp: deallocate, coalesce_block"]}
{"id": "C18", "title": "arena: maximum_size bounds upstream use", "statement": "The total number of bytes an arena_memory_resource holds from upstream never exceeds its maximum_size argument.", "quantifier": "all histories and size arguments", "why_tests_cant": "limit is only reached by long histories", "anchors": ["core/src/memory/details/arena_memory_resource_impl.cpp: expand_arena", "core/src/memory/details/arena_memory_resource_impl.hpp: maximum_size_"]}
{"id": "C19", "title": "arena: memory handed back upstream matches what was obtained", "statement": "On destruction of an arena_memory_resource every upstream block is deallocated with the pointer and size it was allocated with.", "quantifier": "all legal histories", "why_tests_cant": "needs fragmentation at destruction time", "anchors": ["core/src/memory/details/arena_memory_resource_impl.cpp: ~arena_memory_resource_impl"]}
{"id": "C20", "title": "arena: correct on non-adjacent upstream blocks", "statement": "If upstream never returns two blocks that touch, then in any history of requests that, rounded up to a multiple of 256 bytes, do not exceed the larger of the initial size and 2^18 bytes: the live blocks, each rounded up to a multiple of 256 bytes, are pairwise disjoint, 16-byte aligned and inside live upstream blocks; every allocation succeeds with a non-null pointer or reports an upstream failure; and deallocating a live block is well defined exactly if the free set is not empty.", "quantifier": "every such upstream and history", "why_tests_cant": "unbounded histories", "anchors": ["core/src/memory/details/arena_memory_resource_impl.cpp: allocate, deallocate, first_fit, coalesce_block"]}
{"id": "C21", "title": "contiguous: blocks are aligned, in bounds, disjoint, in increasing order", "statement": "Every block returned by contiguous_memory_resource lies inside the single upstream block, is aligned as requested, and no two blocks ever returned (freed or not) overlap.", "quantifier": "every upstream address, arena size, and sequence of requests", "why_tests_cant": "unbounded sequences; alignment gaps", "anchors": ["core/src/memory/details/contiguous_memory_resource_impl.cpp: allocate"]}
{"id": "C22", "title": "contiguous: allocation fails exactly when the aligned request does not fit", "statement": "contiguous_memory_resource::allocate throws bad_alloc iff no aligned start at or after the bump pointer leaves enough room, a failed request changes nothing, and destruction returns the one upstream block exactly once with its size.", "quantifier": "every state and request", "why_tests_cant": "boundary cases of std::align", "anchors": ["core/src/memory/details/contiguous_memory_resource_impl.cpp: allocate, deallocate, destructor"]}
{"id": "C23", "title": "choice: deallocation goes to the resource that allocated", "statement": "In any legal history over upstreams whose simultaneously live blocks have distinct addresses, choice_memory_resource sends each deallocation, with unchanged arguments, to the very resource the decision function picked when that block was allocated, and the recorded set of live allocations is exact.", "quantifier": "every decision function, upstream behaviour and legal history", "why_tests_cant": "decision function may change its mind between allocation and deallocation", "anchors": ["core/src/memory/details/choice_memory_resource_impl.cpp: allocate, deallocate"]}
{"id": "C24", "title": "coalescing: first non-failing upstream serves, and deallocation returns to it", "statement": "coalescing_memory_resource::allocate returns the answer of the first upstream (in order) that does not throw bad_alloc, throws iff all of them throw, never calls an upstream after a success; and deallocation goes to the upstream that served.", "quantifier": "any number of upstreams, any behaviours, any legal history", "why_tests_cant": "combinations of failing upstreams over histories", "anchors": ["core/src/memory/details/coalescing_memory_resource_impl.cpp: allocate, deallocate"]}
{"id": "C25", "title": "conditional: predicate decides exactly which requests reach upstream", "statement": "conditional_memory_resource forwards allocate(size, align) with size > 0 to upstream unchanged if the predicate accepts it and throws bad_alloc without an upstream call if not; size 0 gives a null pointer without an upstream call; deallocations of non-null pointers are always forwarded unchanged.", "quantifier": "all predicates and requests", "why_tests_cant": "arbitrary predicates", "anchors": ["core/src/memory/details/conditional_memory_resource_impl.cpp: allocate, deallocate"]}
{"id": "C26", "title": "debug: transparent on legal use, rejects every illegal deallocation", "statement": "debug_memory_resource behaves exactly as its upstream in every legal history over a disjoint upstream; every deallocation of an unknown, already freed, or wrongly sized/aligned block throws and is not forwarded; any overlapping allocation is reported.", "quantifier": "all upstream behaviours and all (also illegal) histories", "why_tests_cant": "needs all illegal histories", "anchors": ["core/src/memory/details/debug_memory_resource_impl.cpp: allocate, deallocate"]}
{"id": "C27", "title": "instrumenting: the event log is an exact record", "statement": "The event list of instrumenting_memory_resource contains exactly one event per non-trivial allocate/deallocate call, in order, with the size, alignment and resulting pointer (null for failed allocations); hooks run once per call, pre-hooks before the upstream call and post-hooks after; results are forwarded unchanged and failures rethrown as bad_alloc.", "quantifier": "all upstream behaviours, hook sets and histories", "why_tests_cant": "unbounded histories", "anchors": ["core/src/memory/details/instrumenting_memory_resource_impl.cpp: allocate, deallocate"]}
{"id": "C28", "title": "memory_monitor: counters equal sums over the history", "statement": "For a monitor attached before the first allocation, total_allocation is the sum of sizes of successful allocations modulo 2^64, outstanding_allocation equals the sum of sizes of live blocks, and maximal_allocation the maximum of outstanding over all prefixes, in every legal history; the outstanding counter never underflows.", "quantifier": "all legal histories and upstream behaviours with disjoint live blocks", "why_tests_cant": "maximum over prefixes of unbounded histories", "anchors": ["core/src/utils/memory_monitor.cpp: post_allocate, pre_deallocate", "core/src/memory/details/instrumenting_memory_resource_impl.cpp"]}
{"id": "C29", "title": "synchronized: concurrent use is linearizable", "statement": "For any interleaving of threads calling a synchronized_memory_resource, the upstream sees non-overlapping calls, and results are those of some sequential order that respects each thread's program order and real time.", "quantifier": "any number of threads, calls and interleavings", "why_tests_cant": "interleavings", "anchors": ["core/src/memory/synchronized_memory_resource.cpp: do_allocate, do_deallocate"]}
{"id": "C30", "title": "default resource: get returns the last set, and set(null) restores new_delete", "statement": "get_default_resource returns the argument of the latest set_default_resource (new_delete_resource if null or never set); set returns the previous value, for any interleaving of atomic exchanges.", "quantifier": "all sequences of set/get", "why_tests_cant": "sequences", "anchors": ["core/src/memory/default_resource_polyfill.cpp"]}
{"id": "C31", "title": "host_memory_resource: rounding keeps size and alignment valid", "statement": "For every request, the alignment passed to aligned_alloc is a power of two, at least the requested one and at least 16; the size passed is a multiple of it, at least bytes and at most bytes plus this alignment; in the fallback path the returned address is aligned, leaves room for the bookkeeping pointer and for bytes within the malloc'ed block, and deallocation frees exactly the malloc'ed pointer. Requests for zero bytes are answered by a null pointer, without asking for memory, and giving it back does nothing.", "quantifier": "all sizes below 2^63 and power-of-two alignments up to 2^62; every malloc address", "why_tests_cant": "alignment arithmetic corner cases", "anchors": ["core/src/memory/host_memory_resource.cpp"]}
{"id": "C32", "title": "unique_obj_ptr / unique_alloc_ptr: matching deallocation and object lifetimes", "statement": "In every program that makes (make_unique_obj / make_unique_alloc), moves, resets and finally destroys unique pointers, each block obtained is deallocated exactly once with the size and alignment it was allocated with, and every constructed element is destroyed exactly once before its memory is released.", "quantifier": "all element counts and element sizes", "why_tests_cant": "lifetime over arbitrary counts", "anchors": ["core/include/vecmem/memory/unique_ptr.hpp", "core/include/vecmem/memory/details/unique_obj_deleter.hpp", "core/include/vecmem/memory/details/unique_alloc_deleter.hpp"]}
{"id": "C33", "title": "unique_obj_ptr: objects are constructed at suitably aligned addresses", "statement": "make_unique_obj<T> constructs T at an address that is a multiple of alignof(T), over any upstream that honours the requested alignment.", "quantifier": "all alignments", "why_tests_cant": "over-aligned types are not tested", "anchors": ["core/include/vecmem/memory/unique_ptr.hpp: make_unique_obj"]}
{"id": "C34", "title": "aligned_multiple_placement: sub-arrays are aligned, disjoint, in order and in bounds", "statement": "For any non-empty list of (element size, alignment, count) with power-of-two alignments whose total byte count (counts times sizes plus one alignment each) is below 2^64, every non-empty sub-array starts at a multiple of its alignment, sub-arrays are disjoint and ordered, all lie in the one allocation (std::align never fails), and empty sub-arrays get nullptr.", "quantifier": "any number of types, any counts, any base address", "why_tests_cant": "combinatorial space of counts and base alignments", "anchors": ["core/include/vecmem/containers/impl/aligned_multiple_placement.ipp"]}
{"id": "C35", "title": "vector_buffer: layout of size header and payload", "statement": "A vector_buffer of capacity c > 0 whose byte size (size counter and alignment padding included) is below 2^64 has an aligned payload of c elements inside its allocation that does not overlap the size counter, which exists iff the buffer is resizable; capacity 0 allocates nothing and all pointers are null.", "quantifier": "all capacities, element sizes and alignments", "why_tests_cant": "layout arithmetic", "anchors": ["core/include/vecmem/containers/impl/vector_buffer.ipp: allocate_buffer, vector_buffer"]}
{"id": "C36", "title": "jagged_vector_buffer: inner views tile the payload", "statement": "For capacities below 2^32 and total byte sizes below 2^64, the inner views of a jagged_vector_buffer have exactly the requested capacities, their payload ranges are consecutive, pairwise disjoint and within the allocation, and in the resizable case each has its own distinct size counter, consecutive in memory and disjoint from the payload.", "quantifier": "all capacity lists, both buffer types", "why_tests_cant": "combinatorial capacity lists including zeros", "anchors": ["core/include/vecmem/containers/impl/jagged_vector_buffer.ipp: jagged_vector_buffer"]}
{"id": "C37", "title": "device_vector: sequential operations refine a bounded list", "statement": "Any sequence of clear/assign/push_back/emplace_back/pop_back/resize/bulk_append operations (including the implicit-lifetime variants and arguments that refer to elements of the vector) on a resizable device_vector of capacity below 2^32 that respects its capacity behaves exactly as the same operations on an abstract list; elements at or beyond the size are never observable; size equals the list length.", "quantifier": "any element type, capacity, operation sequence", "why_tests_cant": "unbounded sequences", "anchors": ["core/include/vecmem/containers/impl/device_vector.ipp"]}
{"id": "C38", "title": "device_vector: concurrent push_back loses nothing", "statement": "For any interleaving of n concurrent push_back calls on a resizable device_vector holding k elements with k + n <= capacity, the calls obtain the n distinct indices k..k+n-1, each element ends up at the index returned to its caller, earlier elements are unchanged and the final size is k+n.", "quantifier": "any n, any interleaving of the atomic claim and the element write", "why_tests_cant": "interleavings", "anchors": ["core/include/vecmem/containers/impl/device_vector.ipp: push_back, emplace_back, bulk_append", "core/include/vecmem/memory/impl/posix_device_atomic_ref.ipp: fetch_add"]}
{"id": "C39", "title": "static_vector: operations refine a bounded list", "statement": "Any sequence of push_back, insert, erase, resize, assign, clear, pop_back on a static_vector that respects its capacity and passes no values aliasing elements at or beyond the end of the inserted range behaves exactly as on an abstract list, with exact return positions.", "quantifier": "any element type, capacity and operation sequence", "why_tests_cant": "unbounded sequences; shifting off-by-one errors", "anchors": ["core/include/vecmem/containers/impl/static_vector.ipp"]}
{"id": "C40", "title": "static_vector: element lifetimes are balanced", "statement": "In every use of static_vector, each construct targets an empty slot, each destruct a constructed one, and the constructed slots are exactly the indices below size().", "quantifier": "any sequence of constructors and operations", "why_tests_cant": "lifetime of never-constructed objects is invisible to value tests of trivial types", "anchors": ["core/include/vecmem/containers/impl/static_vector.ipp: static_vector(size_type, const_reference), assign, insert, erase, clear"]}
{"id": "C41", "title": "static_vector: insert of an element of the vector itself", "statement": "insert(pos, value) inserts the value that the argument had at the time of the call, also when the argument is an element of the same vector (as std::vector guarantees).", "quantifier": "any vector, position and index of the aliased element", "why_tests_cant": "needs aliasing at or after pos", "anchors": ["core/include/vecmem/containers/impl/static_vector.ipp: insert, emplace"]}
{"id": "C42", "title": "copy: a vector copy makes the target hold the source's elements", "statement": "After copying a 1D view into another view (with enough capacity), the target's size equals the source's size when the target is resizable and its first size elements equal the source's, memory outside the target range is untouched, and capacity problems are reported by an exception before any element is written.", "quantifier": "all sizes, capacities, contents, fixed/resizable combinations", "why_tests_cant": "combinations of sizes and stale contents", "anchors": ["core/include/vecmem/utils/impl/copy.ipp: copy_view_impl (vector)"]}
{"id": "C43", "title": "copy: vector -> buffer -> vector round trip is the identity", "statement": "Copying a host vector into a buffer (to()) and back into a host vector yields an equal vector.", "quantifier": "all contents and sizes", "why_tests_cant": "all contents", "anchors": ["core/include/vecmem/utils/impl/copy.ipp: to, operator()"]}
{"id": "C44", "title": "copy: jagged copies preserve all inner vectors", "statement": "After copying a non-empty jagged view to a jagged view of the same outer size with sufficient inner capacities, in memory that does not overlap that of the source, every inner vector of the target has the source's elements (and, when the target is resizable, the source's size), whichever of the contiguous / element-wise code paths is chosen; is_contiguous is true exactly if every inner vector starts where the one before ends; memory outside the target's payload ranges (up to their capacities) and size variables is untouched; different outer sizes are reported before any write.", "quantifier": "all jagged shapes, contents, capacities and contiguity situations", "why_tests_cant": "shape space, path choice depends on addresses", "anchors": ["core/include/vecmem/utils/impl/copy.ipp: copy_view_impl (jagged), copy_views_impl, copy_views_contiguous_impl, is_contiguous, set_sizes, get_sizes"]}
{"id": "C45", "title": "copy: set_sizes / get_sizes are inverse and validate", "statement": "For a resizable jagged buffer, set_sizes(s) followed by get_sizes returns s whenever every s_i fits its capacity; it throws without any write if the length differs or some s_i exceeds its capacity.", "quantifier": "all capacity and size lists", "why_tests_cant": "lists with zero capacities in arbitrary places", "anchors": ["core/include/vecmem/utils/impl/copy.ipp: set_sizes, get_sizes, get_sizes_impl"]}
{"id": "C46", "title": "copy: memset fills exactly the payload", "statement": "copy::memset on a 1D or jagged view sets all bytes of every payload element to the value and no other byte, for contiguous and non-contiguous jagged views alike, including empty views.", "quantifier": "all shapes and contiguity situations", "why_tests_cant": "byte-exactness over all shapes; empty jagged views", "anchors": ["core/include/vecmem/utils/impl/copy.ipp: memset, memset_impl, is_contiguous"]}
{"id": "C47", "title": "device_atomic_ref: CAS-loop read-modify-write operations are atomic", "statement": "fetch_add/sub/and/or/xor/exchange/store/load implemented with compare_exchange_strong loops take effect as one atomic update at the successful exchange, return the value before it, and with n concurrent fetch_add the final value is the initial value plus the sum modulo 2^w, over any interleaving, provided compare_exchange itself is atomic.", "quantifier": "any number of threads and interleavings", "why_tests_cant": "interleavings", "anchors": ["core/include/vecmem/memory/impl/dummy_device_atomic_ref.ipp", "core/include/vecmem/memory/impl/posix_device_atomic_ref.ipp: fetch_sub"]}
{"id": "C48", "title": "atomic<T>::compare_exchange_strong reports success", "statement": "atomic<T>::compare_exchange_strong(expected, desired) returns true iff the stored value equalled expected, and on failure stores the current value in expected, on every platform.", "quantifier": "all stored, expected and desired values", "why_tests_cant": "device-only code path", "anchors": ["core/include/vecmem/memory/impl/atomic.ipp: compare_exchange_strong"]}
{"id": "C49", "title": "edm::host: one size for all vector variables", "statement": "edm::host::size() returns the common size of all vector variables and throws iff two differ; after resize(n) every vector variable has n elements, earlier elements are preserved, and size() is n; scalars are untouched.", "quantifier": "any schema with at least one vector variable, any contents", "why_tests_cant": "schemas are type-level lists", "anchors": ["core/include/vecmem/edm/details/host_traits.hpp: get_host_size, host_resize", "core/include/vecmem/edm/impl/host.ipp"]}
{"id": "C50", "title": "edm::buffer: memory layout of a SoA buffer", "statement": "For any non-empty schema and capacities with a total memory need below 4 GiB (counts below 2^32), the size, layout and payload sub-arrays of edm::buffer are aligned, disjoint and inside the allocation; m_size spans exactly all size counters, m_layout / m_payload span from the first to the last non-empty layout / payload sub-array; every variable's view has the requested capacities and points at its own sub-array; the host copy of the layout, if any, has the same size and the same offsets.", "quantifier": "any schema, any capacity list, fixed and resizable", "why_tests_cant": "schema space", "anchors": ["core/include/vecmem/edm/impl/buffer.ipp: setup_fixed, setup_resizable", "core/include/vecmem/edm/details/buffer_traits.hpp"]}
{"id": "C51", "title": "edm::device: concurrent push_back_default grows all variables together", "statement": "For any interleaving of n push_back_default calls with enough capacity (below 2^32), each call gets its own index and every vector variable has a default element at each such index.", "quantifier": "any schema, n and interleaving", "why_tests_cant": "interleavings", "anchors": ["core/include/vecmem/edm/impl/device.ipp: push_back_default, construct_default"]}
{"id": "C52", "title": "reverse_iterator: reverse traversal", "statement": "Dereferencing rbegin()+i (and rbegin()[i]) yields element n-1-i for i < n; rbegin()+k compares equal to rend() iff k = n; every operator of reverse_iterator, and every sequence of them, does on the elements exactly what the same operator of a pointer does on the reversed elements, including which uses are undefined.", "quantifier": "all sizes and offsets", "why_tests_cant": "index arithmetic over all values", "anchors": ["core/include/vecmem/containers/impl/reverse_iterator.ipp", "core/include/vecmem/containers/details/reverse_iterator.hpp"]}
{"id": "C53", "title": "static_array / array / device_array bounds checks", "statement": "static_array::at and array::at throw out_of_range exactly for indices >= N and otherwise read/write the indexed element only; == holds iff all elements are equal; fill sets all elements.", "quantifier": "all N, contents and indices", "why_tests_cant": "all indices", "anchors": ["core/include/vecmem/containers/impl/static_array.ipp", "core/include/vecmem/containers/impl/array.ipp", "core/include/vecmem/containers/impl/device_array.ipp"]}
{"id": "C54", "title": "asynchronous copies: waiting on the event makes the result equal to the synchronous copy", "statement": "If a sequence of asynchronous copies/memsets is issued on one stream (a FIFO executed at arbitrary times), then after wait() on the event created last, memory equals the result of performing the operations synchronously in issue order; every created event is destroyed exactly once.", "quantifier": "all operation sequences and all execution schedules", "why_tests_cant": "schedules", "anchors": ["cuda/src/utils/cuda/async_copy.cpp: do_copy, do_memset, create_event, cuda_event"]}
{"id": "C55", "title": "binary_page: a completely free superpage serves every request it can hold", "statement": "If some superpage of a binary_page_memory_resource is entirely free and at least as large as the request, the request is served without an upstream call.", "quantifier": "every reachable state and request size", "why_tests_cant": "needs particular combination of superpage size and request size", "anchors": ["core/src/memory/details/binary_page_memory_resource_impl.cpp: find_free_page (line 204)"]}
{"id": "C56", "title": "memory_monitor: average_allocation is defined in every state", "statement": "memory_monitor::average_allocation returns the average size rounded to the nearest integer in every reachable state of the monitor.", "quantifier": "every state, including the one before the first allocation", "why_tests_cant": "the result of converting NaN to an integer differs between platforms, so a test may pass by luck", "anchors": ["core/src/utils/memory_monitor.cpp: average_allocation"]}
{"id": "C57", "title": "memory_monitor: can be attached at any time", "statement": "A memory_monitor attached to an instrumenting resource that already has live blocks keeps well-defined counters when those blocks are returned.", "quantifier": "every history before attaching", "why_tests_cant": "tests always attach the monitor first", "anchors": ["core/src/utils/memory_monitor.cpp: constructor, pre_deallocate"]}
{"id": "C58", "title": "host_memory_resource: never hands out less than requested", "statement": "For every size representable in std::size_t, a successful host_memory_resource::allocate has asked the C library for at least that many bytes.", "quantifier": "all sizes below 2^64", "why_tests_cant": "needs requests close to 2^64 bytes", "anchors": ["core/src/memory/host_memory_resource.cpp: do_allocate"]}
{"id": "C59", "title": "make_unique_obj / new_object: exception safety", "statement": "If a constructor throws inside make_unique_obj or allocator::new_object, the objects constructed so far are destroyed and the memory is returned.", "quantifier": "every failing element index", "why_tests_cant": "needs throwing constructors", "anchors": ["core/include/vecmem/memory/unique_ptr.hpp: make_unique_obj", "core/include/vecmem/memory/impl/allocator.ipp: new_object"]}
{"id": "C60", "title": "array functions: the byte count is not smaller than the array", "statement": "make_unique_obj<T[]>, make_unique_alloc<T[]> and allocator::allocate_object either throw or allocate at least n * sizeof(T) bytes for every n.", "quantifier": "all element counts below 2^64", "why_tests_cant": "needs n * sizeof(T) >= 2^64", "anchors": ["core/include/vecmem/memory/unique_ptr.hpp", "core/include/vecmem/memory/impl/allocator.ipp: allocate_object"]}
{"id": "C61", "title": "allocator: object functions form matching pairs", "statement": "new_object followed by delete_object is exactly allocate, construct, destroy, deallocate at one address with equal size and alignment; allocate_object and deallocate_object with the same count use equal sizes and alignments.", "quantifier": "all types, counts and upstream answers", "why_tests_cant": "all sizes and addresses", "anchors": ["core/include/vecmem/memory/impl/allocator.ipp"]}
{"id": "C62", "title": "pool: a fitting cached block within the cutoffs is used", "statement": "If the oversized cache holds a block that is large and aligned enough for an oversized request and whose size and alignment are within both cutoff factors, the request is served from the cache without an upstream call.", "quantifier": "every reachable state and oversized request", "why_tests_cant": "needs cached blocks in a particular size/alignment order", "anchors": ["core/src/memory/details/pool_memory_resource_impl.cpp: allocate lines 114-160"]}
{"id": "C63", "title": "pool: cache reuse is best fit and respects the alignment cutoff", "statement": "An oversized request served without an upstream call gets a cached block that is large and aligned enough, that is a smallest such block of the cache, and whose alignment divided by the requested one is below cached_alignment_cutoff_factor.", "quantifier": "every valid option set, reachable state and oversized request", "why_tests_cant": "needs many cached blocks of various sizes and alignments", "anchors": ["core/src/memory/details/pool_memory_resource_impl.cpp: allocate lines 114-160, operator<"]}
{"id": "C64", "title": "pool: invalid options are reported by an exception", "statement": "The constructor throws std::invalid_argument for every option structure that check_valid rejects and succeeds for every one it accepts.", "quantifier": "all option structures", "why_tests_cant": "option space is a product of 64-bit fields", "anchors": ["core/src/memory/details/pool_memory_resource_impl.cpp: constructor, check_valid"]}
{"id": "C65", "title": "is_aligned is exact", "statement": "is_aligned(ptr, alignment) is true iff ptr is a multiple of alignment, for every power-of-two alignment and every address.", "quantifier": "all 64-bit addresses and all power-of-two alignments", "why_tests_cant": "2^64 addresses; wrap-around only for huge alignments", "anchors": ["core/src/memory/details/is_aligned.cpp: is_aligned"]}
{"id": "C66", "title": "arena: requested alignment is respected", "statement": "Every block arena_memory_resource::allocate(bytes, alignment) returns is aligned to the requested alignment.", "quantifier": "all alignments and upstream answers", "why_tests_cant": "upstream blocks are usually better aligned than promised", "anchors": ["core/src/memory/details/arena_memory_resource_impl.cpp: allocate, get_block"]}
{"id": "C67", "title": "aligned_multiple_placement: oversized requests are reported", "statement": "A request whose byte size exceeds the address space throws; a placement that succeeds gives every non-empty sub-array its full extent inside the allocation.", "quantifier": "all counts below 2^64", "why_tests_cant": "would need more than 2^64 bytes if the arithmetic did not wrap", "anchors": ["core/include/vecmem/containers/impl/aligned_multiple_placement.ipp"]}
{"id": "C68", "title": "jagged_vector_buffer: payload aligned for the element type", "statement": "Every non-empty inner vector of a jagged_vector_buffer starts at a multiple of alignof(TYPE), for every element type.", "quantifier": "all element types, capacity lists and buffer types", "why_tests_cant": "upstream blocks are usually better aligned than promised", "anchors": ["core/include/vecmem/containers/impl/jagged_vector_buffer.ipp: jagged_vector_buffer"]}
{"id": "C69", "title": "jagged_vector_buffer: failing construction and destruction release everything", "statement": "For capacities below 2^32 and total byte sizes below 2^64, a constructor that throws leaves both memory resources with exactly the blocks they had before, and destruction of a constructed buffer returns every block it obtained with the size it was obtained with.", "quantifier": "all capacity lists, both buffer types, failure of any of the allocations", "why_tests_cant": "failure injection at every allocation", "anchors": ["core/include/vecmem/containers/impl/jagged_vector_buffer.ipp"]}
{"id": "C70", "title": "jagged_vector_buffer: requested capacities are preserved", "statement": "The inner views have exactly the capacities given to the constructor as std::size_t values.", "quantifier": "all capacities below 2^64", "why_tests_cant": "multi-gigabyte buffers", "anchors": ["core/include/vecmem/containers/impl/jagged_vector_buffer.ipp: jagged_vector_buffer"]}
{"id": "C71", "title": "edm::buffer: the payload view covers the payload at any size", "statement": "The m_payload view of an edm::buffer covers all elements of all variables, also when they take 4 GiB or more.", "quantifier": "all capacities that fit into 64-bit memory", "why_tests_cant": "multi-gigabyte buffers", "anchors": ["core/include/vecmem/edm/impl/buffer.ipp: setup_fixed, setup_resizable", "core/include/vecmem/edm/details/buffer_traits.hpp: find_view / find_last_pointer"]}
{"id": "C72", "title": "edm::buffer: failing construction and destruction release everything", "statement": "For any non-empty schema and capacities with a total memory need below 4 GiB, a constructor of edm::buffer that throws leaves both memory resources with exactly the blocks they had before, and destruction returns every block with the size it was obtained with.", "quantifier": "any schema, capacities, failure of any allocation", "why_tests_cant": "failure injection", "anchors": ["core/include/vecmem/edm/impl/buffer.ipp"]}
{"id": "C73", "title": "device_vector: bulk_append_implicit beyond the capacity is caught", "statement": "In builds with asserts, bulk_append_implicit(n) on a vector with size + n > capacity never returns normally, for every 32-bit n.", "quantifier": "all 32-bit n, sizes and capacities", "why_tests_cant": "2^32 values of n; wrap-around only near 2^32", "anchors": ["core/include/vecmem/containers/impl/device_vector.ipp: bulk_append_implicit, bulk_append_implicit_unsafe"]}
{"id": "C74", "title": "device_vector: a reader concurrent with push_back may read every element below size()", "statement": "At any moment of any interleaving of push_back calls, all elements at positions below the size a concurrent reader observes have been constructed.", "quantifier": "all interleavings", "why_tests_cant": "interleavings", "anchors": ["core/include/vecmem/containers/impl/device_vector.ipp: push_back, size"]}
{"id": "C75", "title": "static_vector: copy assignment replaces the elements properly", "statement": "After a = b, the former elements of a have been destroyed and a holds new objects equal to those of b, so that both vectors can be destroyed.", "quantifier": "all vectors a, b and element types", "why_tests_cant": "the implicit operator copies bytes: invisible for trivial types", "anchors": ["core/include/vecmem/containers/static_vector.hpp: static_vector (no copy assignment declared)"]}
{"id": "C76", "title": "static_vector: elements are suitably aligned", "statement": "Every element of a suitably aligned static_vector<T, N> lies at an address that is a multiple of alignof(T).", "quantifier": "all element types and indices", "why_tests_cant": "needs over-aligned element types", "anchors": ["core/include/vecmem/containers/static_vector.hpp: array_type, m_size, m_elements"]}
{"id": "C77", "title": "static_vector: with asserts enabled, no invalid call returns", "statement": "Every call with a position, range, count or size outside of what the current contents and the capacity allow (operator[] excepted), and with values that are not elements of the vector itself, stops at an assert or in undefined behaviour instead of returning normally.", "quantifier": "all vectors and all 64-bit arguments", "why_tests_cant": "2^64 argument values, including those where sums wrap", "anchors": ["core/include/vecmem/containers/impl/static_vector.ipp: insert, erase, assign, resize, at, front, back, element_id, construct, destruct"]}
{"id": "C78", "title": "copy: copying into a fixed-size target yields a target equal to the source", "statement": "After a successful copy of a vector view into a view of fixed size, the target has the same number of elements as the source; a fixed-size target of a different size is reported.", "quantifier": "all sizes and capacities", "why_tests_cant": "needs targets longer than the source, which the tests only use with resizable buffers", "anchors": ["core/include/vecmem/utils/impl/copy.ipp: copy_view_impl (vector), 500-539"]}
{"id": "C79", "title": "copy: set_sizes reports inconsistent targets", "statement": "set_sizes on a jagged view in which some inner vectors are resizable and others are not throws an exception without writing.", "quantifier": "all mixes of resizable and fixed inner vectors", "why_tests_cant": "inconsistent views are never built in tests; the outcome depends on the order", "anchors": ["core/include/vecmem/utils/impl/copy.ipp: set_sizes, 294-320"]}
{"id": "C80", "title": "copy: the size variable is copied with the right copy type", "statement": "Whenever the copy type given by the caller matches the locations of the payloads, the copy type derived for the size variable matches a host source and the location of the target.", "quantifier": "all copy types and locations", "why_tests_cant": "device_to_device with a host-side size is only visible on real devices", "anchors": ["core/include/vecmem/utils/impl/copy.ipp: copy_view_impl (vector), 510-529"]}
{"id": "C81", "title": "copy: setup makes resizable buffers empty and touches nothing else", "statement": "After setup, a resizable vector of non-zero capacity has size 0 and all inner vectors of a resizable jagged view have size 0; no byte outside the size variables changes; views of fixed size are left alone.", "quantifier": "all capacities and shapes", "why_tests_cant": "byte-exactness over all shapes", "anchors": ["core/include/vecmem/utils/impl/copy.ipp: setup, 28-46 and 139-173"]}
{"id": "C82", "title": "edm copy: buffers of equal schema and capacities are copied exactly", "statement": "A copy between two buffers of the same schema, the same capacities, the same resizability, alignments of at most 16 and a non-empty payload puts the bytes of every variable, and of every size variable, of the source into the corresponding variable of the target, and changes no byte outside the payload and size memory of the target; the same (with sizes set to the capacities for a fixed-size source) whenever the payload lengths are equal.", "quantifier": "all schemas, capacities, kinds of buffers and addresses", "why_tests_cant": "the offsets of all variables for all schemas, including padding and alignment of the returned addresses", "anchors": ["core/include/vecmem/utils/impl/copy.ipp: operator() (edm::view), 378-432", "core/include/vecmem/edm/impl/buffer.ipp"]}
{"id": "C83", "title": "edm copy: no target vector gets a size beyond its capacity", "statement": "A copy between buffers of the same schema either throws or leaves every (inner) vector of the target with a size not larger than its capacity.", "quantifier": "all schemas and capacities of source and target", "why_tests_cant": "needs different capacities with payloads of equal length", "anchors": ["core/include/vecmem/utils/impl/copy.ipp: operator() (edm::view), 386-388"]}
{"id": "C84", "title": "edm copy: a copy that reports a length error has not written anything", "statement": "If a copy between buffers throws std::length_error, the target is unchanged.", "quantifier": "all schemas and capacities", "why_tests_cant": "tests do not look at the target after an exception", "anchors": ["core/include/vecmem/utils/impl/copy.ipp: operator() (edm::view), 399-416"]}
{"id": "C85", "title": "edm copy: variable by variable", "statement": "A copy between containers whose payloads are not both contiguous and of the same length puts the elements of every variable of the source into that of the target, sets the sizes of resizable jagged targets and of resizable vector targets with a non-empty source, and changes nothing else, if the targets have room, do not overlap with each other (except for a common size variable with a common size) and are not written before they are read as sources.", "quantifier": "all schemas, views, sizes and contents", "why_tests_cant": "all combinations of variables, fixed and resizable views", "anchors": ["core/include/vecmem/utils/impl/copy.ipp: copy_payload_impl, 904-926", "core/include/vecmem/edm/impl/view.ipp"]}
{"id": "C86", "title": "edm setup: a resizable container is empty afterwards", "statement": "After setup, all size variables of a resizable SoA buffer are zero and get_size returns 0 if there are no jagged vectors; fixed-size buffers are left alone and have their capacity as the size; no other byte changes.", "quantifier": "all schemas and capacities", "why_tests_cant": "capacity zero is special and the memory uninitialised", "anchors": ["core/include/vecmem/utils/impl/copy.ipp: setup (edm::view), 330-360; get_size, 448-485"]}
{"id": "C87", "title": "edm memset: exactly the payload is set", "statement": "memset on an SoA buffer sets every byte of every variable to the value, and changes no byte outside of the payload memory.", "quantifier": "all schemas, capacities and values", "why_tests_cant": "byte-exactness over all schemas; empty containers", "anchors": ["core/include/vecmem/utils/impl/copy.ipp: memset (edm::view), 362-376; memset_impl, 745-763"]}
{"id": "C88", "title": "device_atomic_ref: fetch_add(1) hands out every number once", "statement": "If threads only call fetch_add(1), then at any moment of any interleaving the values returned so far, by all threads together, are exactly v0, v0+1, ..., each once, as long as the number of calls does not exceed what the type can count.", "quantifier": "all interleavings, numbers of threads and calls", "why_tests_cant": "interleavings; the claim of slots in push_back rests on it", "anchors": ["core/include/vecmem/memory/impl/dummy_device_atomic_ref.ipp: fetch_add"]}
{"id": "C89", "title": "device_atomic_ref: the compare-exchange loops end", "statement": "A thread with m calls, in a program with N calls altogether, finishes them within N + m compare-exchanges of its own, whatever the other threads do.", "quantifier": "all interleavings and programs", "why_tests_cant": "tests cannot show the absence of livelock", "anchors": ["core/include/vecmem/memory/impl/dummy_device_atomic_ref.ipp: exchange, fetch_*"]}
{"id": "C90", "title": "dummy_device_atomic_ref: calls are atomic with its own compare_exchange_strong", "statement": "With the compare_exchange_strong that dummy_device_atomic_ref itself has, every finished concurrent execution is equivalent to the calls being made one after the other.", "quantifier": "all interleavings", "why_tests_cant": "interleavings", "anchors": ["core/include/vecmem/memory/impl/dummy_device_atomic_ref.ipp: compare_exchange_strong, 86-93; load, 49-51"]}
{"id": "C91", "title": "posix and CUDA device_atomic_ref: every call has the sequential meaning", "statement": "With posix_device_atomic_ref and cuda::device_atomic_ref every interleaving is equivalent to the calls being made one after the other (fetch_sub by adding the negated value included), and compare_exchange_strong(expected, desired, order) never trips the assert on the failure order, returns true iff the value was the expected one, exchanges exactly then and otherwise stores the value in expected.", "quantifier": "all widths, values, orders and interleavings", "why_tests_cant": "unsigned wrap-around and all orders", "anchors": ["core/include/vecmem/memory/impl/posix_device_atomic_ref.ipp", "core/include/vecmem/memory/impl/cuda_device_atomic_ref.ipp"]}
{"id": "C92", "title": "edm::host: element access is checked and right", "statement": "On a container whose vector variables all have n elements, at(i) and operator[](i) refer to element i of every vector variable and to the scalars for i < n, and throw std::out_of_range otherwise; a new container has size 0 and one-element scalars.", "quantifier": "any schema with at least one vector variable, any contents and index", "why_tests_cant": "schemas are type-level lists", "anchors": ["core/include/vecmem/edm/impl/host.ipp: at, operator[]", "core/include/vecmem/edm/details/proxy_traits.hpp: make", "core/include/vecmem/edm/details/host_traits.hpp: host_alloc"]}
{"id": "C93", "title": "edm::host: get_data makes a view that the device container accepts", "statement": "For a container of n < 2^32 elements get_data succeeds, the view has capacity n, and the capacity check of edm::device succeeds on it.", "quantifier": "any schema with at least one vector variable, any contents", "why_tests_cant": "any mixture of variables", "anchors": ["core/include/vecmem/edm/impl/host.ipp: get_data, 205-229", "core/include/vecmem/edm/details/device_traits.hpp: device_capacities_match"]}
{"id": "C94", "title": "edm::host: a resize that throws leaves a usable container", "statement": "If resize throws (out of memory), size() still returns a size.", "quantifier": "any schema and point of failure", "why_tests_cant": "needs an allocation failure in the middle", "anchors": ["core/include/vecmem/edm/details/host_traits.hpp: host_resize, 134-150"]}
{"id": "C95", "title": "array / static_array: front and back", "statement": "front() and back() return the first and the last element; array::front and array::back throw out_of_range if and only if the array is empty.", "quantifier": "all N and contents", "why_tests_cant": "the empty array", "anchors": ["core/include/vecmem/containers/impl/array.ipp: front, back, 70-112", "core/include/vecmem/containers/impl/static_array.ipp: front, back, 84-118"]}
{"id": "C96", "title": "jagged_device_vector: iterators and accessors", "statement": "Every operator of jagged_device_vector_iterator does what the same operator of a pointer to an array of the inner device vectors does; at(i), operator[], front and back give the right inner vector, and at, front and back stop at the assert if there is none.", "quantifier": "all sizes, positions and offsets", "why_tests_cant": "index arithmetic over all values", "anchors": ["core/include/vecmem/containers/impl/jagged_device_vector_iterator.ipp", "core/include/vecmem/containers/impl/jagged_device_vector.ipp"]}
{"id": "C97", "title": "asynchronous copies: host programs that keep to the rules cannot see that the copies are asynchronous", "statement": "A host program that issues operations on a stream, with local variables as sources and targets, and reads, overwrites or ends a local variable only after a wait that covers the operations using it, returns what it would return if every operation was performed when it is issued, and once the stream is empty memory is what it would be then; no operation ever touches a local variable that has ended.", "quantifier": "all host programs, contents and schedules", "why_tests_cant": "schedules; lifetimes of locals are not visible in results", "anchors": ["cuda/src/utils/cuda/async_copy.cpp: do_copy, do_memset, cuda_event"]}
{"id": "C98", "title": "asynchronous copies: the functions of vecmem::copy give the result of the synchronous copy", "statement": "setup, memset, operator() (view, view), get_size and get_sizes of vecmem::copy for vectors, jagged vectors and SoA containers, run on a stream and followed by a wait on the returned event, return or throw exactly as with the synchronous copy and leave the same memory, without any in-flight operation outliving the local vectors of the function (without VECMEM_FAIL_ON_ASYNC_ERRORS for the copy of jagged vectors and for memset and copy of SoA containers).", "quantifier": "all views, contents and schedules", "why_tests_cant": "use of a dead local by a copy in flight is invisible in most runs", "anchors": ["core/include/vecmem/utils/impl/copy.ipp: setup, memset, operator(), get_size, get_sizes", "cuda/src/utils/cuda/async_copy.cpp"]}
{"id": "C99", "title": "asynchronous copies: a call that throws leaves nothing in flight", "statement": "If one of the copy functions throws, no operation that it issued is still pending on the stream.", "quantifier": "all views, contents and schedules", "why_tests_cant": "needs a failure in the middle of a container", "anchors": ["core/include/vecmem/utils/impl/copy.ipp: operator() (edm::view), 378-432; copy_payload_impl, 904-926"]}
{"id": "C100", "title": "asynchronous copies: functions wait on or ignore every event that they do not return", "statement": "In a build with VECMEM_FAIL_ON_ASYNC_ERRORS, which terminates if an event is dropped without having been waited for, none of the copy functions drops an event.", "quantifier": "all views, contents and schedules", "why_tests_cant": "needs that build option", "anchors": ["core/include/vecmem/utils/impl/copy.ipp: memset (edm::view), 362-376; memset_impl, 745-763", "cuda/src/utils/cuda/async_copy.cpp: ~cuda_event, 38-49"]}
{"id": "C101", "title": "sycl::async_copy: the operations are performed in the order in which they were issued", "statement": "With sycl::async_copy on a queue made by the library, after a wait on the event of the last operation, memory is the result of performing the operations in the order of issue.", "quantifier": "all sequences of operations and all orders that an out-of-order queue allows", "why_tests_cant": "out-of-order execution is rarely observed", "anchors": ["sycl/src/utils/sycl/async_copy.sycl", "sycl/src/utils/sycl/opaque_queue.hpp"]}
{"id": "C102", "title": "device resources: allocation on the right device", "statement": "allocate of the CUDA, HIP and SYCL resources allocates the kind of memory, and on the device or queue, of the resource, whatever the current device is, returns nullptr without a call of the runtime for 0 bytes, throws without having allocated if the runtime fails, and leaves the current device as it was, also if it throws; so does every use of select_device, nested or left with an exception.", "quantifier": "all resources, sizes, current devices and runtime failures", "why_tests_cant": "needs several devices and failing runtime calls", "anchors": ["cuda/src/memory/device_memory_resource.cpp", "hip/src/memory/device_memory_resource.cpp", "sycl/src/memory/device_memory_resource.sycl", "cuda/src/utils/select_device.cpp", "hip/src/utils/run_on_device.hpp"]}
{"id": "C103", "title": "select_device: device() is the selected device", "statement": "select_device(d).device() returns d.", "quantifier": "all devices", "why_tests_cant": "needs several devices", "anchors": ["cuda/src/utils/select_device.hpp", "cuda/src/utils/select_device.cpp: 14-30"]}
{"id": "C104", "title": "device resources: is_equal", "statement": "is_equal on the device resources is an equivalence relation, and memory that was allocated by one resource may be deallocated by every resource equal to it: the deallocation succeeds, frees exactly this block and leaves the current device as it was.", "quantifier": "all pairs and triples of resources", "why_tests_cant": "pairs of all types", "anchors": ["cuda/src/memory/device_memory_resource.cpp: do_is_equal, 63-74", "sycl/src/memory/memory_resource_base.sycl: do_is_equal, 34-43"]}
{"id": "C105", "title": "device resources: equal resources provide the same kind of memory", "statement": "If two device resources compare equal, they allocate the same kind of memory on the same device or queue.", "quantifier": "all pairs of resources", "why_tests_cant": "resources of different classes on one queue are not compared in tests", "anchors": ["sycl/src/memory/memory_resource_base.sycl: do_is_equal, 34-43"]}
{"id": "C106", "title": "coalescing resource over device resources: falls back when an upstream is out of memory", "statement": "coalescing_memory_resource over any list of device resources returns a block whenever one of the resources can provide it, trying them in order.", "quantifier": "all lists of resources and patterns of failure", "why_tests_cant": "needs exhausted device memory", "anchors": ["core/src/memory/details/coalescing_memory_resource_impl.cpp: allocate, 31-53", "cuda/src/utils/cuda_error_handling.cpp: 19-31"]}
{"id": "C107", "title": "device resources: alignment", "statement": "A block returned by a device resource is aligned as requested.", "quantifier": "all alignments", "why_tests_cant": "tests only use small alignments", "anchors": ["cuda/src/memory/device_memory_resource.cpp: do_allocate", "hip/src/memory/device_memory_resource.cpp: do_allocate"]}
{"id": "C108", "title": "cuda::stream_wrapper: ownership of streams", "statement": "After any sequence of constructions, copies, moves, assignments and destructions of stream_wrappers, a stream made by the library has been destroyed exactly once if no wrapper owns it, and not at all otherwise; the stream() of an owner is the stream that it owns; a copy has the stream of the original.", "quantifier": "all sequences of operations", "why_tests_cant": "leaks and double destruction over all histories", "anchors": ["cuda/src/utils/stream_wrapper.cpp", "cuda/src/utils/opaque_stream.cpp"]}
{"id": "C109", "title": "cuda::stream_wrapper: assignment", "statement": "After a = b, a denotes the (still existing) stream that b denoted before.", "quantifier": "all histories and pairs of wrappers", "why_tests_cant": "aliasing of a view and an owner", "anchors": ["cuda/src/utils/stream_wrapper.cpp: operator="]}
{"id": "C110", "title": "sycl::queue_wrapper: ownership of queues", "statement": "After any sequence of constructions, copies, moves, assignments and destructions of queue_wrappers, every queue object made by the library has at most one owner, has been destroyed exactly once if it has none, and not at all otherwise.", "quantifier": "all sequences of operations", "why_tests_cant": "leaks and double destruction over all histories", "anchors": ["sycl/src/utils/sycl/queue_wrapper.sycl"]}
{"id": "C111", "title": "sycl::queue_wrapper: a copy denotes the same queue", "statement": "A copy of a queue_wrapper denotes the same queue as the original.", "quantifier": "all histories", "why_tests_cant": "needs a particular history", "anchors": ["sycl/src/utils/sycl/queue_wrapper.sycl: copy constructor, copy assignment"]}
{"id": "C112", "title": "sycl::queue_wrapper: move assignment", "statement": "After a = std::move(b), a denotes the (still existing) queue that b denoted before.", "quantifier": "all histories and pairs of wrappers", "why_tests_cant": "aliasing of a view and an owner", "anchors": ["sycl/src/utils/sycl/queue_wrapper.sycl: move assignment"]}
{"id": "C113", "title": "arena: the memory is tiled", "statement": "Over an upstream whose blocks never touch, with requests of at most the superblock size or 256 KiB (as rounded up to a multiple of 256), the free blocks and the live blocks, as rounded up, are pairwise disjoint and together cover exactly the memory obtained from upstream, so that no byte is lost; no two free blocks touch.", "quantifier": "every history of allocations and deallocations", "why_tests_cant": "needs arbitrarily long histories with splits and merges", "anchors": ["core/src/memory/details/arena_memory_resource_impl.cpp: first_fit, coalesce_block, get_block, free_block"]}
{"id": "C114", "title": "arena: first fit and use of upstream", "statement": "Under the conditions of C113, a request that is below 256 KiB after rounding up is served without upstream at the start of the free block with the lowest address among those that are large enough, if there is one; if there is none, and for all larger requests, exactly one superblock is requested from upstream, of the configured size, or of 256 KiB if the request is larger than that.", "quantifier": "every reachable state and request", "why_tests_cant": "all fragmented states", "anchors": ["core/src/memory/details/arena_memory_resource_impl.cpp: first_fit lines 143-167, get_block lines 215-228, expand_arena lines 230-243"]}
{"id": "C115", "title": "vecmem::atomic in host code: meaning of the operations", "statement": "In host code, where vecmem::atomic is documented not to be atomic, calls that do not overlap in time - of any number of threads, in any order - have the effect and the results of the operations: store, load, exchange, and fetch_add/sub (modulo 2^width), and, or, xor, which return the former value.", "quantifier": "all programs, all orders of the calls", "why_tests_cant": "all interleavings of whole calls", "anchors": ["core/include/vecmem/memory/impl/atomic.ipp lines 39-184"]}
{"id": "C116", "title": "CUDA/HIP device_memory_resource: the default device", "statement": "A device_memory_resource that is made for device d allocates on device d, and one that is made for INVALID_DEVICE on the device that was current when it was made, whatever the current device is at the time of the allocation; the current device is left as it was.", "quantifier": "all devices and runtime states", "why_tests_cant": "needs several devices", "anchors": ["cuda/src/memory/device_memory_resource.cpp lines 23-60", "hip/src/memory/device_memory_resource.cpp"]}
{"id": "C117", "title": "jagged_vector_buffer: memory of the inner views", "statement": "For a non-empty capacity list within the limits of C36, the outer pointer of a successfully constructed jagged_vector_buffer is the start of a live allocation of the main resource with room for exactly one inner view per capacity; with a host resource the host pointer is the start of such an allocation of the host resource, and without one both pointers are equal.", "quantifier": "all capacity lists, both buffer types, with and without host resource", "why_tests_cant": "the address spaces involved need a GPU to distinguish", "anchors": ["core/include/vecmem/containers/impl/jagged_vector_buffer.ipp: jagged_vector_buffer, allocate_jagged_buffer_outer_memory"]}
{"id": "C118", "title": "copy::to for jagged vectors", "statement": "copy::to of a jagged view whose inner vectors have the sizes s and given elements returns a jagged buffer of fixed size with capacities s, with inner vectors that do not overlap and lie in the memory allocated for the buffer, and with exactly these elements; no byte outside that memory changes.", "quantifier": "all sources, resizable or not, in host or device memory, all sizes", "why_tests_cant": "needs a device buffer in memory that the host cannot read", "anchors": ["core/include/vecmem/utils/impl/copy.ipp: to, 215-234", "core/include/vecmem/containers/impl/jagged_vector_buffer.ipp: get_sizes, 24-32", "core/include/vecmem/containers/impl/vector_view.ipp: size"]}
{"id": "C119", "title": "copy from a jagged view into a vector of vectors", "statement": "After a copy from a jagged view into a std::vector of std::vectors, the vectors have exactly the sizes and the elements of the source's inner vectors, and no other byte changes; the sizes may be in memory that only the copy object can read.", "quantifier": "all sources, sizes and contents, host or device", "why_tests_cant": "all shapes, with empty inner vectors without memory", "anchors": ["core/include/vecmem/utils/impl/copy.ipp: operator() (jagged_vector_view, std::vector), 250-268"]}
{"id": "C120", "title": "copy from a view of an SoA container into edm::host", "statement": "With a copy type that does not have a device as its target (anything else hits an assertion), a copy into edm::host makes every vector variable as large as that of the source (with jagged vectors: also every inner vector), and then every variable has the contents of that of the source; nothing else changes. If the schema has jagged vectors and the variables of the source have different sizes, std::length_error is thrown before any element is copied.", "quantifier": "all schemas with a vector variable, sizes and contents; fixed size or resizable sources", "why_tests_cant": "schemas are type-level lists", "anchors": ["core/include/vecmem/utils/impl/copy.ipp: operator() (edm::view, edm::host), 434-446; resize_impl, 765-842", "core/include/vecmem/edm/impl/host.ipp: get_data"]}
{"id": "C121", "title": "copy::setup of jagged vectors: the description of the inner vectors", "statement": "After setup of a jagged view, the array of inner views at ptr() is the same as that at host_ptr(), all sizes of a resizable view are 0, and nothing but this array and these sizes has been changed; setup of an empty view does nothing.", "quantifier": "all jagged views, resizable or not, with equal or different pointers", "why_tests_cant": "needs separate host and device memory", "anchors": ["core/include/vecmem/utils/impl/copy.ipp: setup, 139-173"]}
{"id": "C122", "title": "memory resources: is_equal is an equivalence relation", "statement": "is_equal between the memory resources of the core library is reflexive, symmetric and transitive.", "quantifier": "all stacks of identity and synchronized resources over any resources", "why_tests_cant": "stacks of unbounded depth; symmetry was never tested", "anchors": ["core/src/memory/synchronized_memory_resource.cpp lines 59-73", "core/src/memory/identity_memory_resource.cpp lines 45-55", "core/src/memory/details/memory_resource_base.cpp lines 13-19", "core/src/memory/host_memory_resource.cpp lines 100-109", "core/src/memory/terminal_memory_resource.cpp lines 39-46"]}
{"id": "C123", "title": "memory resources: equal resources can be exchanged", "statement": "If a.is_equal(b), then memory that was allocated with a can be deallocated with b: the call reaches the heap that the memory came from, with the same size and alignment, if and only if the allocation reached it.", "quantifier": "all stacks of identity and synchronized resources over any resources, all requests (size 0 included)", "why_tests_cant": "stacks of unbounded depth", "anchors": ["core/src/memory/identity_memory_resource.cpp", "core/src/memory/synchronized_memory_resource.cpp", "core/src/memory/terminal_memory_resource.cpp"]}
{"id": "C124", "title": "edm::device: access to the elements of a buffer", "statement": "An edm::device made from the view of an edm::buffer satisfies all its assertions; capacity() is the number of capacities given, size() is the shared counter of a resizable buffer without jagged vectors and the capacity otherwise; at(i) returns for i < size() exactly the scalar, the i-th elements and the i-th inner vectors, suitably aligned and in the memory of the buffer, and hits the assertion for i >= size(); elements of different variables or with different indices do not share memory.", "quantifier": "all schemas, capacities (below the 2^32 limits of C50), counters and indices", "why_tests_cant": "schemas are type-level lists", "anchors": ["core/include/vecmem/edm/impl/device.ipp", "core/include/vecmem/edm/details/device_traits.hpp", "core/include/vecmem/edm/details/proxy_traits.hpp"]}
{"id": "C125", "title": "edm::device: inconsistent views are caught", "statement": "With assertions enabled, the constructor of edm::device returns if and only if every vector and jagged vector of the view has the capacity of the container and, for a schema without jagged vectors, the size memory is absent or one unsigned int; it then stores exactly the view's capacity, variables and (without jagged vectors) size pointer.", "quantifier": "all schemas and views", "why_tests_cant": "death tests are not run for all combinations", "anchors": ["core/include/vecmem/edm/impl/device.ipp lines 20-31", "core/include/vecmem/edm/details/device_traits.hpp lines 102-192"]}
{"id": "C126", "title": "get_data: the view describes the vector", "statement": "A device vector (jagged device vector) made from get_data of a std::vector (vector of vectors) has the size of the vector (of every inner vector), and its at(j) (at(i).at(j)) refers to exactly the element j (of inner vector i) of the vector and hits an assertion outside of the size.", "quantifier": "all vectors and vectors of vectors", "why_tests_cant": "vectors of 2^32 elements", "anchors": ["core/include/vecmem/containers/impl/vector.ipp lines 12-28", "core/include/vecmem/containers/impl/jagged_vector.ipp", "core/include/vecmem/containers/impl/device_vector.ipp: size, at", "core/include/vecmem/containers/impl/jagged_device_vector.ipp: at"]}
{"id": "C127", "title": "jagged_vector_data: ownership of the description", "statement": "get_data of a vector of n > 0 vectors makes one allocation of 24 n bytes and changes no other memory, and destroying the result makes exactly the matching deallocation; for n = 0 there is neither; if the allocation fails, the exception is passed on and nothing else happens.", "quantifier": "all numbers and sizes of inner vectors", "why_tests_cant": "needs an allocation log for every n", "anchors": ["core/include/vecmem/containers/impl/jagged_vector_data.ipp", "core/include/vecmem/containers/impl/jagged_vector.ipp"]}
{"id": "C128", "title": "views: conversion and comparison", "statement": "Two views (jagged views) compare equal if and only if they have the same capacity (size) and the same pointers, and then the same elements are accessed through both; != is the negation; conversion and assignment give a view that compares equal to the original; the host pointer of a jagged view made without one is its pointer. The size seen through a view is the 32-bit number in its size variable or, without one, the capacity, and exactly the elements below it can be accessed.", "quantifier": "all views and memories", "why_tests_cant": "all combinations of members", "anchors": ["core/include/vecmem/containers/impl/vector_view.ipp lines 15-73", "core/include/vecmem/containers/impl/jagged_vector_view.ipp lines 13-83"]}
{"id": "C129", "title": "device_vector::push_back: concurrent calls at the level of bytes", "statement": "Any number of threads call push_back on one resizable vector_view in a memory of bytes, interleaved in any way (claiming the index, writing the element and returning are separate steps). If the vector has room for all: no call fails or hits an assertion, only the size counter and the new slots change, every thread finishes when scheduled three times; after that the size is the old size plus the number of calls, every call returned an index of the new part at which exactly its bytes are, and the payload is the old elements followed by a permutation of the appended ones. If the vector may be too small, a run that hits no assertion has claimed distinct indices below the capacity only and written only free slots.", "quantifier": "all element sizes, capacities, old contents, appended values, numbers of threads and schedules", "why_tests_cant": "the schedules cannot be enumerated", "anchors": ["core/include/vecmem/containers/impl/device_vector.ipp: push_back, construct", "core/include/vecmem/memory/impl/device_atomic_ref.ipp: fetch_add"]}
{"id": "C130", "title": "from a buffer through a kernel to the host", "statement": "After creating a resizable vector_buffer, setting it up with copy::setup, appending to it from concurrently running threads and copying it into a std::vector with copy::operator(), the std::vector has as many elements as were appended and their bytes are a permutation of the appended values; no memory outside the block that the buffer allocated and the elements of the target changed.", "quantifier": "all element sizes and alignments, capacities, appended values, schedules and initial memories", "why_tests_cant": "combines allocation, copies and concurrency", "anchors": ["core/include/vecmem/containers/impl/vector_buffer.ipp", "core/include/vecmem/utils/impl/copy.ipp: setup, operator()", "core/include/vecmem/containers/impl/device_vector.ipp: push_back"]}
{"id": "C131", "title": "copy: the implementations of do_copy and do_memset agree", "statement": "vecmem::copy, cuda::copy, hip::copy and sycl::copy (with and without queue::memset) copy or set exactly the bytes asked for and change no other byte; CUDA and HIP accept a copy type if and only if it is right for the two memories (or unknown) and report std::runtime_error otherwise; an error of the runtime is reported as std::runtime_error with the memory unchanged; a size of zero does nothing, whatever the pointers are.", "quantifier": "all sizes, pointers, copy types, values and memories", "why_tests_cant": "runtime errors and null pointers for every function", "anchors": ["core/src/utils/copy.cpp", "cuda/src/utils/cuda/copy.cpp", "hip/src/utils/hip/copy.cpp", "sycl/src/utils/sycl/copy.sycl", "core/include/vecmem/utils/copy.hpp lines 52-65"]}
{"id": "C132", "title": "cuda::async_copy: life of an event", "statement": "For every event that create_event makes, any sequence of wait and ignore, and the destructor: without errors of the runtime the event is created and recorded once, synchronised exactly if the first call is not ignore, and destroyed exactly once, no call throws, and the program is ended only if VECMEM_FAIL_ON_ASYNC_ERRORS is set and neither wait nor ignore was called; with arbitrary errors, unless the program is ended, the event is destroyed successfully exactly once and not used afterwards, also when create_event throws.", "quantifier": "all sequences of calls and all patterns of errors", "why_tests_cant": "errors of the CUDA runtime cannot be provoked at will", "anchors": ["cuda/src/utils/cuda/async_copy.cpp lines 26-67 and 138-155"]}
{"id": "C133", "title": "cuda::async_copy: errors reported by an event can be handled", "statement": "If waiting on an event fails, the exception can be caught and the program can go on, whatever the CUDA runtime reports afterwards.", "quantifier": "all sequences of calls and all patterns of errors", "why_tests_cant": "errors of the CUDA runtime cannot be provoked at will", "anchors": ["cuda/src/utils/cuda/async_copy.cpp lines 34-62"]}
{"id": "C134", "title": "jagged_device_vector: concurrent push_back to the inner vectors", "statement": "Any number of threads call at(i).push_back(x) on one jagged vector in device memory, interleaved in any way (reading the description of the inner vector, claiming the index, writing the element and returning are separate steps). If every inner vector has room for the calls that go to it, and the memory of the inner vectors and of the description does not overlap: no call fails or hits an assertion, only the size counters and the new slots change, every thread finishes when scheduled four times; after that every inner vector has its old elements followed by a permutation of the elements appended to it, with the right size, and every call returned the index of its own element. If inner vectors may be too small, the only possible failure is the assertion of push_back, hit by a thread that finds its inner vector full; up to that point only size counters and free slots have changed, no inner vector exceeds its capacity, old elements are kept, finished calls on one inner vector have different indices and their elements are in place.", "quantifier": "all element sizes, numbers of inner vectors, capacities, old contents, appended values, numbers of threads and schedules", "why_tests_cant": "the schedules cannot be enumerated", "anchors": ["core/include/vecmem/containers/impl/jagged_device_vector.ipp lines 44-53", "core/include/vecmem/containers/impl/device_vector.ipp: push_back, construct", "core/include/vecmem/containers/data/vector_view.hpp lines 131-143"]}
{"id": "C135", "title": "from a jagged buffer through a kernel to the host", "statement": "After creating a resizable jagged_vector_buffer (with or without a host access resource), setting it up with copy::setup, appending to its inner vectors from concurrently running threads that find the inner vectors through the description in device memory, and copying it into a vector of vectors with copy::operator(), every inner vector of the target has as many elements as were appended to that inner vector and their bytes are a permutation of them; no step fails or hits an assertion.", "quantifier": "all element sizes and alignments, numbers of inner vectors, capacities, appended values, schedules and initial memories", "why_tests_cant": "combines allocation, copies and concurrency", "anchors": ["core/include/vecmem/containers/impl/jagged_vector_buffer.ipp lines 72-130", "core/include/vecmem/utils/impl/copy.ipp lines 139-173 and 250-268", "core/include/vecmem/containers/impl/jagged_device_vector.ipp lines 44-53", "core/include/vecmem/containers/impl/device_vector.ipp: push_back"]}
{"id": "C136", "title": "concurrent push_back_default with assignments through proxies", "statement": "Let any number of threads each call push_back_default on the same edm::device container (with scalar and vector variables, its size counter and elements in memory) and then assign through the proxy of the returned index to some of the vector variables, in any interleaving of their memory accesses. If the elements fit, no assertion is hit and no access is out of bounds; only the counter and the new elements change; the old elements keep their values; a thread that has finished finds its own values at its index in every variable, and the default value in those it did not assign; every thread finishes after 2 * number of variables + 4 steps; and when all have finished the size is the old one plus the number of threads and the new elements are one permutation of the threads' rows, the same for all variables. If the container may be too small, the only possible failure is the assertion of push_back_default, hit by a thread that finds the container full; up to that point the size is at most the capacity, old elements are kept, no two finished threads have the same index and each finds its values at its index.", "quantifier": "all schemas without jagged vectors, capacities, old contents, rows, schedules and memories", "why_tests_cant": "needs all interleavings, at the level of single accesses", "anchors": ["core/include/vecmem/edm/impl/device.ipp lines 55-85, 107-146 and 165-196", "core/include/vecmem/edm/impl/proxy.ipp lines 12-58", "core/include/vecmem/containers/impl/device_vector.ipp: construct"]}
{"id": "C137", "title": "from an SoA buffer through a kernel to the host", "statement": "After creating a resizable edm::buffer (with scalar and at least one vector variables, of positive capacity and with less than 2^32 bytes), setting it up with copy::setup, appending rows from concurrently running threads through edm::device and its proxies, and copying the buffer into an edm::host container, no step fails or hits an assertion; every vector of the host container has one element per thread; the values are those of one permutation of the rows, the same for all variables, with default values in unassigned variables; every scalar has the bytes that the buffer's scalar had; and no memory outside of the buffer and of the host container's variables changes.", "quantifier": "all schemas without jagged vectors, capacities, rows that fit, schedules, copy types towards the host and initial memories", "why_tests_cant": "combines allocation, copies and concurrency", "anchors": ["core/include/vecmem/edm/impl/buffer.ipp", "core/include/vecmem/utils/impl/copy.ipp: setup and operator() for edm views and edm::host", "core/include/vecmem/edm/impl/device.ipp lines 20-85 and 107-196", "core/include/vecmem/edm/impl/proxy.ipp lines 12-58"]}
{"id": "C138", "title": "device_vector and jagged_device_vector: concurrent push_back is free of data races", "statement": "Any number of threads call push_back on a device_vector, or at(i).push_back on a jagged_device_vector, interleaved in any way. Whenever two different threads access the same byte of shared memory at any two points of the run and one of the accesses writes, both accesses are atomic operations (on a size counter). Assumes that the memory of counters, elements and description does not overlap; the vectors may be too small for all calls.", "quantifier": "all element sizes, capacities, old contents, appended values, numbers of threads and schedules, and all pairs of accesses in a run", "why_tests_cant": "the absence of a race is a statement about all interleavings, and a test cannot observe it", "anchors": ["core/include/vecmem/containers/impl/device_vector.ipp: push_back, construct", "core/include/vecmem/containers/impl/jagged_device_vector.ipp lines 44-53", "core/include/vecmem/memory/impl/posix_device_atomic_ref.ipp"]}
{"id": "C139", "title": "edm::device: concurrent push_back_default and at are free of data races", "statement": "Any number of threads call push_back_default on an SoA container and then access the new element through at, interleaved in any way. Whenever two different threads access the same byte of shared memory at any two points of the run and one of the accesses writes, both accesses are atomic operations.", "quantifier": "all schemas of scalars and vectors, capacities, values, numbers of threads and schedules, and all pairs of accesses in a run", "why_tests_cant": "the absence of a race is a statement about all interleavings, and a test cannot observe it", "anchors": ["core/include/vecmem/edm/impl/device.ipp lines 33-42 (size)", "core/include/vecmem/edm/impl/device.ipp lines 55-85 (push_back_default)", "core/include/vecmem/edm/impl/device.ipp lines 107-116 (at)"]}
{"id": "C140", "title": "memory resources can be stacked in any order and to any height", "statement": "Take any stack of pool (with options under which every chunk satisfies its limits, an alignment of at most 16 and chunks of at most 2^63 bytes), binary_page, contiguous, identity, conditional, debug, synchronized, terminal and instrumenting memory resources (the last also with a memory_monitor attached once), each being the upstream of the one above, over a resource whose live blocks are aligned, non-null and disjoint. If the user makes requests of 1 to 2^63 bytes with an alignment of at most 16 and frees only live blocks, then: the live blocks are aligned, non-null, pairwise disjoint and inside live blocks of the lowest resource; no call at any level is undefined, allocations return or throw bad_alloc and deallocations return; the lowest resource only receives such legal calls, at most one for each call at the top; every legal call can be made in every state; and when the user has freed everything and the resources are destroyed from top to bottom, everything has been given back.", "quantifier": "all stacks (number, order and parameters of the resources), all legal histories of calls and all answers of the lowest resource", "why_tests_cant": "tests compose a few fixed pairs of resources; the claim is about all compositions and histories", "anchors": ["core/src/memory/details/pool_memory_resource_impl.cpp", "core/src/memory/details/binary_page_memory_resource_impl.cpp", "core/src/memory/details/contiguous_memory_resource_impl.cpp", "core/src/memory/details/debug_memory_resource_impl.cpp", "core/src/memory/details/conditional_memory_resource_impl.cpp", "core/src/memory/details/identity_memory_resource_impl.cpp", "core/src/memory/details/instrumenting_memory_resource_impl.cpp", "core/src/utils/memory_monitor.cpp", "core/src/memory/synchronized_memory_resource.cpp", "core/src/memory/terminal_memory_resource.cpp"]}
{"id": "C141", "title": "threads can share any stack of memory resources through a synchronized resource", "statement": "Put a synchronized_memory_resource on top of any stack of resources as in C140 and let any number of threads call it, interleaved in any way. Suppose that the threads make requests of 1 to 2^63 bytes with an alignment of at most 16, and that a block is given back once, by any thread, after the call that allocated it has returned. Then at every moment the blocks held by the threads are aligned, non-null, pairwise disjoint and inside live blocks of the lowest resource; every allocation returns or throws bad_alloc, every deallocation returns, and none is undefined; the calls made to the stack and those made to the lowest resource are legal sequential histories; two calls of the stack never overlap in time; and when the threads are idle, hold no blocks and the stack is destroyed, everything has been given back to the lowest resource.", "quantifier": "all stacks, numbers of threads, programs of the threads, interleavings and answers of the lowest resource", "why_tests_cant": "interleavings cannot be enumerated by tests; the claim needs the mutex, the resources and the use by all threads together", "anchors": ["core/src/memory/synchronized_memory_resource.cpp", "core/include/vecmem/memory/synchronized_memory_resource.hpp", "core/src/memory/details/pool_memory_resource_impl.cpp", "core/src/memory/details/binary_page_memory_resource_impl.cpp"]}
{"id": "C142", "title": "edm::host: the views made by get_data", "statement": "Take get_data of an edm::host container, const or not. If two vector variables (one dimensional or jagged) differ in size, std::length_error is thrown and nothing is allocated. Otherwise, with n elements (n and the sizes of inner vectors below 2^32) and a resource whose live blocks are aligned, non-null, disjoint and accessible, get_data either throws std::bad_alloc after an allocation failed, having given back all that it allocated, or returns a result such that an edm::device made from it (also through a view to const) has size and capacity n and gives, for every index below n, the scalars, elements and inner vectors of the host container. get_data writes only to memory that it allocates, the blocks it holds afterwards are one description for each jagged vector, and destroying the result gives these back with the size and alignment of their allocation.", "quantifier": "all schemas, sizes, contents, answers of the memory resource and earlier histories of the resource", "why_tests_cant": "combines all schemas with all failures of allocations; indeterminate members show up only in special schemas and only sometimes", "anchors": ["core/include/vecmem/edm/impl/host.ipp lines 165-300", "core/include/vecmem/edm/impl/data.ipp lines 15-63", "core/include/vecmem/edm/details/data_traits.hpp lines 22-78", "core/include/vecmem/edm/view.hpp lines 70 and 168-189"]}
{"id": "C143", "title": "memory resources can be connected to any acyclic graph", "statement": "Number memory resources so that every resource of a kind in C140 and every choice and coalescing resource uses only resources with lower numbers; several may use the same one, the resources with the numbers below B are arbitrary, and the blocks live in these at one time are aligned, non-null and disjoint. All resources are constructed before the first call of the user. If the user makes requests of 1 to 2^63 bytes with an alignment of at most 16 to any of the resources, and frees only live blocks, through the resource they came from, then: all live blocks of the user, from whatever resources, are aligned, non-null, pairwise disjoint and inside live blocks of the lowest resources; no call at any resource is undefined, allocations return or throw bad_alloc and deallocations return; the calls that reach the lowest resources are such legal calls as well; every legal call can be made in every state, an allocation leading to requests and a deallocation to deallocations at the lowest resources only; and when the user has freed everything and the resources are destroyed from the highest number to the lowest, everything has been given back.", "quantifier": "all graphs (number, kinds, parameters and connections of the resources), decision functions of choice resources, legal histories of calls and answers of the lowest resources", "why_tests_cant": "tests connect a few fixed resources; sharing of an upstream by several resources that keep records of their blocks is not tested at all", "anchors": ["core/src/memory/details/choice_memory_resource_impl.cpp", "core/src/memory/details/coalescing_memory_resource_impl.cpp", "core/src/memory/details/pool_memory_resource_impl.cpp", "core/src/memory/details/binary_page_memory_resource_impl.cpp", "core/src/memory/details/contiguous_memory_resource_impl.cpp", "core/src/memory/details/debug_memory_resource_impl.cpp", "core/src/memory/details/conditional_memory_resource_impl.cpp"]}
{"id": "C144", "title": "vecmem::tuple: elements, copies and references", "statement": "A tuple made by a constructor, make_tuple or tie has as many elements as arguments (other calls do not compile); get<I> is defined exactly for I below this number and returns a reference to element I; an element of object type is an object of its own with the value of its argument, different from the other elements and from everything existing before; an element of reference type denotes its argument; copying and converting a tuple does the same with the elements of the source; and a tuple made from a head and a temporary tail has the head and the elements of the tail as elements, none of which is a destroyed element of the tail, if elements of reference type are made only from elements of reference type.", "quantifier": "any number of elements, object and reference types in any mixture, any values", "why_tests_cant": "templates with unbounded argument lists", "anchors": ["core/include/vecmem/utils/tuple.hpp: tuple, 24-100", "core/include/vecmem/utils/impl/tuple.ipp: get, tie, make_tuple"]}
{"id": "C145", "title": "edm proxies: every variable can be accessed from const and non-const containers", "statement": "For host and device containers of any schema, const or not, the proxies returned by at() and operator[] can be made, and both get functions give access to the right element of every variable; the elements can be changed exactly if neither the type of the variable nor the container nor the proxy is const.", "quantifier": "any schema, const and non-const variable types, containers and proxies", "why_tests_cant": "member functions of templates are only compiled when they are used", "anchors": ["core/include/vecmem/edm/details/proxy_traits.hpp: proxy_var_type, 51-241; proxy_data_creator, 250-381", "core/include/vecmem/edm/impl/proxy.ipp", "core/include/vecmem/edm/impl/device.ipp: at, operator[], 106-147", "core/include/vecmem/edm/impl/host.ipp: at, operator[]"]}
{"id": "C146", "title": "threads can put resources of their own on a shared synchronized stack", "statement": "Let any number of threads share a stack of resources as in C140 through a synchronized_memory_resource, and let each thread have a stack of such resources of its own, whose lowest resource uses the synchronized one; the calls of the threads interleave in any way. Suppose that each thread uses its own stack legally (requests of 1 to 2^63 bytes with an alignment of at most 16, only live blocks are freed) and destroys it only when it holds nothing, and that the blocks live in the lowest shared resource are aligned, non-null and disjoint. Then the calls that reach the synchronized resource meet the conditions of C141 (so all of C141 holds); between two calls of a thread, its resources have seen exactly the calls that the shared stack served for it, in this order and with these answers; the blocks held by the users of the resources of all threads are aligned, non-null, pairwise disjoint, also between threads, and inside live blocks of the lowest shared resource; no call of the topmost resource of a thread is undefined, allocations return or throw bad_alloc and deallocations return; and when all threads are idle, have freed everything and destroyed their resources, destroying the shared stack gives everything back to the lowest resource.", "quantifier": "all shared stacks, all private stacks of every thread, programs of the threads, interleavings and answers of the lowest resource", "why_tests_cant": "caches per thread over a shared upstream are a natural use of the library, and no test runs them, and interleavings cannot be enumerated", "anchors": ["core/src/memory/synchronized_memory_resource.cpp", "core/src/memory/details/pool_memory_resource_impl.cpp", "core/src/memory/details/binary_page_memory_resource_impl.cpp", "core/src/memory/contiguous_memory_resource.cpp"]}
{"id": "C147", "title": "synchronized: copies of a synchronized resource synchronize with each other", "statement": "Let synchronized_memory_resource objects be constructed around upstream resources, copied, moved and assigned to each other, and then be used by any number of threads. Two calls of the same upstream resource never overlap in time, whichever of the objects they were made through (a copy, or an object that was assigned to or moved from, has the same upstream resource as the other one).", "quantifier": "all sequences of constructions, copies, moves and assignments, numbers of threads, programs and interleavings", "why_tests_cant": "a race of a copy with the original needs a particular interleaving; no test copies the resource", "anchors": ["core/src/memory/synchronized_memory_resource.cpp lines 13-57", "core/include/vecmem/memory/synchronized_memory_resource.hpp lines 19-45 and 66-69"]}
{"id": "C148", "title": "device_atomic_ref: the requested memory orders are honoured", "statement": "For posix_device_atomic_ref, cuda::device_atomic_ref (also used for HIP) and sycl::custom_device_atomic_ref, every operation and every requested memory order: what a thread does before an operation that releases is performed before it, what a thread does after an operation that acquires is performed after it, sequentially consistent operations of a thread are performed in program order, and so a thread which sees the effect of a releasing operation of another thread with an acquiring operation sees all that the other thread wrote before.", "quantifier": "all operations, orders, programs, numbers of threads and reorderings", "why_tests_cant": "weakly ordered executions depend on the hardware and are rarely seen", "anchors": ["core/include/vecmem/memory/impl/posix_device_atomic_ref.ipp", "core/include/vecmem/memory/impl/cuda_device_atomic_ref.ipp", "core/include/vecmem/memory/impl/sycl_custom_device_atomic_ref.ipp", "core/include/vecmem/memory/memory_order.hpp"]}
{"id": "C149", "title": "edm::host: every variable uses the memory resource that resource() returns", "statement": "After any sequence of constructions, copies, moves, assignments, resizes, reserves and changes of the variables, the allocators of all variables of every host container, and of the inner vectors of its jagged vectors, use the memory resource that its resource() returns.", "quantifier": "any schema, any programs with any number of containers and resources", "why_tests_cant": "the containers have the right contents in any case; only the place of the memory is wrong", "anchors": ["core/include/vecmem/edm/host.hpp: m_data, m_resource, 148-151", "core/include/vecmem/edm/impl/host.ipp: constructor, resource", "core/include/vecmem/edm/details/host_traits.hpp: host_alloc, 70-83; host_resize, 134-150", "core/include/vecmem/containers/details/resize_jagged_vector.hpp"]}
{"id": "C150", "title": "edm::host: scalars always have their value, and new containers are empty", "statement": "A new host container has exactly one value-initialised element for each scalar and none for each vector, for all element types; and after any sequence of constructions, copies, moves, assignments, resizes and changes, get of a scalar variable of any container is defined.", "quantifier": "any schema and element types, any programs with any number of containers", "why_tests_cant": "needs unusual element types, or containers that were moved from", "anchors": ["core/include/vecmem/edm/details/host_traits.hpp: host_type, 28-53; host_alloc, 70-83", "core/include/vecmem/edm/impl/host.ipp: get, 66-97", "core/include/vecmem/edm/host.hpp: implicit copy and move functions"]}
{"id": "C151", "title": "views: const data is not written through the conversions of views", "statement": "Let a program get pointers to and views of objects (views of const elements for const objects), build jagged_vector_views and views of containers from them, convert views with the constructors and assignments that vecmem enables, read and store inner views through ptr(), and access elements and payloads; let it compile. Then no object is written that was given as const, and every object is accessed with its own type (or a base class of it).", "quantifier": "all programs over the operations, numbers and types of objects and class hierarchies", "why_tests_cant": "a hole in const-correctness shows up only as a program that compiles; no test tries to break it", "anchors": ["core/include/vecmem/containers/data/vector_view.hpp lines 50-90", "core/include/vecmem/containers/data/jagged_vector_view.hpp lines 50-123", "core/include/vecmem/containers/impl/jagged_vector_view.ipp lines 21-55", "core/include/vecmem/edm/view.hpp lines 46-123"]}
{"id": "C152", "title": "views: conversions add const and do nothing else", "statement": "A view of a container can be converted to one with another schema exactly if the schemas differ, have the same number of variables, and each variable has the same kind and element type in both, except that const may be added; whenever the conversion is enabled its body compiles; conversions compose; every view converts to the view of the const schema. For vector_view and jagged_vector_view likewise: exactly the same type, or the non-const one.", "quantifier": "all schemas, element types and class hierarchies", "why_tests_cant": "the conditions are evaluated at compile time, and tests instantiate a few of them", "anchors": ["core/include/vecmem/utils/type_traits.hpp lines 32-94", "core/include/vecmem/edm/view.hpp lines 46-123", "core/include/vecmem/edm/impl/view.ipp lines 30-78", "core/include/vecmem/edm/details/schema_traits.hpp lines 22-43 and 132-147", "core/include/vecmem/edm/details/view_traits.hpp lines 24-53"]}
{"id": "C153", "title": "synchronized resources protect shared parts of any graph of resources, without deadlock", "statement": "Let any number of threads call resources of an acyclic graph that has synchronized resources in any places; every resource may call its upstream resources any number of times within a call. If every way by which the threads can reach a resource goes through one and the same synchronized resource, no two threads are ever inside of that resource, which sees a sequence of calls, one after the other. In every graph there is no deadlock: as long as a thread has not finished, some thread can go on, and every run can be continued until all threads have finished.", "quantifier": "all acyclic graphs, placements of synchronized resources, numbers of threads, sequences of (nested) calls and interleavings", "why_tests_cant": "interleavings cannot be enumerated, and deadlocks and races depend on the whole graph", "anchors": ["core/src/memory/synchronized_memory_resource.cpp lines 45-57", "core/include/vecmem/memory/synchronized_memory_resource.hpp lines 19-70"]}
{"id": "C154", "title": "vector_buffer programs: any number of buffers are independent bounded lists", "statement": "For every program that constructs vector_buffers (of any element sizes, alignments, capacities, fixed or resizable), moves and destroys them, and calls setup, memset, get_size and copies (default copy type) on them in any order, mixed with reads and writes of elements and sizes, and for every memory resource or graph of memory resources which keeps to its contract: as long as the calls are legal no undefined behaviour occurs, every result is that of a specification in which the buffers are independent bounded lists (so that no operation on one buffer changes another), and the resources get back only live blocks and hold exactly one block per living buffer of nonzero capacity.", "quantifier": "all programs, numbers of buffers, element types, contents of fresh memory, addresses and failures of the resources", "why_tests_cant": "interference between buffers depends on the layout of the memory and on the order of many operations", "anchors": ["core/include/vecmem/containers/impl/vector_buffer.ipp", "core/include/vecmem/containers/data/vector_buffer.hpp", "core/include/vecmem/utils/impl/copy.ipp", "core/include/vecmem/memory/unique_ptr.hpp"]}
{"id": "C155", "title": "kernels that filter vector_buffers into others behave like appends to bounded lists", "statement": "For every host program as in C154 that also launches kernels, in which any number of threads read the size and an element of one vector_buffer (size, at), compute any function of it and append its result, if there is one, to another resizable vector_buffer (push_back), under every schedule that lets all threads return: as long as the calls are legal (different buffers, the elements that are read have been written, there is space for what is appended) no undefined behaviour occurs, the indices returned by push_back are exactly the free ones in order of the buffer, the output keeps its elements and gets the results of all threads in the order of these indices, a permutation of the results, and no other buffer changes; all later results of the program, with any further launches, copies and destructions, are those of the bounded lists.", "quantifier": "all programs, kernels, numbers of threads and launches, schedules, element types, addresses and failures of the resources", "why_tests_cant": "schedules of threads and layouts of memory over several launches cannot be enumerated", "anchors": ["core/include/vecmem/containers/impl/device_vector.ipp lines 63-83, 196-214 and 484-497", "core/include/vecmem/containers/impl/vector_buffer.ipp", "core/include/vecmem/utils/impl/copy.ipp", "tests/cuda/test_cuda_containers_kernels.cu lines 157-187"]}
{"id": "C156", "title": "kernels that filter vector_buffers are free of data races", "statement": "After every legal program as in C155, in every legal launch of a kernel whose threads read the size (vector_view::size, not atomic) and an element (device_vector::at) of one vector_buffer and append results to another with push_back: no schedule, complete or not, has undefined behaviour, and whenever two accesses of different threads, at the same or at different times of a run, share a byte and one of them writes, both are atomic.", "quantifier": "all programs, kernels, numbers of threads, schedules and pairs of accesses", "why_tests_cant": "data races are undefined behaviour that need not show up in any run", "anchors": ["core/include/vecmem/containers/impl/vector_view.ipp lines 74-78", "core/include/vecmem/containers/impl/device_vector.ipp lines 74-83, 196-214, 484-497 and 511-520", "tests/cuda/test_cuda_containers_kernels.cu lines 157-187"]}
{"id": "C157", "title": "programs with kernels that read and write elements of vector_buffers behave as if the threads ran one after another", "statement": "For every program as in C155 that also launches kernels whose threads read sizes (vector_view::size) and read and write bytes of elements (device_vector::at) of any vector_buffers, where what a thread does next may depend in any way on what it has read: if no thread writes a byte that another thread reads or writes, every access is to an existing element and every byte read has been written, then for every schedule that lets the threads finish, every result of the program is that of independent bounded lists on which the threads run one after another, so it does not depend on the schedule; nothing is undefined behaviour; the memory resources, also those of any graph of resources, get back only live blocks. In particular a kernel in which thread t writes a function g of element t of a buffer to element t of another or of the same buffer is legal and maps g over the elements.", "quantifier": "all programs, kernels, numbers of threads, schedules, buffers, element sizes and functions g", "why_tests_cant": "a race or an access to a wrong element shows only for some schedules and data", "anchors": ["core/include/vecmem/containers/impl/device_vector.ipp lines 63-83 and 484-497", "core/include/vecmem/containers/impl/vector_view.ipp lines 74-78", "core/include/vecmem/containers/impl/vector_buffer.ipp lines 18-41", "core/include/vecmem/utils/impl/copy.ipp lines 28-63, 115-137 and 487-539", "tests/cuda/test_cuda_containers_kernels.cu lines 24-49"]}
{"id": "C158", "title": "kernels that read and write elements of vector_buffers are free of data races", "statement": "After every legal program as in C157, in every legal launch of a kernel whose threads read sizes and read and write elements of vector_buffers: no schedule, complete or not, has undefined behaviour, and whenever two accesses of different threads, at the same or at different times of a run, share a byte, both only read.", "quantifier": "all programs, kernels, numbers of threads, schedules and pairs of accesses", "why_tests_cant": "data races are undefined behaviour that need not show up in any run", "anchors": ["core/include/vecmem/containers/impl/device_vector.ipp lines 63-83 and 484-497", "core/include/vecmem/containers/impl/vector_view.ipp lines 74-78", "tests/cuda/test_cuda_containers_kernels.cu lines 24-49"]}
{"id": "C159", "title": "kernels that add atomically to elements of a vector_buffer add every value exactly once", "statement": "Programs as in C157, which may also launch kernels in which every thread with an index below the size of one buffer reads its element of this buffer and then makes any list of atomic additions, computed from this element, to elements (32 bit integers) of another buffer. For every program, kernel, number of threads and schedule, and every sequence of answers of the memory resource (in particular those of any graph of resources): as long as all operations are legal, all results are those of independent lists, in which such a kernel adds to every word the sum, modulo 2^32, of all values that the threads add to it, whatever the schedule, and changes nothing else; no undefined behaviour happens, and at the end exactly the blocks of the living buffers with capacity are allocated.", "quantifier": "all programs, functions from elements to additions, numbers of threads, schedules, resource answers and garbage in new memory", "why_tests_cant": "a lost update in one interleaving of many threads is seen by tests only by luck", "anchors": ["core/include/vecmem/containers/impl/device_vector.ipp lines 63-83 and 484-497", "core/include/vecmem/memory/impl/posix_device_atomic_ref.ipp lines 111-117", "core/include/vecmem/memory/impl/cuda_device_atomic_ref.ipp lines 113-118", "tests/cuda/test_cuda_containers_kernels.cu lines 76-104"]}
{"id": "C160", "title": "kernels that add atomically to elements of a vector_buffer are free of data races", "statement": "After every legal program as in C159, in every legal launch of a kernel as in C159: no schedule, complete or not, has undefined behaviour, and whenever two accesses, at the same or at different times of a run, share a byte and one of them writes, both are atomic.", "quantifier": "all programs, kernels, numbers of threads, schedules and pairs of accesses", "why_tests_cant": "data races are undefined behaviour that need not show up in any run", "anchors": ["core/include/vecmem/containers/impl/device_vector.ipp lines 63-83 and 484-497", "core/include/vecmem/memory/impl/posix_device_atomic_ref.ipp lines 111-117", "core/include/vecmem/memory/impl/cuda_device_atomic_ref.ipp lines 113-118"]}
{"id": "C161", "title": "programs with asynchronous copies of vector_buffers see the results of synchronous copies", "statement": "For every program that creates, moves and destroys any number of vector_buffers, sets them up, fills and copies them with an asynchronous copy object on one stream, asks for sizes, waits for events, and reads and writes bytes and sizes directly, for every speed of the stream, every sequence of answers of the memory resource (in particular those of any graph of resources) and every garbage in new memory: as long as all calls are legal and the host does not access, overwrite or release a buffer that is used by a call which has started something and which no wait on the event of this or a later call that has started something has covered, all results are those of the same program with synchronous copies, all operations on the stream succeed and touch only buffers that exist, and once every such call has been covered by a wait nothing is left on the stream; a busy buffer may be moved; at the end exactly the blocks of the living buffers with capacity are allocated.", "quantifier": "all programs, interleavings of the host and the stream, resource answers and garbage in new memory", "why_tests_cant": "whether the stream is behind the host depends on timing that tests do not control", "anchors": ["core/include/vecmem/utils/impl/copy.ipp lines 28-63, 83-95, 115-137 and 487-539", "cuda/src/utils/cuda/async_copy.cpp", "core/include/vecmem/containers/impl/vector_buffer.ipp lines 18-41"]}
{"id": "C162", "title": "a wait on the event of the last call finishes the stream", "statement": "In every legal program as in C161, after a wait on the event that the last call of setup, memset or operator() has returned, no operation is left on the stream.", "quantifier": "all programs and interleavings of the host and the stream", "why_tests_cant": "the missing wait is seen only if the stream is slow", "anchors": ["core/include/vecmem/utils/impl/copy.ipp lines 28-63 and 83-95", "core/src/utils/copy.cpp"]}
{"id": "C163", "title": "programs with asynchronous copies on several streams see the results of synchronous copies", "statement": "For every program as in C161 whose copy objects have any number of streams, and for every order in which the streams perform their operations (in order within each stream): as long as all calls are legal, and a buffer used by a call that has started something, and that no wait on the event of this or a later call of the same stream that has started something has covered, is not accessed, overwritten or released by the host, is not written by a call on another stream, and, if the first call writes it, is not read by a call on another stream either, all results are those of the same program with synchronous copies, no byte that a pending operation writes is touched by a pending operation of another stream, all bytes that pending operations touch are in buffers that exist and are in use by the calls that have issued them, and once every such call has been covered nothing is left on any stream; at the end exactly the blocks of the living buffers with capacity are allocated; the memory resources may be those of any graph.", "quantifier": "all programs, numbers of streams, interleavings of the host and the streams, resource answers and garbage in new memory", "why_tests_cant": "how far each stream is depends on timing that tests do not control", "anchors": ["core/include/vecmem/utils/impl/copy.ipp lines 28-63, 83-95, 115-137 and 487-539", "cuda/src/utils/cuda/async_copy.cpp", "core/include/vecmem/containers/impl/vector_buffer.ipp lines 18-41"]}
{"id": "C164", "title": "the rule for one stream is enough for several", "statement": "For every program as in C163, if it follows the rule of C161 (the host does not access, overwrite or release a buffer in use by a call that no wait has covered), all results are those of the same program with synchronous copies.", "quantifier": "all programs, numbers of streams and interleavings of the host and the streams", "why_tests_cant": "the wrong order of two streams is seen only if one of them is slow", "anchors": ["core/include/vecmem/utils/impl/copy.ipp lines 28-63 and 487-539", "cuda/src/utils/cuda/async_copy.cpp"]}
