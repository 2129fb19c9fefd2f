{
 "claims": [
  {
   "property": "C01",
   "status": "proved",
   "theorems": [
    "C01_round_up",
    "C01_round_up_large"
   ],
   "note": ""
  },
  {
   "property": "C02",
   "status": "proved",
   "theorems": [
    "C02_log2",
    "C02_log2_ri",
    "C02_is_power_of_2"
   ],
   "note": ""
  },
  {
   "property": "C03",
   "status": "proved",
   "theorems": [
    "C03_disjoint"
   ],
   "note": ""
  },
  {
   "property": "C04",
   "status": "proved",
   "theorems": [
    "C04_defined"
   ],
   "note": ""
  },
  {
   "property": "C05",
   "status": "proved",
   "theorems": [
    "C05_coalesced"
   ],
   "note": ""
  },
  {
   "property": "C06",
   "status": "proved",
   "theorems": [
    "C06_upstream"
   ],
   "note": ""
  },
  {
   "property": "C07",
   "status": "proved",
   "theorems": [
    "C07_returned"
   ],
   "note": ""
  },
  {
   "property": "C08",
   "status": "partial",
   "theorems": [
    "C08_refuted",
    "C08_align16_partial"
   ],
   "note": "REFUTED: the alignment argument is ignored; witness: alignment 64 requested, upstream block at 4112 (16-aligned as asked), result 4112. Proved instead: every block is 16-aligned."
  },
  {
   "property": "C55",
   "status": "partial",
   "theorems": [
    "C55_refuted",
    "C05_coalesced",
    "C06_upstream"
   ],
   "note": "REFUTED: a superpage is skipped for requests below its smallest page size (find_free_page, line 204); witness: free 2^30-byte superpage, request of 100 bytes goes upstream. C05/C06 state exactly when a free superpage does serve."
  },
  {
   "property": "C21",
   "status": "proved",
   "theorems": [
    "C21_blocks"
   ],
   "note": ""
  },
  {
   "property": "C22",
   "status": "proved",
   "theorems": [
    "C22_fit",
    "C22_life"
   ],
   "note": ""
  },
  {
   "property": "C23",
   "status": "proved",
   "theorems": [
    "C23_allocate",
    "C23_deallocate"
   ],
   "note": ""
  },
  {
   "property": "C24",
   "status": "proved",
   "theorems": [
    "C24_allocate",
    "C24_deallocate"
   ],
   "note": ""
  },
  {
   "property": "C25",
   "status": "proved",
   "theorems": [
    "C25_allocate",
    "C25_deallocate"
   ],
   "note": ""
  },
  {
   "property": "C26",
   "status": "proved",
   "theorems": [
    "C26_transparent",
    "C26_rejects"
   ],
   "note": ""
  },
  {
   "property": "C27",
   "status": "proved",
   "theorems": [
    "C27_events",
    "C27_hooks",
    "C27_allocate",
    "C27_deallocate"
   ],
   "note": ""
  },
  {
   "property": "C28",
   "status": "proved",
   "theorems": [
    "C28_counters",
    "C28_no_underflow"
   ],
   "note": ""
  },
  {
   "property": "C29",
   "status": "proved",
   "theorems": [
    "C29_sequential",
    "C29_exclusive",
    "C29_point",
    "C29_real_time",
    "C29_program_order"
   ],
   "note": ""
  },
  {
   "property": "C56",
   "status": "partial",
   "theorems": [
    "C56_refuted",
    "C56_average_partial"
   ],
   "note": "REFUTED: before the first allocation the average is 0/0, a NaN, whose conversion to std::size_t is undefined. Proved instead: with at least one recorded allocation the result is the quotient rounded to nearest (floating point taken as exact)."
  },
  {
   "property": "C57",
   "status": "partial",
   "theorems": [
    "C57_refuted",
    "C57_idle_partial"
   ],
   "note": "REFUTED: allocate 10 bytes, attach a monitor, free the block: outstanding (0) is smaller than 10, the assert of pre_deallocate fails (in release builds the counter wraps). Proved for a monitor attached while no block is live."
  },
  {
   "property": "C30",
   "status": "proved",
   "theorems": [
    "C30_last_set"
   ],
   "note": ""
  },
  {
   "property": "C31",
   "status": "proved",
   "theorems": [
    "C31_arguments",
    "C31_aligned_alloc",
    "C31_malloc",
    "C31_assert",
    "C31_zero"
   ],
   "note": ""
  },
  {
   "property": "C58",
   "status": "partial",
   "theorems": [
    "C58_refuted",
    "C31_arguments",
    "C31_aligned_alloc",
    "C31_malloc"
   ],
   "note": "REFUTED: 2^64-8 bytes at alignment 16 ask aligned_alloc for 0 bytes; 2^64-22 bytes ask malloc for 1 byte and the bookkeeping pointer is written out of bounds. C31 covers sizes below 2^63."
  },
  {
   "property": "C32",
   "status": "proved",
   "theorems": [
    "C32_lifetimes"
   ],
   "note": ""
  },
  {
   "property": "C33",
   "status": "partial",
   "theorems": [
    "C33_refuted",
    "C33_aligned_partial"
   ],
   "note": "REFUTED: make_unique_obj calls allocate(s) with the default alignment; a type aligned to 64 over an upstream answering 4112 is misaligned. Proved instead for alignments up to 16."
  },
  {
   "property": "C59",
   "status": "partial",
   "theorems": [
    "C59_refuted",
    "C59_lost_partial"
   ],
   "note": "REFUTED: a throwing constructor leaks the block and leaves the elements constructed so far alive; C59_lost_partial states exactly what is left for every element index."
  },
  {
   "property": "C60",
   "status": "partial",
   "theorems": [
    "C60_refuted",
    "C60_fits_partial"
   ],
   "note": "REFUTED: n = 2^61+2 elements of 8 bytes allocate 16 bytes. Proved when n * sizeof(T) is below 2^64."
  },
  {
   "property": "C61",
   "status": "proved",
   "theorems": [
    "C61_objects",
    "C61_arrays"
   ],
   "note": ""
  },
  {
   "property": "C09",
   "status": "proved",
   "theorems": [
    "C09_disjoint"
   ],
   "note": ""
  },
  {
   "property": "C10",
   "status": "proved",
   "theorems": [
    "C10_block"
   ],
   "note": ""
  },
  {
   "property": "C11",
   "status": "proved",
   "theorems": [
    "C11_released",
    "C11_all"
   ],
   "note": ""
  },
  {
   "property": "C12",
   "status": "partial",
   "theorems": [
    "C12_refuted",
    "C12_safe_partial",
    "C12_deallocate_partial"
   ],
   "note": "REFUTED: min_blocks_per_chunk = min_bytes_per_chunk = 0 is accepted and the first allocation calls back() on an empty vector; min_bytes_per_chunk = 1000 with min_blocks_per_chunk = 1 is accepted and fails assert(bytes >= min_bytes_per_chunk). Proved instead under opts_safe, which the default options satisfy."
  },
  {
   "property": "C13",
   "status": "proved",
   "theorems": [
    "C13_lifo"
   ],
   "note": ""
  },
  {
   "property": "C14",
   "status": "partial",
   "theorems": [
    "C14_refuted",
    "C14_C63_cache_partial",
    "C14_default_partial"
   ],
   "note": "REFUTED: the size cutoff is not checked again after the search for an aligned block; default options, cache {130@32, 65536@64}, request 128@64 gets the 65536-byte block. Proved instead when all large-enough cached blocks are aligned enough."
  },
  {
   "property": "C62",
   "status": "partial",
   "theorems": [
    "C62_refuted",
    "C62_cutoffs_partial"
   ],
   "note": "REFUTED: the alignment cutoff is applied to the first candidate only; default options, cache {128@4096, 256@64}, request 128@64 goes upstream. Proved when no suitable cached block is beyond the alignment cutoff."
  },
  {
   "property": "C63",
   "status": "proved",
   "theorems": [
    "C63_best_fit"
   ],
   "note": ""
  },
  {
   "property": "C64",
   "status": "partial",
   "theorems": [
    "C64_refuted",
    "C64_nonzero_partial",
    "C64_conditions_partial"
   ],
   "note": "REFUTED: smallest_block_size = 0 reaches log2_ri(0), which is undefined, in the initialiser list before check_valid. Proved for non-zero sizes."
  },
  {
   "property": "C65",
   "status": "partial",
   "theorems": [
    "C65_refuted",
    "C65_small_partial"
   ],
   "note": "REFUTED: for alignment 2^62 the space 4*alignment wraps to 0. Proved for alignments up to 2^61."
  },
  {
   "property": "C15",
   "status": "partial",
   "theorems": [
    "C15_refuted",
    "C20_blocks"
   ],
   "note": "REFUTED: expand_arena inserts the new superblock into the free set and get_block then also merges it with the block below, so the set holds overlapping ranges; upstream blocks 4096 and 4608 of 512 bytes, requests 256, 512, 256. Proved for upstream blocks that do not touch (C20)."
  },
  {
   "property": "C16",
   "status": "partial",
   "theorems": [
    "C16_refuted",
    "C20_allocate"
   ],
   "note": "REFUTED: requests above the superblock size return nullptr without an exception; requests within 256 bytes of 2^64 are rounded up to 0 bytes. Proved under the conditions of C20."
  },
  {
   "property": "C17",
   "status": "partial",
   "theorems": [
    "C17_refuted",
    "C20_deallocate"
   ],
   "note": "REFUTED: coalesce_block dereferences end() when the free set is empty. Proved under the conditions of C20 for a non-empty free set."
  },
  {
   "property": "C18",
   "status": "partial",
   "theorems": [
    "C18_refuted",
    "C18_current_partial"
   ],
   "note": "REFUTED: maximum_size_ is stored but never compared; initial 512, maximum 600, two superblocks. Proved instead: current_size_ counts the bytes held modulo 2^64, and every superblock has the initial size or 2^18 bytes."
  },
  {
   "property": "C19",
   "status": "partial",
   "theorems": [
    "C19_refuted",
    "C19_apart_partial"
   ],
   "note": "REFUTED for adjacent upstream blocks, where merged blocks are handed back with sizes never obtained. Proved for upstream blocks that do not touch, requests within the limits of C20 and a free set that is not empty at destruction."
  },
  {
   "property": "C20",
   "status": "proved",
   "theorems": [
    "C20_blocks",
    "C20_allocate",
    "C20_deallocate",
    "C20_ceil256"
   ],
   "note": ""
  },
  {
   "property": "C66",
   "status": "partial",
   "theorems": [
    "C66_refuted",
    "C20_blocks"
   ],
   "note": "REFUTED: the alignment argument is ignored; alignment 32, upstream block at 4112. Proved under the conditions of C20 for alignments up to 16."
  },
  {
   "property": "C34",
   "status": "proved",
   "theorems": [
    "C34_placement"
   ],
   "note": ""
  },
  {
   "property": "C35",
   "status": "proved",
   "theorems": [
    "C35_empty",
    "C35_buffer"
   ],
   "note": ""
  },
  {
   "property": "C36",
   "status": "proved",
   "theorems": [
    "C36_buffer"
   ],
   "note": ""
  },
  {
   "property": "C67",
   "status": "partial",
   "theorems": [
    "C67_refuted",
    "C34_placement"
   ],
   "note": "REFUTED: the byte count wraps: counts 2^61 and 2^61+1 of 8-byte elements allocate 24 bytes, the first pointer is null and the second sub-array leaves the block. C34 covers totals below 2^64."
  },
  {
   "property": "C68",
   "status": "partial",
   "theorems": [
    "C68_refuted",
    "C68_partial"
   ],
   "note": "REFUTED: the fixed-size buffer allocates raw bytes with the default alignment; a type aligned to 32 over an upstream block at 20112 is misaligned. Proved instead for resizable buffers and for alignments up to 16."
  },
  {
   "property": "C69",
   "status": "proved",
   "theorems": [
    "C69_released"
   ],
   "note": ""
  },
  {
   "property": "C70",
   "status": "partial",
   "theorems": [
    "C70_refuted",
    "C36_buffer"
   ],
   "note": "REFUTED: capacities are cast to a 32-bit size type; 2^32+5 becomes 5. C36 covers capacities below 2^32."
  },
  {
   "property": "C50",
   "status": "proved",
   "theorems": [
    "C50_layout",
    "C50_host_layout"
   ],
   "note": ""
  },
  {
   "property": "C71",
   "status": "partial",
   "theorems": [
    "C71_refuted",
    "C50_layout"
   ],
   "note": "REFUTED: the length of the view is cast to a 32-bit size type; one jagged vector of 2^29+1 doubles gives an 8-byte payload view. C50 covers memory needs below 4 GiB."
  },
  {
   "property": "C72",
   "status": "proved",
   "theorems": [
    "C72_released"
   ],
   "note": ""
  },
  {
   "property": "C37",
   "status": "proved",
   "theorems": [
    "C37_step",
    "C37_runs",
    "C37_elements",
    "C37_objects"
   ],
   "note": ""
  },
  {
   "property": "C38",
   "status": "proved",
   "theorems": [
    "C38_push_back",
    "C38_append"
   ],
   "note": ""
  },
  {
   "property": "C51",
   "status": "proved",
   "theorems": [
    "C51_push_back_default"
   ],
   "note": ""
  },
  {
   "property": "C73",
   "status": "partial",
   "theorems": [
    "C73_refuted",
    "C37_step"
   ],
   "note": "REFUTED: the assert compares (index + n) in 32 bits: size 2, capacity 5, n = 2^32-1 passes the assert and leaves size 1. C37 covers calls within the capacity."
  },
  {
   "property": "C74",
   "status": "partial",
   "theorems": [
    "C74_refuted",
    "C38_push_back"
   ],
   "note": "REFUTED: the size is incremented before the element is constructed; a reader between the two steps sees an unconstructed element. C38 covers the state after all calls have returned."
  },
  {
   "property": "C39",
   "status": "proved",
   "theorems": [
    "C39_step",
    "C39_runs",
    "C39_elements",
    "C39_default_construct",
    "C39_range_construct",
    "C39_copy_construct"
   ],
   "note": ""
  },
  {
   "property": "C40",
   "status": "partial",
   "theorems": [
    "C40_refuted",
    "C40_fill_construct",
    "C40_lifetimes_partial",
    "C40_destroy_partial",
    "C39_step"
   ],
   "note": "REFUTED: static_vector(size, value) sets m_size before calling assign(), whose clear() destroys objects that were never created; undefined for every positive size and non-trivial type. The partial theorems cover all other constructors and all operations."
  },
  {
   "property": "C41",
   "status": "partial",
   "theorems": [
    "C41_refuted",
    "C41_late_alias",
    "C41_early_alias_partial"
   ],
   "note": "REFUTED: insert moves the elements before reading the argument; an argument at or beyond pos + n is replaced by the element n places before it. Arguments before that are proved correct."
  },
  {
   "property": "C75",
   "status": "partial",
   "theorems": [
    "C75_refuted",
    "C75_values_partial"
   ],
   "note": "REFUTED: the implicit copy assignment copies the bytes; old elements are not destroyed, and the new ones were never constructed. The values read are proved right."
  },
  {
   "property": "C76",
   "status": "partial",
   "theorems": [
    "C76_refuted",
    "C76_aligned_partial"
   ],
   "note": "REFUTED: the elements start 8 bytes into an object of alignment 8; element types of alignment 16 are misaligned. Proved for alignments dividing 8."
  },
  {
   "property": "C77",
   "status": "proved",
   "theorems": [
    "C77_asserts"
   ],
   "note": ""
  },
  {
   "property": "C42",
   "status": "partial",
   "theorems": [
    "C42_refuted",
    "C42_copy_partial",
    "C42_too_large"
   ],
   "note": "REFUTED: copying an empty source returns early and leaves a resizable target with its old size. Proved for non-empty sources."
  },
  {
   "property": "C43",
   "status": "proved",
   "theorems": [
    "C43_round_trip"
   ],
   "note": ""
  },
  {
   "property": "C44",
   "status": "proved",
   "theorems": [
    "C44_jagged",
    "C44_contiguity",
    "C44_outer_sizes"
   ],
   "note": ""
  },
  {
   "property": "C45",
   "status": "proved",
   "theorems": [
    "C45_inverse",
    "C45_length",
    "C45_capacity"
   ],
   "note": ""
  },
  {
   "property": "C46",
   "status": "partial",
   "theorems": [
    "C46_refuted",
    "C46_vector",
    "C46_jagged_partial"
   ],
   "note": "REFUTED: for an empty jagged view is_contiguous is called with size 0, against its assert. Proved for one dimensional views and for jagged views with at least one inner vector."
  },
  {
   "property": "C78",
   "status": "partial",
   "theorems": [
    "C78_refuted",
    "C42_copy_partial"
   ],
   "note": "REFUTED: a source of 2 elements copied into a fixed-size target of 5 succeeds and keeps the last 3 old elements."
  },
  {
   "property": "C79",
   "status": "partial",
   "theorems": [
    "C79_refuted",
    "C79_fixed_first_partial"
   ],
   "note": "REFUTED: with a resizable inner vector before a fixed one, set_sizes silently does nothing. Proved when a fixed inner vector comes before a resizable one."
  },
  {
   "property": "C80",
   "status": "proved",
   "theorems": [
    "C80_kind",
    "C42_copy_partial"
   ],
   "note": ""
  },
  {
   "property": "C81",
   "status": "proved",
   "theorems": [
    "C81_vector",
    "C81_jagged",
    "C81_jagged_fixed"
   ],
   "note": ""
  },
  {
   "property": "C82",
   "status": "proved",
   "theorems": [
    "C82_same_kind",
    "C82_same_length"
   ],
   "note": ""
  },
  {
   "property": "C83",
   "status": "partial",
   "theorems": [
    "C83_refuted",
    "C83_padding_refuted",
    "C82_same_kind"
   ],
   "note": "REFUTED: only the lengths of the payloads are compared. Jagged vectors with capacities 2,3 and 3,2, or a vector of 2 chars and one of 1 char before a padded scalar, are copied without an error and leave a size beyond the capacity. With equal capacities C82 gives the exact contents."
  },
  {
   "property": "C84",
   "status": "partial",
   "theorems": [
    "C84_refuted",
    "C82_same_kind"
   ],
   "note": "REFUTED: the numbers of size variables are compared after the payload has been overwritten."
  },
  {
   "property": "C85",
   "status": "proved",
   "theorems": [
    "C85_views"
   ],
   "note": ""
  },
  {
   "property": "C86",
   "status": "partial",
   "theorems": [
    "C86_refuted",
    "C86_setup_partial",
    "C86_fixed"
   ],
   "note": "REFUTED: setup returns early for a capacity of zero, but a resizable buffer without jagged vectors has a size variable even then; get_size reads it uninitialised. Proved for non-zero capacities."
  },
  {
   "property": "C87",
   "status": "partial",
   "theorems": [
    "C87_refuted",
    "C87_memset_partial"
   ],
   "note": "REFUTED: a buffer without any payload and with a jagged vector runs into the assert of is_contiguous. Proved for non-empty payloads."
  },
  {
   "property": "C47",
   "status": "proved",
   "theorems": [
    "C47_atomic",
    "C47_meaning",
    "C47_sum"
   ],
   "note": ""
  },
  {
   "property": "C48",
   "status": "partial",
   "theorems": [
    "C48_refuted",
    "C48_other_platforms_partial"
   ],
   "note": "REFUTED: the CUDA/HIP branch returns the old value converted to bool and never updates expected. Proved for the SYCL and host branches."
  },
  {
   "property": "C88",
   "status": "proved",
   "theorems": [
    "C88_tickets"
   ],
   "note": ""
  },
  {
   "property": "C89",
   "status": "proved",
   "theorems": [
    "C89_bounded"
   ],
   "note": ""
  },
  {
   "property": "C90",
   "status": "partial",
   "theorems": [
    "C90_refuted",
    "C90_alone_partial"
   ],
   "note": "REFUTED: reading and writing are separate accesses; an addition is lost, and load(), which writes back a zero, undoes a concurrent store. Proved for a single thread."
  },
  {
   "property": "C91",
   "status": "proved",
   "theorems": [
    "C91_builtins",
    "C91_compare_exchange",
    "C91_failure_order"
   ],
   "note": ""
  },
  {
   "property": "C49",
   "status": "proved",
   "theorems": [
    "C49_size",
    "C49_throws",
    "C49_resize"
   ],
   "note": ""
  },
  {
   "property": "C92",
   "status": "proved",
   "theorems": [
    "C92_at",
    "C92_new"
   ],
   "note": ""
  },
  {
   "property": "C93",
   "status": "proved",
   "theorems": [
    "C93_get_data"
   ],
   "note": ""
  },
  {
   "property": "C94",
   "status": "partial",
   "theorems": [
    "C94_refuted",
    "C94_prefix_partial"
   ],
   "note": "REFUTED: the variables are resized one after the other; after a bad_alloc the first ones have the new size, and size() throws length_error."
  },
  {
   "property": "C52",
   "status": "proved",
   "theorems": [
    "C52_rbegin",
    "C52_rend",
    "C52_operators",
    "C52_sequences"
   ],
   "note": ""
  },
  {
   "property": "C53",
   "status": "proved",
   "theorems": [
    "C53_at",
    "C53_equal",
    "C53_fill"
   ],
   "note": ""
  },
  {
   "property": "C95",
   "status": "proved",
   "theorems": [
    "C95_front_back"
   ],
   "note": ""
  },
  {
   "property": "C96",
   "status": "proved",
   "theorems": [
    "C96_iterator",
    "C96_access"
   ],
   "note": ""
  },
  {
   "property": "C54",
   "status": "proved",
   "theorems": [
    "C54_wait",
    "C54_terminates",
    "C54_events",
    "C54_destroyed"
   ],
   "note": ""
  },
  {
   "property": "C97",
   "status": "proved",
   "theorems": [
    "C97_programs"
   ],
   "note": ""
  },
  {
   "property": "C98",
   "status": "proved",
   "theorems": [
    "C98_vector",
    "C98_jagged",
    "C98_edm"
   ],
   "note": ""
  },
  {
   "property": "C99",
   "status": "partial",
   "theorems": [
    "C99_throw_refuted",
    "C99_vector_jagged_partial"
   ],
   "note": "REFUTED: the copy of an SoA container variable by variable throws length_error on the second variable while the copy of the first one is in flight, without an event to wait for. Proved for vectors and for length errors of jagged vectors."
  },
  {
   "property": "C100",
   "status": "partial",
   "theorems": [
    "C100_events_refuted",
    "C100_events_partial"
   ],
   "note": "REFUTED: memset of an SoA container drops the events of the inner calls. Proved for all functions on vectors, setup and memset of jagged vectors, setup of containers."
  },
  {
   "property": "C101",
   "status": "partial",
   "theorems": [
    "C101_order_refuted",
    "C101_independent_partial"
   ],
   "note": "REFUTED: the queues that the library makes are out of order, and async_copy passes no dependencies. Proved for operations that do not conflict."
  },
  {
   "property": "C102",
   "status": "proved",
   "theorems": [
    "C102_allocate",
    "C102_select"
   ],
   "note": ""
  },
  {
   "property": "C103",
   "status": "partial",
   "theorems": [
    "C103_device_refuted",
    "C103_previous_partial"
   ],
   "note": "REFUTED: device() returns the device that was current before; the claim holds only if that was d."
  },
  {
   "property": "C104",
   "status": "proved",
   "theorems": [
    "C104_equivalence",
    "C104_deallocate"
   ],
   "note": ""
  },
  {
   "property": "C105",
   "status": "partial",
   "theorems": [
    "C105_kind_refuted",
    "C105_kind_partial"
   ],
   "note": "REFUTED: device, host and shared SYCL resources on one queue are equal. Proved for the others."
  },
  {
   "property": "C106",
   "status": "partial",
   "theorems": [
    "C106_coalescing_refuted",
    "C106_coalescing_sycl_partial"
   ],
   "note": "REFUTED: the CUDA and HIP resources throw runtime_error, only bad_alloc is caught. Proved for lists of SYCL resources."
  },
  {
   "property": "C107",
   "status": "partial",
   "theorems": [
    "C107_alignment_refuted",
    "C107_alignment_partial"
   ],
   "note": "REFUTED: the CUDA and HIP resources ignore the alignment. Proved for alignments up to that of the runtime."
  },
  {
   "property": "C108",
   "status": "proved",
   "theorems": [
    "C108_life",
    "C108_copy"
   ],
   "note": ""
  },
  {
   "property": "C109",
   "status": "partial",
   "theorems": [
    "C109_assign_refuted",
    "C109_assign_partial"
   ],
   "note": "REFUTED: assigning a view of its own stream to the only owner destroys the stream. Proved if the right-hand side is an owner or a view of a foreign stream."
  },
  {
   "property": "C110",
   "status": "proved",
   "theorems": [
    "C110_life"
   ],
   "note": ""
  },
  {
   "property": "C111",
   "status": "partial",
   "theorems": [
    "C111_copy_refuted",
    "C111_copy_partial"
   ],
   "note": "REFUTED: assigning a view to an owner keeps the owned queue, and later copies are made of that. Proved for wrappers that denote what they own, and for views."
  },
  {
   "property": "C112",
   "status": "partial",
   "theorems": [
    "C112_move_refuted",
    "C112_move_partial"
   ],
   "note": "REFUTED: moving a view of its own queue to the owner leaves a dangling pointer. Proved for sources that denote what they own, and for views of anything else."
  },
  {
   "property": "C113",
   "status": "proved",
   "theorems": [
    "C113_tiling"
   ],
   "note": ""
  },
  {
   "property": "C114",
   "status": "proved",
   "theorems": [
    "C114_first_fit"
   ],
   "note": ""
  },
  {
   "property": "C115",
   "status": "proved",
   "theorems": [
    "C115_host",
    "C47_meaning"
   ],
   "note": ""
  },
  {
   "property": "C116",
   "status": "proved",
   "theorems": [
    "C116_default_device"
   ],
   "note": ""
  },
  {
   "property": "C117",
   "status": "proved",
   "theorems": [
    "C117_outer"
   ],
   "note": ""
  },
  {
   "property": "C118",
   "status": "partial",
   "theorems": [
    "C118_refuted",
    "C118_to_partial"
   ],
   "note": "REFUTED: the constructor of the buffer dereferences the pointers to the sizes on the host, which is undefined for resizable device buffers. Proved if the sizes are in host memory or the source is not resizable."
  },
  {
   "property": "C119",
   "status": "proved",
   "theorems": [
    "C119_to_vectors"
   ],
   "note": ""
  },
  {
   "property": "C120",
   "status": "proved",
   "theorems": [
    "C120_to_host",
    "C120_differ",
    "C120_device"
   ],
   "note": ""
  },
  {
   "property": "C121",
   "status": "proved",
   "theorems": [
    "C121_setup",
    "C121_empty"
   ],
   "note": ""
  },
  {
   "property": "C122",
   "status": "partial",
   "theorems": [
    "C122_refuted",
    "C122_preorder_partial",
    "C122_exact_partial"
   ],
   "note": "REFUTED: a synchronized resource calls its own upstream resource equal, but not the other way round. Proved: is_equal is reflexive and transitive, and symmetric exactly between stacks with the same layers."
  },
  {
   "property": "C123",
   "status": "proved",
   "theorems": [
    "C123_exchange"
   ],
   "note": ""
  },
  {
   "property": "C124",
   "status": "proved",
   "theorems": [
    "C124_access",
    "C124_apart"
   ],
   "note": ""
  },
  {
   "property": "C125",
   "status": "proved",
   "theorems": [
    "C125_checked",
    "C125_accessors"
   ],
   "note": ""
  },
  {
   "property": "C126",
   "status": "partial",
   "theorems": [
    "C126_refuted",
    "C126_vector_partial",
    "C126_jagged_partial"
   ],
   "note": "REFUTED: get_data casts the size to unsigned int, so that the view of 2^32 + 1 elements has size 1. Proved for fewer than 2^32 elements."
  },
  {
   "property": "C127",
   "status": "proved",
   "theorems": [
    "C127_owned",
    "C127_empty",
    "C127_fails"
   ],
   "note": ""
  },
  {
   "property": "C128",
   "status": "proved",
   "theorems": [
    "C128_views",
    "C128_size",
    "C128_jagged"
   ],
   "note": ""
  },
  {
   "property": "C129",
   "status": "proved",
   "theorems": [
    "C129_kernel",
    "C129_bounded"
   ],
   "note": ""
  },
  {
   "property": "C130",
   "status": "proved",
   "theorems": [
    "C130_pipeline"
   ],
   "note": ""
  },
  {
   "property": "C131",
   "status": "partial",
   "theorems": [
    "C131_refuted",
    "C131_copy_partial",
    "C131_memset_partial",
    "C131_empty_partial",
    "C131_model_partial"
   ],
   "note": "REFUTED: vecmem::copy passes null pointers of empty vectors on to ::memset and ::memcpy, which the C standard does not allow even for zero bytes (e.g. memset of a jagged vector with an empty inner vector). Everything else is proved; memset for sizes up to 2^63 - 9."
  },
  {
   "property": "C132",
   "status": "proved",
   "theorems": [
    "C132_no_errors",
    "C132_errors"
   ],
   "note": ""
  },
  {
   "property": "C133",
   "status": "partial",
   "theorems": [
    "C133_refuted",
    "C133_once_partial"
   ],
   "note": "REFUTED: the destructor of an event waits again, and an exception from a destructor ends the program; errors of CUDA that persist therefore end it although the exception was caught. Proved: a single error can be handled, if wait or ignore is called."
  },
  {
   "property": "C134",
   "status": "proved",
   "theorems": [
    "C134_kernel",
    "C134_bounded"
   ],
   "note": ""
  },
  {
   "property": "C135",
   "status": "proved",
   "theorems": [
    "C135_pipeline"
   ],
   "note": ""
  },
  {
   "property": "C136",
   "status": "proved",
   "theorems": [
    "C136_kernel",
    "C136_bounded"
   ],
   "note": ""
  },
  {
   "property": "C137",
   "status": "proved",
   "theorems": [
    "C137_pipeline"
   ],
   "note": ""
  },
  {
   "property": "C138",
   "status": "proved",
   "theorems": [
    "C138_vector",
    "C138_jagged"
   ],
   "note": ""
  },
  {
   "property": "C139",
   "status": "partial",
   "theorems": [
    "C139_refuted",
    "C139_only_at_partial"
   ],
   "note": "REFUTED: edm::device::size reads the counter with *m_size, without an atomic operation, and at calls it in its assertion; another thread may increase the counter at the same time. Proved: no other accesses conflict, so a build with NDEBUG that does not call size() while elements are appended is free of races."
  },
  {
   "property": "C140",
   "status": "proved",
   "theorems": [
    "C140_stack",
    "C140_defined",
    "C140_progress",
    "C140_released"
   ],
   "note": ""
  },
  {
   "property": "C141",
   "status": "proved",
   "theorems": [
    "C141_shared",
    "C141_exclusive",
    "C141_released"
   ],
   "note": ""
  },
  {
   "property": "C142",
   "status": "partial",
   "theorems": [
    "C142_access",
    "C142_memory",
    "C142_length",
    "C142_refuted"
   ],
   "note": "REFUTED: for containers whose variables are all scalars, get_data default-initialises its result and never sets the capacity and size (host.ipp lines 211-226; view() = default leaves m_capacity and m_size indeterminate, view.hpp lines 70 and 168-189), so that making an edm::device from it uses indeterminate values (C142_refuted, for all such containers). Everything else of the statement is proved, for all containers with at least one vector variable (C142_access, C142_memory, C142_length)."
  },
  {
   "property": "C143",
   "status": "proved",
   "theorems": [
    "C143_graph",
    "C143_defined",
    "C143_progress",
    "C143_released"
   ],
   "note": ""
  },
  {
   "property": "C144",
   "status": "proved",
   "theorems": [
    "C144_construct",
    "C144_arity",
    "C144_tie",
    "C144_make_tuple",
    "C144_copy",
    "C144_concat"
   ],
   "note": ""
  },
  {
   "property": "C145",
   "status": "partial",
   "theorems": [
    "C145_refuted",
    "C145_access_partial",
    "C145_ill_formed",
    "C145_variable"
   ],
   "note": "REFUTED: in a device container with a jagged vector of non-const elements, at() const and operator[]() const do not compile, because the constant proxy wants a jagged_device_vector<const T> and gets a jagged_device_vector<T>, between which there is no conversion; for the same reason the const get() of a non-const proxy does not compile for this variable (C145_refuted, C145_ill_formed). C145_access_partial: all other accesses compile and give access to the right data with the right constness."
  },
  {
   "property": "C146",
   "status": "proved",
   "theorems": [
    "C146_use",
    "C146_blocks",
    "C146_defined",
    "C146_released",
    "C146_history"
   ],
   "note": ""
  },
  {
   "property": "C147",
   "status": "partial",
   "theorems": [
    "C147_refuted",
    "C147_same_partial",
    "C147_alone_partial",
    "C147_upstream_partial"
   ],
   "note": "REFUTED: every object has a mutex of its own, while copies and moved-from objects share the upstream resource: a thread can be inside a call of the upstream resource through one object when another thread begins a call of it through a copy. Proved: calls through the same object exclude each other, and so do all calls of an upstream resource that only one object uses."
  },
  {
   "property": "C148",
   "status": "partial",
   "theorems": [
    "C148_refuted",
    "C148_release_partial",
    "C148_acquire_partial",
    "C148_seq_cst_partial",
    "C148_message_partial",
    "C148_failure_order",
    "C148_effect",
    "C148_unordered"
   ],
   "note": "REFUTED: cuda::device_atomic_ref ignores the order of exchange, compare_exchange_strong and fetch_* (they call atomicExch etc., which order nothing, without a fence), and sycl::custom_device_atomic_ref ignores all orders, so that a thread can see a flag changed with a sequentially consistent operation and yet the old data (C148_refuted). The partial theorems prove the property for all functions of posix_device_atomic_ref and for store and load of cuda::device_atomic_ref, which have fences. The machine performs every access at one moment for all threads."
  },
  {
   "property": "C149",
   "status": "partial",
   "theorems": [
    "C149_refuted",
    "C149_copy",
    "C149_assign",
    "C149_resource_partial",
    "C149_inner",
    "C149_values"
   ],
   "note": "REFUTED: the implicit copy constructor copies m_resource, but the copied vectors use the default memory resource (std::pmr::polymorphic_allocator is not propagated by copies); the implicit assignments rebind m_resource, but the vectors keep their resource (C149_refuted; C149_copy and C149_assign in general). A copy of a container in managed or pinned memory is thus not in such memory, and resource() can refer to a resource that the container does not keep alive or use. C149_resource_partial proves the property for programs that copy only from the default resource and assign only between containers with the same resource. C149_inner (inner vectors agree with the outer ones in all programs) and C149_values (the values are right) have no such restriction."
  },
  {
   "property": "C150",
   "status": "partial",
   "theorems": [
    "C150_refuted",
    "C150_scalar_partial",
    "C150_new_partial"
   ],
   "note": "REFUTED: scalars are vectors of one element, which are empty after a move and are not filled again by resize, so that get is undefined; and host_alloc uses braces, with which the initializer_list constructor is chosen for element types that a pointer to a memory resource converts to (void pointers, std::any): the new vector has the address of the resource as its element and uses the default resource (C150_refuted). The partial theorems prove the property without moves and for other element types."
  },
  {
   "property": "C151",
   "status": "partial",
   "theorems": [
    "C151_refuted",
    "C151_const_partial"
   ],
   "note": "REFUTED: the conversion of jagged_vector_view<T> to jagged_vector_view<const T> lets both refer to the same array of inner views, through reinterpret_cast (jagged_vector_view.ipp lines 27-35), as the conversion of T** to const T** would, which C++ forbids; through the second a view of const elements can be stored (ptr() is not const), and be taken out through the first as a view of non-const elements. Proved for all programs that do not store through jagged_vector_view<const T>."
  },
  {
   "property": "C152",
   "status": "partial",
   "theorems": [
    "C152_refuted",
    "C152_exact_partial",
    "C152_single",
    "C152_compiles",
    "C152_compose",
    "C152_add_const"
   ],
   "note": "REFUTED: the views of scalars are pointers, and std::is_constructible holds also for pointers to a derived and to a base class, so that a view of a container with a scalar of a derived class converts to one with the base class, while its payload still has the layout of the derived class. Proved exactly for schemas whose scalars are not related in this way; the other parts are proved in full."
  },
  {
   "property": "C153",
   "status": "proved",
   "theorems": [
    "C153_exclusion",
    "C153_sequential",
    "C153_deadlock_free",
    "C153_complete"
   ],
   "note": ""
  },
  {
   "property": "C154",
   "status": "proved",
   "theorems": [
    "C154_programs",
    "C154_graph",
    "C154_independent",
    "C154_determined",
    "C154_defined"
   ],
   "note": ""
  },
  {
   "property": "C155",
   "status": "proved",
   "theorems": [
    "C155_programs",
    "C155_graph",
    "C155_appends",
    "C155_defined"
   ],
   "note": ""
  },
  {
   "property": "C156",
   "status": "proved",
   "theorems": [
    "C156_races",
    "C156_defined"
   ],
   "note": ""
  },
  {
   "property": "C157",
   "status": "proved",
   "theorems": [
    "C157_programs",
    "C157_graph",
    "C157_schedules",
    "C157_map"
   ],
   "note": ""
  },
  {
   "property": "C158",
   "status": "proved",
   "theorems": [
    "C158_races",
    "C158_defined"
   ],
   "note": ""
  },
  {
   "property": "C159",
   "status": "proved",
   "theorems": [
    "C159_programs",
    "C159_graph",
    "C159_sums"
   ],
   "note": ""
  },
  {
   "property": "C160",
   "status": "proved",
   "theorems": [
    "C160_races",
    "C160_defined"
   ],
   "note": ""
  },
  {
   "property": "C161",
   "status": "proved",
   "theorems": [
    "C161_programs",
    "C161_calls",
    "C161_busy",
    "C161_graph"
   ],
   "note": ""
  },
  {
   "property": "C162",
   "status": "partial",
   "theorems": [
    "C162_last_event_refuted",
    "C162_last_event_partial"
   ],
   "note": "REFUTED: a call that has nothing to do (setup of a buffer that is not resizable or has no capacity, memset of a buffer without capacity, copy of an empty buffer) returns the event of vecmem::copy, whose wait does nothing; operations of earlier calls may still be pending. It is proved for calls that have started something."
  },
  {
   "property": "C163",
   "status": "proved",
   "theorems": [
    "C163_programs",
    "C163_calls",
    "C163_apart",
    "C163_graph"
   ],
   "note": ""
  },
  {
   "property": "C164",
   "status": "partial",
   "theorems": [
    "C164_streams_refuted",
    "C164_streams_partial"
   ],
   "note": "REFUTED: a buffer is filled on one stream and copied on another; the copy may be performed first and copies garbage, although the host waits for the copy before it reads the target. It is proved for programs in which all copy objects have the same stream."
  }
 ]
}