{
 "claims": [
  {
   "property": "C01",
   "status": "partial",
   "theorems": [
    "C01_no_failure",
    "C01_held_live",
    "C01_live_reachable",
    "C01_exact_counts",
    "C01_no_leak",
    "C01_side_effect_overflow_refuted"
   ],
   "note": "For every history of modelled operations (nodes, literals, memory regions, read/write pointers, inc/dec, evaluation, copy, read, write, shrink, resize, scopes) of a client that passes only references it owns: no abort, held => live with all operands, live => reachable from a held reference, counts exact, nothing left when everything is dropped. Bound: fewer than ~2^30 variables and fewer than 65535 pending write pointers per variable; refuted beyond the latter (16-bit counter wraps). Callbacks/labels and the call-reduction cache are not modelled."
  },
  {
   "property": "C02",
   "status": "proved",
   "theorems": [
    "C02_weak_reference"
   ],
   "note": "For all histories in which the slot is recycled fewer than 2^32 times."
  },
  {
   "property": "C03",
   "status": "partial",
   "theorems": [
    "C03_merge_sound",
    "C03_no_duplicates",
    "C03_stale_entry_refuted"
   ],
   "note": "Soundness and completeness of merging for all histories without jit_array_write. The latter edits an operand of a registered node and leaves a stale table entry (refuted)."
  },
  {
   "property": "C04",
   "status": "proved",
   "theorems": [
    "C04_free_slots_refine_min_set",
    "C04_double_release_out_of_bounds_refuted"
   ],
   "note": "Bitmap allocator refines take-the-minimum set for all histories in which indices are not released twice; the double-release theorem shows that this client obligation is needed."
  },
  {
   "property": "C05",
   "status": "partial",
   "theorems": [
    "C05_write_partial",
    "C05_read",
    "C05_shrink",
    "C05_write_view_refuted",
    "C05_shrink_undefined_refuted"
   ],
   "note": "Proved for writes to a variable that owns its memory (or literals, undefined variables); refuted for writes through a jit_var_shrink view, and for shrinking an uninitialised variable (dangling pointer)."
  },
  {
   "property": "C06",
   "status": "proved",
   "theorems": [
    "C06_literal_reads_back"
   ],
   "note": "All types, payloads, and intervening histories that do not evaluate or resize the literal."
  },
  {
   "property": "C07",
   "status": "partial",
   "theorems": [
    "C07_new_scope",
    "C07_advance_refuted",
    "C07_saved_scope_refuted"
   ],
   "note": "Proved for jit_new_scope incl. compaction, all states. Refuted for jit_advance_scope (saturates, returns the same scope twice) and for scopes saved by the caller across a compaction."
  },
  {
   "property": "C08",
   "status": "partial",
   "theorems": [
    "C08_literal_division",
    "C08_binary_partial",
    "C08_unary_partial",
    "C08_bitwise",
    "C08_not_bool",
    "C08_mask",
    "C08_fma_partial",
    "C08_mul_wide",
    "C08_cast",
    "C08_copysign_partial",
    "C08_copysign_refuted"
   ],
   "note": "All stores, flags, handles, sizes (incl. broadcasting and in-place resizing), and values for the integer types: the result node evaluates to the two's complement result under every simplification rule. Exceptions are literals whose folding is undefined in C++ (C11), and copysign of two integer literals, which aborts (refuted). Division of literals is total (C08_literal_division). Floating point arithmetic is in C59; the LLVM instructions emitted are modelled by their documented semantics."
  },
  {
   "property": "C09",
   "status": "partial",
   "theorems": [
    "C09_compare_partial",
    "C09_neq_self_refuted",
    "C09_neq_nan_refuted"
   ],
   "note": "eq/lt/le/gt/ge for all types incl. IEEE ordering with NaN and signed zeros, neq for non-float types. Refuted for float neq: x != x folds to false, and the generated fcmp one is false on NaN lanes whereas literals give true."
  },
  {
   "property": "C10",
   "status": "partial",
   "theorems": [
    "C10_bits",
    "C10_mul_hi_partial",
    "C10_mul_hi_refuted"
   ],
   "note": "popc/clz/ctz/brev proved for all types and values, literal or not. mul_hi proved except 8/16-bit literals, which abort (refuted)."
  },
  {
   "property": "C11",
   "status": "partial",
   "theorems": [
    "C11_binary_iff",
    "C11_unary_iff",
    "C11_folding_refuted"
   ],
   "note": "Exact characterisation for all integer types and literals: undefined behaviour iff the exact result leaves the C++ computation type or the shift is too wide. The property itself is refuted (INT_MAX + 1; uint16 65535*65535). Float folding not covered."
  },
  {
   "property": "C12",
   "status": "partial",
   "theorems": [
    "C12_shape",
    "C12_active",
    "C12_inactive_partial",
    "C12_padding_partial",
    "C12_no_fault",
    "C12_division_refuted",
    "C12_packet_refuted",
    "C12_increment_refuted"
   ],
   "note": "Proved for every expression graph without atomic increments: active in-range lanes give the source entry. Zero in inactive lanes is proved for total operations without packet gathers; otherwise false (C12_division_refuted, C12_packet_refuted: the re-indexed expression runs in inactive lanes; C12_increment_refuted: atomic increments are repeated)."
  },
  {
   "property": "C13",
   "status": "partial",
   "theorems": [
    "C13_code",
    "C13_unmasked_refuted",
    "C13_threads",
    "C13_one_winner",
    "C13_sizes_partial",
    "C13_cas_sizes_partial",
    "C13_exch_shortcut_refuted",
    "C13_cas_shortcut_refuted",
    "C13_empty_refuted"
   ],
   "note": "Generated loop: one atomic operation per active lane in lane order, masked lanes give zero; over all threads and interleavings no value is lost or duplicated, and of competing compare-and-swaps exactly one succeeds. Sizes of the results proved when no shortcut applies. False otherwise: exchanges return the target (wrong size) and compare-and-swaps leave their outputs unset in the shortcuts; the code for the literal mask 1 is invalid; empty operands are dereferenced. Copy-on-write of the target and hazard tracking are not part of this model."
  },
  {
   "property": "C14",
   "status": "proved",
   "theorems": [
    "C14_gather",
    "C14_depth",
    "C14_gather_code",
    "C14_scatter_code",
    "C14_scatter_skip",
    "C14_scatter_aligned",
    "C14_scatter_unaligned_refuted"
   ],
   "note": "Gathers: every packet size, vector width and way of splitting equals single gathers, and the generated code (loads followed by shuffles) puts element c of the packet of lane k into lane k of result c. Scatters: the generated code (transposition and one store per lane) gives every entry the contributions of the active lanes in order, the same as one scatter per component, for even sizes, widths 2^e, replacing and adding; skipped operations are no-ops; stores to aligned arrays are aligned. Refuted: nothing checks the alignment of the target, so a packet scatter to mapped memory declares a wrong alignment. Index arithmetic of the scatter (multiplication mod 2^32) is that of the gather. Expanded targets are not part of this claim."
  },
  {
   "property": "C15",
   "status": "partial",
   "theorems": [
    "C15_select"
   ],
   "note": "jit_var_select proved for all types, sizes and shortcut rules. Conditional statements (cond.cpp) are the subject of C63."
  },
  {
   "property": "C16",
   "status": "partial",
   "theorems": [
    "C16_launch_exactly_once_partial",
    "C16_launch_exactly_once_refuted",
    "C16_launch_block_count_refuted"
   ],
   "note": "Exactly-once proved for all sizes with size+block_size <= 2^32 (and the analogous packet bound), all orders of work units; refuted for sizes next to 2^32 (32-bit wrap gives zero blocks). The thread pool is an oracle that runs each unit once."
  },
  {
   "property": "C17",
   "status": "partial",
   "theorems": [
    "C17_block_reduce_partial",
    "C17_block_reduce_int_partial",
    "C17_block_reduce_invalid",
    "C17_large_refuted"
   ],
   "note": "LLVM backend, every interleaving of the work units, every worker count and block size setting >= 16; all element types up to bracketing, integers exactly. Limit: size + block_size - 1 < 2^32 (refuted beyond: block count wraps). Absence of data races and out-of-bounds accesses is part of the statement."
  },
  {
   "property": "C18",
   "status": "partial",
   "theorems": [
    "C18_prefix_reduce_partial",
    "C18_prefix_reduce_int_partial",
    "C18_copy_wraps_refuted",
    "C18_api_swapped_refuted",
    "C18_api_whole"
   ],
   "note": "Like C17, forward/reverse, inclusive/exclusive, in place or not. Limits: size + block_size - 1 < 2^32; for block size 1 the byte count must be below 2^32 (refuted beyond). The public entry point jit_block_prefix_reduce swaps its two size arguments (api.cpp:1331): C18_api_swapped_refuted shows that calls with 0 < block_size < size raise."
  },
  {
   "property": "C19",
   "status": "partial",
   "theorems": [
    "C19_reduce_partial",
    "C19_empty",
    "C19_block_reduce_partial",
    "C19_prefix_sum_partial",
    "C19_prefix_minmax_partial",
    "C19_product_refuted",
    "C19_sum_refuted",
    "C19_reverse_refuted",
    "C19_exclusive_min_refuted",
    "C19_block_count_refuted"
   ],
   "note": "Integer literals: jit_var_reduce, jit_var_block_reduce and prefix sums/minima/maxima give the reduction of the lanes. Conditions: the closed form does not overflow (signed sums, products), no wrap of the block count, reverse sums with full blocks only. Each condition has a refutation. Floating point literals and the evaluated path are not covered here (C17/C18 cover the kernels)."
  },
  {
   "property": "C20",
   "status": "partial",
   "theorems": [
    "C20_compress_partial",
    "C20_active_spec",
    "C20_large_refuted"
   ],
   "note": "LLVM backend, every mask, worker count, block size setting and interleaving, including absence of races and out-of-bounds accesses. Limit: size + block size setting - 1 < 2^32 (refuted beyond: the block count wraps to zero and the result is empty)."
  },
  {
   "property": "C21",
   "status": "partial",
   "theorems": [
    "C21_mkperm_partial",
    "C21_bucket_sorted_spec",
    "C21_partial_group_refuted"
   ],
   "note": "LLVM backend, every interleaving; permutation and offset table equal the bucket sort reference when every group has full size or a single task per group. Refuted otherwise: with a short last group a task starts behind the end and reads out of bounds. Per-task malloc/free are hoisted out of the tasks."
  },
  {
   "property": "C22",
   "status": "partial",
   "theorems": [
    "C22_entries_partial",
    "C22_size",
    "C22_both_transposed",
    "C22_near_limit_refuted",
    "C22_grid_wraps_refuted",
    "C22_empty_reduction_refuted",
    "C22_empty_grid_refuted"
   ],
   "note": "Proved for every shape, batch layout, tile size, worker count and task order as long as 32 bit sizes do not wrap and no extent is 0. Refuted near the limits: 2^32-1 columns divide by zero, a wrapped grid count gives too small an array, empty reductions leave C unwritten, an empty grid gives a non-empty variable. Two transposed operands raise on the CPU. GPU backends and the vector code itself are not modelled."
  },
  {
   "property": "C23",
   "status": "partial",
   "theorems": [
    "C23_unwritten",
    "C23_refuted",
    "C23_backend"
   ],
   "note": "False: jitc_batched_gemm returns early and leaves C unwritten (C23_unwritten, C23_refuted); the CPU backend alone would write zeros (C23_backend)."
  },
  {
   "property": "C24",
   "status": "partial",
   "theorems": [
    "C24_reduce_expanded",
    "C24_expand_accumulate_reduce",
    "C24_pool_change_refuted"
   ],
   "note": "LLVM backend: every interleaving, worker count, partition; the whole cycle expand / accumulate from any worker / reduce for commutative monoids. Limits: expanded size below 2^32 (enforced by jitc_var_expand). Refuted when the number of workers changes between expansion and reduction. Code generation of the scatter itself is not modelled."
  },
  {
   "property": "C25",
   "status": "proved",
   "theorems": [
    "C25_divisor_exact"
   ],
   "note": "Exact for all 32-bit numerators and nonzero divisors, with all wraps modelled."
  },
  {
   "property": "C26",
   "status": "proved",
   "theorems": [
    "C26_schedule_sort"
   ],
   "note": "All schedules below 2^32 entries, any correct std::sort/std::stable_sort (contracts shown satisfiable), any scratch contents."
  },
  {
   "property": "C27",
   "status": "proved",
   "theorems": [
    "C27_partition"
   ],
   "note": "All nonempty sorted schedules below 2^32 entries."
  },
  {
   "property": "C28",
   "status": "partial",
   "theorems": [
    "C28_collect",
    "C28_kernels",
    "C28_levels_refuted",
    "C28_other_operands_refuted",
    "C28_call_inputs_refuted"
   ],
   "note": "Model: jitc_var_traverse, the roots/visit_later loops, generations and grouping by size in jitc_eval_impl, composed with the C26 ordering and C27 partition; all node graphs that are closed and acyclic (apart from loop feedback), all task lists. Traversal always ends; raises only for a needed consumed/optimized-away variable; entries are exactly the needed live variables, once each, operands first. \"All needed\" assumes that only operand-free variables occur at several call depths (C28_levels_refuted shows the loss otherwise). Order after sorting by scope holds for operands of no larger scope, hence for all of Variable::dep whenever the check of jitc_assemble passes; other operands are not checked (C28_other_operands_refuted) and inputs of optimized calls need a scope boundary by the caller (C28_call_inputs_refuted). The answer of jitc_elide_scatter is an input of the model; jitc_assemble is represented by its scope check only."
  },
  {
   "property": "C29",
   "status": "partial",
   "theorems": [
    "C29_layout",
    "C29_packet_loads",
    "C29_buffer",
    "C29_readback",
    "C29_getters"
   ],
   "note": "layout, LLVM packet loads, offset table, getters and read back of every captured value, for every order of the aggregate writes; assumes the buffer stays below 4 GiB and that a call node is assembled once per kernel; vector loads of the CUDA and Metal backends and the traversal that collects the captured variables are not modelled"
  },
  {
   "property": "C30",
   "status": "partial",
   "theorems": [
    "C30_client_history",
    "C30_system_contract",
    "C30_backed",
    "C30_usage",
    "C30_reuse_matches",
    "C30_refused_mmap_refuted"
   ],
   "note": "For all interleavings of lock-protected sections and system calls the history is accepted by a client specification (disjoint blocks, unknown releases raise), no double/mismatched release to the system, usage = sum of live sizes. Hypotheses: requests of at most 2^51 bytes, and the system does not refuse host blocks of 2 MiB or more; without the latter refuted (MAP_FAILED is handed out twice)."
  },
  {
   "property": "C31",
   "status": "proved",
   "theorems": [
    "C31_round_trip",
    "C31_injective",
    "C31_large_refuted"
   ],
   "note": "For all sizes below 2^53; larger sizes are truncated (witness)."
  },
  {
   "property": "C32",
   "status": "partial",
   "theorems": [
    "C32_commit_partial",
    "C32_no_exception_refuted",
    "C32_huge_refuted",
    "C32_statistics_refuted"
   ],
   "note": "Refuted three ways (refused mmap returns MAP_FAILED as success; sizes above 2^63 served by 0 bytes; failed requests stay in the allocated statistics); partial theorem for the remaining cases."
  },
  {
   "property": "C33",
   "status": "proved",
   "theorems": [
    "C33_registry_refines_spec",
    "C33_get_pointers_in_bounds"
   ],
   "note": "Refinement to a set of registrations for every history shorter than 2^32-1 of non-null registrations without shutdown; no out-of-bounds access. Strings are abstracted to numbers."
  },
  {
   "property": "C34",
   "status": "partial",
   "theorems": [
    "C34_reregister_refuted",
    "C34_remove_out_of_bounds_refuted",
    "C34_clean_shutdown_partial"
   ],
   "note": "Refuted: rev_map survives shutdown (re-registration raises; removal indexes a destroyed vector). Holds when all pointers were removed before."
  },
  {
   "property": "C35",
   "status": "proved",
   "theorems": [
    "C35_numeral_denotes",
    "C35_numeral_no_leading_zero",
    "C35_padded_denotes",
    "C35_w_u32",
    "C35_w_u64",
    "C35_w_x64",
    "C35_w_q64"
   ],
   "note": "All 32/64-bit values; decimal, hexadecimal and zero-padded writers, with bounds on the bytes touched and an independent numeral specification."
  },
  {
   "property": "C36",
   "status": "proved",
   "theorems": [
    "C36_fmt_llvm",
    "C36_fmt_cuda",
    "C36_fmt_metal"
   ],
   "note": "All three formatters (fmt_llvm, fmt_cuda, fmt_metal): text equals the expansion of the format, stays inside the storage, aborts exactly on bad formats; sizes below 2^62; float-to-double conversion is a parameter. fmt()/vfmt() (vsnprintf) not modelled."
  },
  {
   "property": "C37",
   "status": "proved",
   "theorems": [
    "C37_run"
   ],
   "note": "All strings and lengths."
  },
  {
   "property": "C38",
   "status": "proved",
   "theorems": [
    "C38_move_suffix"
   ],
   "note": "All positions with target <= start <= size (the memcpy would overlap otherwise)."
  },
  {
   "property": "C39",
   "status": "partial",
   "theorems": [
    "C39_contents",
    "C39_terminated_partial",
    "C39_terminated_refuted"
   ],
   "note": "Contents refinement proved for all histories; termination proved for histories ending in put/fmt/clear/rewind/move_suffix, refuted for put_u32 (and kin)."
  },
  {
   "property": "C40",
   "status": "partial",
   "theorems": [
    "C40_string_partial",
    "C40_string_memory",
    "C40_self_assign_empties",
    "C40_self_assign_refuted",
    "C40_pointer_append",
    "C40_pointer_append_refuted",
    "C40_vector_partial",
    "C40_push_own",
    "C40_push_own_refuted",
    "C40_number_partial",
    "C40_number_refuted"
   ],
   "note": "Whole programs over any number of strings (put/operator+= with several arguments, assign, move, swap, clear, reserve, resize, indent, the three operator+) and vectors (push_back, pop_back, clear, reserve, resize, copy and move assignment, swap, element assignment) on a heap with explicit frees: contents, size, c_str text, operator== and ownership of blocks are those of sequences, including s += s. Excluded and refuted: s = s empties the string (shown for every reachable state), push_back(v[i]) at full capacity and put of a pointer into the growing string read freed memory (shown for every reachable state). Integer formatting proved for all widths except the overflowing negation of INT_MIN and LONG_MIN. Not modelled: wrap-around of sizes, constructors of element types, float and pointer formatting, the aliasing of overlapping pointers in assign(const char*)."
  },
  {
   "property": "C41",
   "status": "proved",
   "theorems": [
    "C41_round_trip",
    "C41_accepts_only",
    "C41_altered",
    "C41_total_refuted"
   ],
   "note": "For every checksum with 16 byte results and every lossless compression (XXH3 and LZ4 are parameters). Altered files are rejected up to an exhibited checksum collision. C41_total_refuted: a file with a correct checksum is trusted, an offset in it may point outside of the code. LLVM back end only."
  },
  {
   "property": "C42",
   "status": "partial",
   "theorems": [
    "C42_atomic",
    "C42_stable",
    "C42_publishes",
    "C42_same_pid_refuted"
   ],
   "note": "Every interleaving of writers (in any number, dying at any point, with failing operations), and removals. Missing: power failures (the code does not sync), and writers with the same process number in containers or on machines that share the directory (C42_same_pid_refuted)."
  },
  {
   "property": "C43",
   "status": "proved",
   "theorems": [
    "C43_only_entries",
    "C43_untouched",
    "C43_oldest",
    "C43_budget",
    "C43_minimal",
    "C43_entries"
   ],
   "note": "For every directory content, sorting function and set of failing removals; total size below 2^64 bytes."
  },
  {
   "property": "C44",
   "status": "partial",
   "theorems": [
    "C44_accepts",
    "C44_sound_partial",
    "C44_strict_refuted"
   ],
   "note": "Accepted sizes are proved right (saturating). Strictness holds except for leading white space and +, which strtoull skips (C44_strict_refuted: \" -5\" is taken as 2^64-5)."
  },
  {
   "property": "C45",
   "status": "proved",
   "theorems": [
    "C45_mutual_exclusion",
    "C45_no_race",
    "C45_nesting",
    "C45_free",
    "C45_progress"
   ],
   "note": "spin lock variant under sequentially consistent interleaving of its atomic steps, any number of threads; unlock_guard and recursion included; the std::mutex variant (DRJIT_USE_STD_MUTEX) is not modelled"
  },
  {
   "property": "C46",
   "status": "partial",
   "theorems": [
    "C46_once",
    "C46_outside",
    "C46_complete",
    "C46_order_partial",
    "C46_order_nested_refuted",
    "C46_order_threads_refuted",
    "C46_deferred_refuted"
   ],
   "note": "once, outside the lock and complete delivery proved; order proved when batches do not overlap and refuted otherwise (messages logged from a callback or by another thread overtake a batch that is being delivered); a flush that the client defers is not made up for at the next release"
  },
  {
   "property": "C47",
   "status": "partial",
   "theorems": [
    "C47_text_partial",
    "C47_refuted"
   ],
   "note": "Proved for every size in [1, 2^64): the text reads back as the size rounded to four digits (within 0.05 %) exactly when the rounded value is not a multiple of 10, and otherwise as at most a tenth of it (C47_text_partial). The property as stated is refuted: 10 B is shown as \"1 B\", 20 KiB as \"2 KiB\", 1000 TiB as \"1 TiB\" because stripping of trailing zeros does not stop at the decimal point (C47_refuted). jitc_time_string uses the same printing routine and is not modelled."
  },
  {
   "property": "C48",
   "status": "proved",
   "theorems": [
    "C48_float_to_half",
    "C48_special",
    "C48_half_to_float",
    "C48_round_trip"
   ],
   "note": "Bit-level model of the two fallback conversions (half.h:130-178); single precision products by powers of two modelled with round-to-nearest-even and subnormals. Hardware conversions (F16C, aarch64) not modelled."
  },
  {
   "property": "C49",
   "status": "partial",
   "theorems": [
    "C49_write",
    "C49_read_partial",
    "C49_kernel_partial",
    "C49_init_refuted",
    "C49_eval_refuted",
    "C49_masked_read_refuted"
   ],
   "note": "Reads and writes are shown to be the pure operations on values; the kernel with elided copies stores those values for every program, schedule, output set, stale states and buffer contents, if an initialized array is not used after a write to it (or is an output) and no array is evaluated once writes were derived from it. Both conditions are needed: refuted with programs where one write is seen through another. A masked read from an initialized array drops the mask: refuted. Not modelled: loops, conditionals (LoopPhi, ArrayPhi, ArraySelect), sizes, types; one SIMD lane."
  },
  {
   "property": "C50",
   "status": "partial",
   "theorems": [
    "C50_vector",
    "C50_vector_ends",
    "C50_thread",
    "C50_needed",
    "C50_needed_ends",
    "C50_new_sizes",
    "C50_initial_sizes",
    "C50_accepts",
    "C50_abort_refuted"
   ],
   "note": "Proved: for every recorder that is faithful (what it records computes the same function of whatever variables it is given), with and without the optimization: the vector loop of the LLVM backend leaves in every lane the result of running the loop in that lane alone, including eliminated state (C50_vector), it ends when every lane ends (C50_vector_ends), CUDA/Metal threads agree iteration by iteration, composed with the generated parallel copy (C50_thread); leaving out state that no output needs does not change outputs (C50_needed, C50_needed_ends); new values fit the loop size (C50_new_sizes). Refuted: C50_abort_refuted (a state variable whose initial size fits nothing is recorded without an error, evaluation aborts the process at eval.cpp:422). Missing: arrays and dirty variables in the state, side effects in the body, types (equal literals of different types are treated as equal). C50_accepts and C50_initial_sizes characterize which loops are accepted and with which sizes."
  },
  {
   "property": "C51",
   "status": "partial",
   "theorems": [
    "C51_launch_config_covers_partial",
    "C51_launch_config_covers_refuted"
   ],
   "note": "Coverage and limits for sizes up to 2^32-32 and max_threads a multiple of 32; refuted for the remaining 31 sizes."
  },
  {
   "property": "C52",
   "status": "partial",
   "theorems": [
    "C52_same",
    "C52_ratio_partial",
    "C52_inexact_refuted",
    "C52_zero_refuted",
    "C52_overflow_refuted",
    "C52_scalar_refuted"
   ],
   "note": "Functions of any number of kernels replayed with the recorded sizes: proved. Other sizes: the ratio to the driving input is kept when the product fits 32 bits and the quotient is not zero. False otherwise: quotients are rounded instead of refused, and a zero quotient or an overflow launches the recorded size (C52_inexact/zero/overflow_refuted); a scalar input read directly hides the array that determines the size (C52_scalar_refuted). Only kernel launches are modelled, not the other recorded operations."
  },
  {
   "property": "C53",
   "status": "partial",
   "theorems": [
    "C53_failure",
    "C53_success_partial",
    "C53_upload_refuted",
    "C53_late_elision_refuted"
   ],
   "note": "Reference and buffer bookkeeping of jitc_eval, for every point of failure (including nested calls) and every graph. Proved: after a failure all references taken by the evaluation are released, output buffers freed, callbacks forgotten; queued side effects are dropped, not re-queued. After success all references balance provided the visited variables contain exactly the kept side effects. Refuted: temporary memory leaks when the upload of call data fails; a side effect elided during the traversal keeps its reference. Not covered: the `consumed` flags and ts->scheduled, which a failed evaluation does not restore; callbacks that raise."
  },
  {
   "property": "C54",
   "status": "partial",
   "theorems": [
    "C54_round_pow2",
    "C54_round_pow2_refuted",
    "C54_ceil_div_partial",
    "C54_ceil_div_wraps_refuted",
    "C54_align_up_partial",
    "C54_align_up_wraps_refuted",
    "C54_log2i_ceil"
   ],
   "note": "Exact characterisation of ceil_div/align_up/log2i_ceil on all 32-bit inputs; ceil_div and align_up wrap to 0 when the sum exceeds 32 bits (refuted there)."
  },
  {
   "property": "C55",
   "status": "partial",
   "theorems": [
    "C55_watermark_partial",
    "C55_move_refuted"
   ],
   "note": "Holds without host/LLVM moves; refuted by a move, which updates allocated but not watermark."
  },
  {
   "property": "C56",
   "status": "partial",
   "theorems": [
    "C56_sizes",
    "C56_empty_partial",
    "C56_empty_refuted"
   ],
   "note": "Size check proved for 21 two-operand builders; empty operands for 19. Refuted for mod and select on empty handles (null dereference) and mul_wide (raises)."
  },
  {
   "property": "C57",
   "status": "partial",
   "theorems": [
    "C57_product",
    "C57_double_refuted"
   ],
   "note": "Product of halves proved correctly rounded for all finite operands. half(double) rounds twice: C57_double_refuted. Sums, quotients and square roots not modelled."
  },
  {
   "property": "C58",
   "status": "partial",
   "theorems": [
    "C58_hourly_partial",
    "C58_once_refuted"
   ],
   "note": "Holds if processes do not examine the stamp concurrently; false otherwise (C58_once_refuted)."
  },
  {
   "property": "C59",
   "status": "partial",
   "theorems": [
    "C59_ieee",
    "C59_binary",
    "C59_division_partial",
    "C59_reciprocal",
    "C59_fma",
    "C59_zero_sum_refuted",
    "C59_division_refuted"
   ],
   "note": "For every arithmetic that satisfies ten stated laws of neutral operands, and IEEE 754 binary16/32/64 (round to nearest even, Coq.Floats.SpecFloat) is proved to satisfy them. Holds in lanes without NaNs; false for sums of two zeros (C59_zero_sum_refuted) and for the division of an array by a literal, which multiplies by the rounded reciprocal (C59_division_refuted, C59_reciprocal says what is computed). min, max, square roots, and the 16 bit upcast in generated code are not covered."
  },
  {
   "property": "C60",
   "status": "partial",
   "theorems": [
    "C60_reduce_partial",
    "C60_ends",
    "C60_masked_lanes_refuted",
    "C60_width_refuted",
    "C60_nan_refuted",
    "C60_noconflict_refuted"
   ],
   "note": "Proved for integers, all operations but Mul, all three strategies, any number of threads and any interleaving; kernels and threads end. Missing: elements whose address is a multiple of 2^(32+shift) when a lane is masked off (false there, C60_masked_lanes_refuted); floating point (a contribution that is NaN can be dropped, C60_nan_refuted, otherwise not covered); 32-lane vectors (C60_width_refuted). NoConflicts needs threads that access different elements (C60_noconflict_refuted)."
  },
  {
   "property": "C61",
   "status": "proved",
   "theorems": [
    "C61_results",
    "C61_distinct",
    "C61_ends",
    "C61_single",
    "C61_masked"
   ],
   "note": "Kernel reduce_inc_u32 (LLVM), any number of threads and any interleaving of the atomic additions; results of the lanes are a permutation of successive numbers modulo 2^32, distinct up to 2^32 increments. A vector performs one addition per counter. Vectors of 32 lanes would give an invalid zext (i32 to i32) and are not covered. Counters do not lie at address 0."
  },
  {
   "property": "C62",
   "status": "proved",
   "theorems": [
    "C62_simultaneous",
    "C62_declared_once",
    "C62_mixed_refuted"
   ],
   "note": "The generated copies of loop state on CUDA and Metal implement a simultaneous assignment, for all patterns of state variables updated from other state variables; temporaries are written before read and declared once; copies between registers of different widths would read an unwritten register (C62_mixed_refuted: needs the check of types). Arrays in the state are not modelled."
  },
  {
   "property": "C63",
   "status": "partial",
   "theorems": [
    "C63_accepts",
    "C63_llvm_partial",
    "C63_llvm_blocks",
    "C63_thread_partial",
    "C63_thread_branch",
    "C63_shape_partial",
    "C63_effects",
    "C63_effects_all_or_raise",
    "C63_effects_owned",
    "C63_effect_lanes",
    "C63_dirty_refuted",
    "C63_scalar_condition_refuted",
    "C63_type_refuted",
    "C63_literal_size_refuted",
    "C63_leak_refuted",
    "C63_double_release_refuted"
   ],
   "note": "Acceptance is characterized exactly; values per lane on LLVM (block structure, phi and select) and CUDA/Metal (per-thread moves), shapes and side effects proved for every accepted statement with the exceptions that are refuted: a value of the false branch with pending side effects is returned in all lanes; a scalar condition with array branches is accepted but aborts at evaluation; different types are accepted; equal literals can have a smaller size; an uninitialized value leaks earlier results; a side effect of the wrong size leads to a double release. Not modelled: arrays (ArrayPhi), the code of the branches (a black box), scopes (C07, C26, C28). C63_effects_owned: each side effect belongs to one branch."
  },
  {
   "property": "C64",
   "status": "partial",
   "theorems": [
    "C64_functional_partial",
    "C64_numbers_partial",
    "C64_set_then_expand_refuted",
    "C64_direct_then_expand_refuted",
    "C64_set_then_add_refuted",
    "C64_add_then_max_refuted",
    "C64_dirty_operand_refuted",
    "C64_value_is_target_refuted",
    "C64_mask_is_target_refuted"
   ],
   "note": "Whole programs refine the sequential semantics on plain arrays (no lost or repeated scatter, no race, no abort) for every order of the memory operations of an evaluation, if scatters to an array between evaluations are of one kind, operands of a scatter onto thread copies have no pending scatters while the target has, and the target is neither value nor mask. Each condition is needed: refuted by programs where pending scatters are lost or reordered, or where the process aborts. Not modelled: several element types, modes Permute/NoConflicts, conflicting indices of plain scatters, mask stack, loops, calls."
  },
  {
   "property": "C65",
   "status": "partial",
   "theorems": [
    "C65_generates",
    "C65_values",
    "C65_values_nomerge",
    "C65_once",
    "C65_devirtualized",
    "C65_registers",
    "C65_shared_refuted",
    "C65_nomerge_refuted",
    "C65_unknown_id_refuted"
   ],
   "note": "Proved for all nested programs on LLVM and CUDA (C65_values, C65_values_nomerge): generated code, pruned arguments and outputs, merged callables, callable table, layout and upload of captured values, dispatch; each lane runs one callee once (C65_once); literal outputs (C65_devirtualized). Hypotheses: no argument is a variable that the callees also capture (refuted otherwise), the hash separates the callables, liveness as computed by the traversal is consistent; without MergeFunctions no call has a single instance (refuted otherwise: the second of two such calls runs the first callee). CUDA runs some callable for an index that belongs to no instance (refuted). Not modelled: side effects other than as executions of a callee, loops around calls, Metal, OptiX, acceptance checks of jitc_var_call."
  },
  {
   "property": "C66",
   "status": "partial",
   "theorems": [
    "C66_recorded",
    "C66_argument",
    "C66_argument_kept",
    "C66_inputs",
    "C66_accepts",
    "C66_results_partial",
    "C66_stashed_size_refuted",
    "C66_mask_stack_refuted",
    "C66_sizes_refuted",
    "C66_begin_checkpoint_refuted"
   ],
   "note": "Proved for all nested recordings, with exceptions at any point: side effects per instance, restored state, nothing lost or released twice (C66_recorded); acceptance is characterized exactly and gives the size and the captured variables (C66_accepts, C66_inputs, C66_argument); results and code generation if the mask stack is no larger than the call (C66_results_partial). Refuted: the size of a literal argument is overwritten when a nested call visits it; a mask on the stack larger than the call, and arguments of contradicting sizes, are accepted but abort later; the value of jit_record_begin is not a valid first checkpoint. Not modelled: Debug mode, backends, getter calls, what callees compute (C65)."
  },
  {
   "property": "C67",
   "status": "partial",
   "theorems": [
    "C67_replay",
    "C67_placement",
    "C67_rejects",
    "C67_dry_run",
    "C67_type_sizes",
    "C67_large_input_refuted",
    "C67_lost_output_refuted",
    "C67_repeated_output_refuted",
    "C67_shrink_refuted",
    "C67_partial_copy_refuted",
    "C67_constant_in_call_data_refuted",
    "C67_memset_input_refuted"
   ],
   "note": "Proved for every device behaviour: recording and replay of kernels, memset, memcpy, any/all, compress, mkperm, block reductions and prefix sums, dot products, aggregations, opaque width, undefined arrays, barriers, frees, in any number and order; at other sizes when operations scale (C67_replay): results, contents of inputs, ownership of buffers. Recordings do not depend on addresses (C67_placement). Unknown variables are refused (C67_rejects); an accepted dry run means that the operations of the replay succeed (C67_dry_run, recordings without aggregation). Refuted: inputs of 4 GiB or more, outputs not computed inside are dropped, the same output twice is owned twice, shrunk variables, partial copies, constants written by memset in call data, memset on an input. Not modelled: expand/reduce_expanded, gemm, packed half sums, pointer entries of aggregations, pausing, resources; contents of undefined arrays are treated as a fixed value."
  },
  {
   "property": "C68",
   "status": "partial",
   "theorems": [
    "C68_values",
    "C68_checks",
    "C68_pending_index_refuted",
    "C68_short_index_refuted",
    "C68_scalar_stack_mask_refuted"
   ],
   "note": "C68_values: value of every lane on LLVM, CUDA and Metal for index and masks without pending effects and sizes that fit, with or without a mask on the stack, in a buffer shared with any calls and getters; C68_checks: exactly which calls are accepted (empty mask stack). Refuted: a pending scatter to the index is not waited for, an index shorter than the mask is accepted and read out of bounds, a scalar evaluated mask on the mask stack activates LLVM lanes past the end. Not modelled: double precision on Metal, undefined and consumed variables, symbolic recording."
  },
  {
   "property": "C69",
   "status": "partial",
   "theorems": [
    "C69_values_partial",
    "C69_effects_partial",
    "C69_ieee",
    "C69_pack_matrices_partial",
    "C69_layout",
    "C69_stride_refuted",
    "C69_resize_operand_refuted",
    "C69_resize_code_refuted",
    "C69_signed_cast_refuted",
    "C69_same_size_cast_refuted",
    "C69_integer_ops_refuted",
    "C69_integer_fma_refuted",
    "C69_unary_refuted",
    "C69_pack_sizes_refuted",
    "C69_load_bounds_refuted",
    "C69_load_pending_refuted",
    "C69_length_refuted",
    "C69_outer_offset_refuted",
    "C69_pack_offset_refuted"
   ],
   "note": "C69_values_partial: type, size, length and elements of every variable of every program on LLVM and Metal, in kernels and callables, for an abstract element arithmetic with typed laws, which IEEE 754 arithmetic and machine integers satisfy (C69_ieee); C69_effects_partial: accumulations in any order of the atomic additions, for exact addition; C69_pack_matrices_partial, C69_layout: packing and layouts. Refuted, and excluded by conditions: LLVM products ignore the row stride, wide literal zeros/ones resize the other operand in place or give invalid code, signed integer conversions, integer min/max/step/fma, unary operations on LLVM, sizes of packed arrays and offsets are not checked, loads do not wait for pending effects, lengths are cut to 16 bit, byte offsets wrap at 2 and 4 GiB. Not modelled: OptiX, tensor code of Metal 4, merging of equal nodes, effects inside callables, rounding of sums whose order is not defined."
  },
  {
   "property": "C70",
   "status": "partial",
   "theorems": [
    "C70_llvm_launch",
    "C70_gpu_launch",
    "C70_assembles",
    "C70_written",
    "C70_text_shared",
    "C70_cache_own",
    "C70_cache_once",
    "C70_alignment_refuted",
    "C70_padding_refuted"
   ],
   "note": "C70_llvm_launch, C70_gpu_launch: result, absence of undefined behaviour and termination of every launch in every interleaving of blocks of statements, for any meaning of the operations; C70_assembles: when assembly fails; C70_written: the parameters marked as written are the output buffers; C70_text_shared, C70_cache_own, C70_cache_once: kernels shared by different sizes and addresses, one compilation per text if the hash has no collision. Refuted without their conditions: 64-bit vectors at width 16 ask for 128-byte alignment of memory aligned to 64 bytes; operations that are undefined on the padding behind an array (integer division) are executed there. Not modelled: characters of the text, code of single operations (C08-C10, C12-C14, C57, C60-C65 cover some), loops, conditionals, array variables, callables, OptiX, hash function and compilers; statements of one variable are atomic."
  },
  {
   "property": "C71",
   "status": "partial",
   "theorems": [
    "C71_histories",
    "C71_stale_write_refuted",
    "C71_other_domain_refuted",
    "C71_removed_instance_refuted",
    "C71_range_refuted"
   ],
   "note": "C71_histories: for every history in which the client uses only references that it owns (or borrows from an array it owns), registers non-null pointers and passes values in range, every operation succeeds with its specified effect, contents of arrays and buckets are as expected, cached buckets do not change, and nothing remains at the end. Refuted: an in-place jit_var_write after a query leaves stale buckets; a query for another domain returns instances of the first; instances removed after the first query are still returned (dangling); values out of range are undefined behaviour without JitFlag::Debug. Not modelled: evaluation of an index that is not evaluated yet, reference counters beyond 32 bit, JitFlag::Debug, failing allocations, more than one thread; the permutation is taken from C21."
  },
  {
   "property": "C72",
   "status": "partial",
   "theorems": [
    "C72_histories",
    "C72_evaluated",
    "C72_view_refuted",
    "C72_query_refuted",
    "C72_dot_constant_refuted",
    "C72_dot_size_refuted",
    "C72_block_refuted",
    "C72_dirty_refuted"
   ],
   "note": "C72_histories: results and values of all arrays after every legal sequence of calls; C72_evaluated: what is in memory after an evaluation. Conditions, each refuted without: any/all write up to three entries behind the array, which overwrites the array behind a view and memory behind mapped memory (C72_view_refuted, C72_query_refuted), and fail for sizes above 2^32-4 and undefined masks; reduce_dot of memory and a constant of the same size takes the constant for a pointer, and sums only the first block of arrays above 2^32-16384 entries; block_reduce with a block larger than the array fails only for evaluated arrays; views of dirty arrays show old values. Partial: arithmetic must be associative and commutative where sums are reordered (not floating point), dot products of two floats assume an exact fused multiply-add; memory is that of the LLVM backend, executed at once; simplifications inside jit_var_mul are not modelled here (C08, C59)"
  },
  {
   "property": "C73",
   "status": "partial",
   "theorems": [
    "C73_histories",
    "C73_values",
    "C73_join_refuted",
    "C73_empty_refuted",
    "C73_leak_refuted",
    "C73_prefix_refuted"
   ],
   "note": "C73_histories: every legal history has the expected effects on labels, groups, callbacks and the set of variables; C73_values: labelling preserves values. Refuted: components that are names are put in brackets like numbers (the test in jit_var_set_label uses || and s[1]), an empty component reads behind the end of the string, an invalid label for a variable with other owners leaks the copy, a variable created under a prefix shows the prefix of an equal earlier one. Not modelled: callbacks upon evaluation, callbacks that call back into the library, source locations (JitFlag::Debug), side effects, symbolic variables, wrap of reference counters, escaping and cluster braces of jit_var_graphviz."
  },
  {
   "property": "C74",
   "status": "partial",
   "theorems": [
    "C74_histories",
    "C74_constant",
    "C74_scalar_refuted",
    "C74_user_refuted",
    "C74_size_refuted"
   ],
   "note": "C74_constant: constants of any size on GPUs. C74_histories: every legal history has the expected results, and all masks keep their meaning in kernels of every compatible size, including lanes behind the end on LLVM. Conditions, each refuted without: an evaluated scalar mask on the stack re-activates lanes behind the end, since the size of the operation is tested instead of that of the mask (C74_scalar_refuted); so does a pushed condition that was not made by jit_var_mask_apply (C74_user_refuted); a constant mask of size N on the stack resizes an argument without other references in place (C74_size_refuted). Not modelled: reference counts, merging of equal nodes, dirty and consumed variables, symbolic masks, more than one thread."
  },
  {
   "property": "C75",
   "status": "partial",
   "theorems": [
    "C75_histories",
    "C75_reload",
    "C75_disjoint",
    "C75_overflow_refuted",
    "C75_dangling_refuted",
    "C75_size_refuted",
    "C75_align_refuted"
   ],
   "note": "C75_histories: every legal compilation succeeds and the kernel carries the code, entry points and callables; C75_reload: also after writing it to disk and loading it elsewhere; C75_disjoint: sections do not overlap. Conditions, each refuted without: code that does not fit the buffer is reported only if its padding fits, otherwise memory behind the buffer is cleared (C75_overflow_refuted); after a failed allocation, which raises an exception, the next compilation uses or frees the old buffer again (C75_dangling_refuted); sizes are cut to 32 bit (C75_size_refuted); alignment above 4096 is lost (C75_align_refuted). Not modelled: LLVM itself (a sequence of section requests, stores and symbols), global offset tables beyond their rejection, compression and checks of cache files, page protection, Windows."
  },
  {
   "property": "C76",
   "status": "partial",
   "theorems": [
    "C76_histories",
    "C76_time_refuted",
    "C76_loop_refuted"
   ],
   "note": "C76_histories: every legal history has the expected results, all accesses are in bounds, and memory, tasks and events are released exactly once. Refuted: jit_kernel_history waits only for the calling thread and ignores the result of cuEventElapsedTime, so CUDA kernels of other threads that still run get no execution time (C76_time_refuted); the documented loop to free a result dereferences the null pointer of an empty history (C76_loop_refuted). Not modelled: Metal, failing CUDA calls, replay of recorded functions, changes of the flag between code generation and launch."
  },
  {
   "property": "C77",
   "status": "partial",
   "theorems": [
    "C77_migrated",
    "C77_identity_refuted",
    "C77_stale_refuted",
    "C77_literal_refuted"
   ],
   "note": "C77_migrated: every legal call, in every state of memory and submitted work. Refuted: the documented shortcut for identical source and target does not exist, a copy is always made (C77_identity_refuted); host memory of LLVM variables is copied at once, before kernels that write it have run (C77_stale_refuted); an LLVM literal can be migrated to the GPU, which gives an LLVM variable in GPU memory, although evaluated variables are rejected (C77_literal_refuted). Not modelled: Metal, several devices, frees and reuse of memory."
  },
  {
   "property": "C78",
   "status": "partial",
   "theorems": [
    "C78_histories",
    "C78_width_refuted"
   ],
   "note": "C78_histories: every legal history. Refuted without the bound on references: the stashed count has 16 bits, so with 65537 references it is 1 and a scatter changes the array of all others (C78_width_refuted). Not modelled: unevaluated and dirty variables, side effects (ref_count_se), packet scatters and scatter_reduce/inc/exch/cas/kahan beyond the shared test of the counts, wrap of 32 bit reference counts and counters."
  },
  {
   "property": "C79",
   "status": "partial",
   "theorems": [
    "C79_histories",
    "C79_borrowed_refuted"
   ],
   "note": "C79_histories: every legal history, where jit_var_self is followed by jit_var_inc_ref. Refuted without that: jit_var_self returns no reference, and passing its result back terminates the process or installs an unrelated variable (C79_borrowed_refuted); even passing back the current index at once fails, since the old reference is given up first. Not modelled: recording of frozen functions (which copies the fields of the thread state without a reference), ThreadState::reset_state, merging of equal literals, more than one thread."
  }
 ]
}