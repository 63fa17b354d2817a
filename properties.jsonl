{"id": "C01", "title": "Exact reference counting of variables", "statement": "After any sequence of variable creations, reference increments and decrements through the C API in which the caller only drops references it owns, every variable index the caller still holds resolves to a live variable, every operand reachable from a held variable is live, and a variable exists only if it is reachable from a held index. In particular, when the caller has dropped everything it owns, no variable is left.", "quantifier": "every finite history of create / inc_ref / dec_ref calls, every operand graph those histories can build", "why_tests_cant": "a unit test executes one history; leaks and premature frees depend on the order of drops, on sharing between operands and on value-numbering hits, an unbounded space", "anchors": ["src/var.cpp: jitc_var_new, jitc_var_inc_ref_impl, jitc_var_dec_ref_impl, jitc_var_free", "src/free_slots.h: FreeSlots"]}
{"id": "C02", "title": "A weak reference never resolves to a different variable", "statement": "A weak reference taken to a variable resolves either to that same variable or, once that variable has been destroyed, to nothing - even though its index may have been reused by an unrelated variable - as long as the slot has been recycled fewer than 2^32 times since.", "quantifier": "every history of creations and destructions between taking and resolving the weak reference", "why_tests_cant": "index reuse depends on the complete allocation history", "anchors": ["src/internal.h: Variable::counter, WeakRef", "src/var.cpp: jitc_var(WeakRef), jitc_var_new, jitc_var_free"]}
{"id": "C03", "title": "Value numbering merges only identical computations", "statement": "Creating a variable either yields a brand new index or the index of a live variable that has the same operation, backend, type, size, literal payload, operands and scope as the one requested; it never yields a variable that computes something else, and with value numbering on it never builds a second copy of a live merge-able variable of the same scope.", "quantifier": "every history of creations and destructions, every requested variable", "why_tests_cant": "merging depends on which variables are alive at the time and on stale table entries left by earlier destructions", "anchors": ["src/internal.h: VariableKey, LVNMap", "src/var.cpp: jitc_var_new, jitc_lvn_drop, jitc_lvn_put, jitc_var_free"]}
{"id": "C04", "title": "Free-index allocator hands out the lowest free index, never one in use", "statement": "After any sequence of releases and acquisitions (each release naming an index that is in use), acquiring an index yields the smallest released index and removes it from the free set; an index in use is never handed out.", "quantifier": "every interleaving of releases and acquisitions, indices of any magnitude", "why_tests_cant": "the allocator keeps a moving cursor over a bitmap; its correctness is an invariant over all histories", "anchors": ["src/free_slots.h: FreeSlots::push, FreeSlots::pop, FreeSlots::clear"]}
{"id": "C05", "title": "Writes are copy-on-write", "statement": "Writing an element through a variable handle (jit_var_write) changes the value read through the returned handle at that position only, and never changes a value read through any other handle that existed before the write, including handles produced by jit_var_shrink.", "quantifier": "every history of evaluated-variable creation, sharing, shrinking and writing", "why_tests_cant": "which allocations are shared depends on the whole history of aliases", "anchors": ["src/var.cpp: jitc_var_write, jitc_var_read, jitc_var_shrink, jitc_var_copy"]}
{"id": "C06", "title": "Literals keep exactly the bytes of their type", "statement": "Creating a literal of a given type from a buffer and reading it back yields the same value for every type and every bit pattern; unrelated trailing bytes of the buffer do not influence it.", "quantifier": "every type, every bit pattern", "why_tests_cant": "all 2^64 payloads of each type cannot be enumerated", "anchors": ["src/var.cpp: jitc_var_literal", "src/op.cpp: i2v, v2i"]}
{"id": "C07", "title": "Scope compaction keeps the relative order of scopes", "statement": "Compacting the scope counters keeps the strict order and equality between the scopes of all live variables and threads, keeps the reserved scopes unchanged, and the next scope that is handed out is larger than every scope in use.", "quantifier": "every set of live variables and every assignment of scopes to them", "why_tests_cant": "compaction only triggers after a number of scopes no test reaches", "anchors": ["src/var.cpp: jitc_compact_scopes, jitc_scope_next, jitc_advance_scope"]}
{"id": "C08", "title": "Integer arithmetic builders compute the operation they are named after", "statement": "For integer and boolean operands, the variable returned by jit_var_neg/not/add/sub/mul/div/mod/and/or/xor/shl/shr/min/max/abs/fma evaluates, in every lane, to the two's complement result of the named operation on the operands' lanes, whether or not the library folded, simplified or strength-reduced the expression.", "quantifier": "every operand expression, every lane, every operand value and every integer width", "why_tests_cant": "simplification rules fire on specific literal patterns; per-type value spaces are 2^64 large", "anchors": ["src/op.cpp: jitc_var_neg, jitc_var_not, jitc_var_add, jitc_var_sub, jitc_var_mul, jitc_var_div, jitc_var_mod, jitc_var_and, jitc_var_or, jitc_var_xor, jitc_var_shl, jitc_var_shr, jitc_var_min, jitc_var_max, jitc_var_abs, jitc_var_fma, jitc_var_shift"]}
{"id": "C09", "title": "Comparisons follow the element type's comparison, including NaN", "statement": "The result of jit_var_eq/neq/lt/le/gt/ge equals, lane by lane, the comparison of the operand values; for floating point operands this is the IEEE comparison, so x != x is true in lanes where x is NaN.", "quantifier": "every operand pair including identical handles, every value including NaN", "why_tests_cant": "requires reasoning about all values for shortcut rules such as 'same handle'", "anchors": ["src/op.cpp: jitc_var_eq, jitc_var_neq, jitc_var_lt, jitc_var_le, jitc_var_gt, jitc_var_ge"]}
{"id": "C10", "title": "Bit-level intrinsics are exact", "statement": "popc, clz, ctz, brev of a literal give the number of set bits, of leading zeros, of trailing zeros and the bit reversal of the operand for every 8/16/32/64-bit value; mul_hi of literals gives the upper half of the double-width product for every pair of operands.", "quantifier": "every operand value and width", "why_tests_cant": "2^64 operand values per width", "anchors": ["src/op.cpp: eval_popc, eval_clz, eval_ctz, eval_brev, eval_mulhi"]}
{"id": "C11", "title": "Literal folding is free of undefined behaviour", "statement": "Applying an arithmetic builder to literals never performs an operation that is undefined in C++ (signed overflow, over-wide shifts, INT_MIN/-1, division by zero), i.e. the folded value is determined.", "quantifier": "every literal operand and integer type", "why_tests_cant": "undefined behaviour is invisible in a test that happens to produce the expected bits", "anchors": ["src/op.cpp: eval_literal, jitc_var_add, jitc_var_mul, jitc_var_div, jitc_var_shl"]}
{"id": "C12", "title": "Gathering from an unevaluated expression equals evaluating it first", "statement": "jit_var_gather(e, idx, mask) yields in every active lane i the value of e at position idx[i] and 0 in inactive lanes, whether e is evaluated, a literal, or an unevaluated expression that the library re-indexes, and performs no out-of-range memory access when all active indices are in range.", "quantifier": "every source expression, index vector and mask", "why_tests_cant": "re-indexing rewrites arbitrary expression graphs", "anchors": ["src/op.cpp: jitc_var_gather, jitc_var_reindex, jitc_var_gather_packet"]}
{"id": "C13", "title": "Atomic exchange and compare-and-swap always return the old values", "statement": "jit_var_scatter_exch and jit_var_scatter_cas return, for every call that does not raise, old values (and success flags) with one entry per lane of the operation; lanes that are masked off have defined output.", "quantifier": "every combination of target, value, index and mask, including literal masks and empty targets", "why_tests_cant": "shortcut paths are taken only for particular literal masks and sizes", "anchors": ["src/op.cpp: jitc_var_scatter_exch, jitc_var_scatter_cas", "include/drjit-core/jit.h: jit_var_scatter_cas"]}
{"id": "C14", "title": "Packet gathers and scatters equal their scalar expansion", "statement": "Gathering (scattering) n-wide packets gives component k of lane i the array entry index[i]*n+k, for any way the library splits the packet into smaller power-of-two packets.", "quantifier": "every packet size, index vector, mask, array length", "why_tests_cant": "splitting depends on packet size and alignment; all combinations must agree", "anchors": ["src/op.cpp: jitc_var_gather_packet, jitc_var_scatter_packet"]}
{"id": "C15", "title": "Equal merges only depend on operands: select and conditionals", "statement": "jit_var_select(m,t,f) evaluates lane-wise to t where m is set and to f elsewhere, for all shortcut rules and result sizes; conditional statement merging keeps both branches' types.", "quantifier": "every mask, operand pair and size", "why_tests_cant": "shortcut rules depend on handle identity and literal status", "anchors": ["src/op.cpp: jitc_var_select", "src/cond.cpp: jitc_var_cond_end"]}
{"id": "C16", "title": "Every element of a parallel launch is processed exactly once", "statement": "A kernel of a given size launched on the LLVM backend runs each index 0..size-1 in exactly one work unit and touches no index beyond the size, for every size the API accepts, worker count and per-thread block size.", "quantifier": "every launch size below 2^32, thread-pool size, packet width and block size", "why_tests_cant": "rounding and 32-bit wrap-around errors show up only at sizes no test allocates", "anchors": ["src/llvm_ts.cpp: LLVMThreadState::launch"]}
{"id": "C17", "title": "Block reductions equal the sequential reduction", "statement": "jit_block_reduce writes, for every block, the reduction of exactly the block's elements (the last block may be shorter), for every size, block size and every division of the work among threads; for exactly associative operations the result is independent of the division.", "quantifier": "every size, block size, operation, input and worker count", "why_tests_cant": "the chunking scheme depends on size/block size/worker count; races only show on particular schedules", "anchors": ["src/llvm_ts.cpp: LLVMThreadState::block_reduce", "src/llvm_red.h: block_reduce kernels", "src/var.cpp: jitc_var_block_reduce"]}
{"id": "C18", "title": "Prefix reductions equal the sequential scan", "statement": "jit_block_prefix_reduce writes, for every block, the inclusive or exclusive, forward or reverse scan of the block, for every size, block size, worker count, also when input and output coincide.", "quantifier": "every size, block size, flag combination, operation, input and worker count", "why_tests_cant": "the two-pass scheme with scratch sums has many partitions; aliasing adds ordering constraints", "anchors": ["src/llvm_ts.cpp: LLVMThreadState::block_prefix_reduce", "src/llvm_red.h: prefix reduction kernels"]}
{"id": "C19", "title": "Reductions of literals agree with reductions of evaluated arrays", "statement": "jit_var_reduce / jit_var_block_reduce / jit_var_block_prefix_reduce of a literal gives the same values as evaluating the literal to an array first.", "quantifier": "every literal, type, size, block size, operation and flag combination", "why_tests_cant": "closed-form shortcuts must agree with a loop for all sizes", "anchors": ["src/var.cpp: jitc_var_block_prefix_reduce, jitc_var_block_reduce, jitc_var_reduce, jitc_reduce_scalar_mul"]}
{"id": "C20", "title": "Compress returns exactly the active indices, in order", "statement": "jit_compress of a mask writes the strictly increasing list of indices of set entries and returns their number, for every size and every division among threads.", "quantifier": "every mask content, size and worker count", "why_tests_cant": "two-phase parallel algorithm; correctness depends on the scan of per-chunk counts", "anchors": ["src/llvm_ts.cpp: LLVMThreadState::compress"]}
{"id": "C21", "title": "mkperm produces a stable bucket-sorting permutation", "statement": "jit_block_mkperm writes, for every group, a permutation of the group's indices that lists them bucket by bucket and, within a bucket, in increasing order; the offset table lists every nonempty bucket with its start and size; no memory outside the buffers is accessed - also when the last group is smaller.", "quantifier": "every value array, group size, bucket count and worker count", "why_tests_cant": "parallel counting sort with per-task histograms", "anchors": ["src/llvm_ts.cpp: LLVMThreadState::block_mkperm", "include/drjit-core/jit.h: jit_block_mkperm"]}
{"id": "C22", "title": "Batched matrix multiplication equals the definition", "statement": "jit_batched_gemm writes C[b,i,j] = sum over reduction batches and k of A*B for all shapes, transposition flags and batch specifications, accumulating each entry in the order (reduction batch, k), independent of tiling and thread count.", "quantifier": "every shape M,N,K, batch layout, transposition, tile sizes and worker count", "why_tests_cant": "tiling edge cases are a combinatorial space", "anchors": ["src/llvm_gemm.h: pack_a, pack_b, gemm_micro, gemm_row_sweep, gemm_reduce_decode", "src/llvm_ts.cpp: LLVMThreadState::batched_gemm", "src/util.cpp: jitc_batched_gemm"]}
{"id": "C23", "title": "Matrix multiplication with an empty inner dimension yields zeros", "statement": "jit_batched_gemm with K=0 fills C with zeros, like every other K is summed over zero terms.", "quantifier": "every M,N and batch specification with K=0", "why_tests_cant": "a degenerate shape handled by early returns", "anchors": ["src/util.cpp: jitc_batched_gemm", "src/llvm_ts.cpp: LLVMThreadState::batched_gemm"]}
{"id": "C24", "title": "Combining expanded accumulation buffers sums each entry over all copies", "statement": "Reducing an expanded array folds, for every index, all its per-thread copies into the first one and leaves entries beyond the size untouched, for any partition among threads.", "quantifier": "every size, expansion factor, operation and worker count", "why_tests_cant": "partition-dependent strided accesses", "anchors": ["src/llvm_ts.cpp: LLVMThreadState::reduce_expanded"]}
{"id": "C25", "title": "Division by an invariant divisor is exact", "statement": "The precomputed multiply-and-shift division used for index decoding returns floor(x/d) and x mod d for every 32-bit x and every divisor d >= 1, with no intermediate overflow.", "quantifier": "all 2^32 numerators and all 2^32-1 divisors", "why_tests_cant": "2^64 pairs", "anchors": ["src/common.h: divisor"]}
{"id": "C26", "title": "Launch order: sorting the schedule is a stable sort", "statement": "Before evaluation the queue of variables is reordered by decreasing size and, within a size, by increasing scope, keeping queue order for ties, for any number of queued variables and either sorting algorithm.", "quantifier": "every queue content and length", "why_tests_cant": "the counting-sort fast path is used for some size distributions, a library sort for others", "anchors": ["src/eval.cpp: jitc_schedule_sort"]}
{"id": "C27", "title": "Kernel grouping partitions the schedule", "statement": "Evaluation splits the queued variables into kernels so that each queued element belongs to exactly one kernel, all variables of a kernel have the kernel's size, and kernel boundaries respect scope order.", "quantifier": "every queue content", "why_tests_cant": "depends on the distribution of sizes and scopes", "anchors": ["src/eval.cpp: jitc_eval_impl"]}
{"id": "C28", "title": "Every operand is computed before it is used", "statement": "The instruction sequence generated for a kernel contains each needed unevaluated variable exactly once, contains nothing that is not needed, and each variable appears after all of its operands.", "quantifier": "every expression DAG, every set of outputs", "why_tests_cant": "graph traversal with shared sub-expressions; number of DAGs is unbounded", "anchors": ["src/eval.cpp: jitc_var_traverse, jitc_assemble"]}
{"id": "C29", "title": "Call data layout: captured values never overlap", "statement": "The per-instance data block of a virtual function call places each captured variable at an offset aligned to its type, no two captured values overlap, all fit in the recorded block size, and the placement lists every captured variable exactly once.", "quantifier": "every list of captured variables and types", "why_tests_cant": "packing is order- and type-dependent", "anchors": ["src/call.cpp: jitc_call_layout_instance"]}
{"id": "C30", "title": "The allocator never hands out memory that is in use", "statement": "After any sequence of jit_malloc, jit_free, jit_malloc_migrate and flush calls, live allocations are pairwise distinct, a freed pointer is handed out only after it was freed and only for a request of the same rounded size, backend and device, and the reported usage equals the sum of the sizes of the live allocations.", "quantifier": "every history of allocation, release, migration and flush calls, every success/failure of the underlying system allocator", "why_tests_cant": "history-dependent caches of freed blocks", "anchors": ["src/malloc.cpp: jitc_malloc, jitc_free, jitc_malloc_release, jitc_malloc_migrate, jitc_flush_malloc_cache"]}
{"id": "C31", "title": "Allocation descriptors round-trip", "statement": "Encoding (size, shared flag, backend, device) in a descriptor and decoding it returns the same fields, and different tuples have different descriptors, for every size the allocator can serve.", "quantifier": "every size below 2^53, device below 256, backend and flag", "why_tests_cant": "2^64 descriptors", "anchors": ["src/malloc.h: AllocInfo, alloc_info_encode, alloc_info_decode"]}
{"id": "C32", "title": "Out-of-memory is reported as an error", "statement": "jit_malloc either returns memory that the system provided or raises; statistics are unchanged when it raises.", "quantifier": "every request size and every success/failure behaviour of the system allocator", "why_tests_cant": "allocation failures are hard to provoke", "anchors": ["src/malloc.cpp: aligned_malloc, jitc_malloc, round_pow2"]}
{"id": "C33", "title": "Instance registry: unique, stable, lowest-free identifiers", "statement": "jit_registry_put gives each live pointer an identifier that is unique within its (variant, domain), stable until removal, and the smallest free one; id/pointer lookups are inverse to each other; the id bound is the largest identifier in use.", "quantifier": "every history of put / remove / clear calls over any number of variants and domains", "why_tests_cant": "history-dependent reuse", "anchors": ["src/registry.cpp: jitc_registry_put, jitc_registry_remove, jitc_registry_id, jitc_registry_id_bound, jitc_registry_ptr, jitc_registry_clear"]}
{"id": "C34", "title": "The registry is as good as new after shutdown", "statement": "After jit_registry shutdown, registering and removing pointers behaves exactly as in a fresh process.", "quantifier": "every registry content at shutdown, every history after it", "why_tests_cant": "needs state left over from before shutdown", "anchors": ["src/registry.cpp: jitc_registry_shutdown"]}
{"id": "C35", "title": "Integer formatting is exact", "statement": "The decimal and hexadecimal text emitted into generated kernels for an unsigned 32/64-bit integer is the canonical numeral of that integer, for every value.", "quantifier": "all 2^32 / 2^64 values", "why_tests_cant": "2^64 values; the code uses fixed-point multiplication tricks", "anchors": ["src/strbuf.cpp: w_u32, w_u64, eight_digits, w_x64, w_q64"]}
{"id": "C36", "title": "Formatted output never overruns the reserved space", "statement": "For every format string and arguments, the number of characters written by a single formatting call is at most the space reserved beforehand.", "quantifier": "every format string and argument list", "why_tests_cant": "the bound must hold for adversarial combinations", "anchors": ["src/strbuf.cpp: StringBuffer::fmt_llvm, fmt_bound, w_run, expand"]}
{"id": "C37", "title": "Copying literal runs of a format stops exactly at the next directive", "statement": "Copying text of a format string up to the next '$' copies every character before the first '$' and nothing else, independent of alignment and length.", "quantifier": "every format string", "why_tests_cant": "word-at-a-time search must agree with the byte-wise definition for all byte patterns", "anchors": ["src/strbuf.cpp: w_run"]}
{"id": "C38", "title": "Moving a suffix of the kernel text is a rotation", "statement": "move_suffix takes the text from a start to the end and reinserts it at an earlier position, keeping every character exactly once, for every buffer and positions.", "quantifier": "every buffer content and positions", "why_tests_cant": "content/position space unbounded", "anchors": ["src/strbuf.cpp: StringBuffer::move_suffix"]}
{"id": "C39", "title": "The text buffer is always a terminated C string", "statement": "After any sequence of put/fmt/rewind/delete operations, get() is a NUL-terminated string consisting of exactly the characters appended and not removed.", "quantifier": "every operation sequence", "why_tests_cant": "depends on stale bytes left by earlier operations", "anchors": ["src/strbuf.cpp: StringBuffer"]}
{"id": "C40", "title": "Own containers behave as values", "statement": "vector and string of the bundled mini-STL behave like sequences: push_back(v[i]) appends a copy of element i, s = s leaves s unchanged, copies are independent.", "quantifier": "every content, every aliasing of arguments", "why_tests_cant": "aliasing and capacity boundaries", "anchors": ["include/drjit-core/nanostl.h: vector, string"]}
{"id": "C41", "title": "Kernel cache: what is loaded is what was stored", "statement": "Loading a kernel from the on-disk cache returns exactly the binary that was stored for the same source text; files of different source, damaged header, truncated or altered payload are rejected rather than used.", "quantifier": "every source text, binary, and file content", "why_tests_cant": "corruption patterns are unbounded", "anchors": ["src/io.cpp: jitc_kernel_load, jitc_kernel_write, jitc_kernel_cache_checksum"]}
{"id": "C42", "title": "Kernel cache publication is crash-atomic", "statement": "At every point at which the process may die while writing a cache entry, a later load either finds the complete entry or no entry under its final name.", "quantifier": "every crash point and interleaving of two writers", "why_tests_cant": "crash points cannot be exhaustively tested", "anchors": ["src/io.cpp: jitc_kernel_write"]}
{"id": "C43", "title": "Cache clean-up removes oldest entries first and respects the limit", "statement": "A cache sweep deletes only cache entries, deletes no entry that is newer than an entry it keeps, stops as soon as the total fits the target, and leaves everything untouched when the limit is not exceeded.", "quantifier": "every directory content", "why_tests_cant": "orderings and sizes unbounded", "anchors": ["src/io.cpp: cache sweep thread"]}
{"id": "C44", "title": "Cache-size setting is parsed strictly", "statement": "The size string parser accepts exactly non-negative decimal numbers with an optional K/M/G suffix, returns the denoted number of bytes and rejects values that do not fit.", "quantifier": "every input string", "why_tests_cant": "string space unbounded", "anchors": ["src/io.cpp: parse_size"]}
{"id": "C45", "title": "The global lock is a recursive mutual exclusion lock", "statement": "At most one thread is inside the lock at any time in any interleaving; a thread may nest acquisitions; the lock is free again after matching releases.", "quantifier": "every number of threads and every interleaving of atomic steps", "why_tests_cant": "schedules unbounded", "anchors": ["src/lock.h: Lock, lock_acquire, lock_release, lock_guard"]}
{"id": "C46", "title": "Postponed log messages are delivered once, in order, outside the lock", "statement": "Messages logged while the lock is held are handed to the user callback exactly once, in logging order, only when the lock is no longer held.", "quantifier": "every interleaving of logging and lock operations", "why_tests_cant": "schedules unbounded", "anchors": ["src/log.cpp: jitc_log_postpone, jit_log_flush, lock_release_pending", "src/lock.h: LOCK_PENDING"]}
{"id": "C47", "title": "Human-readable sizes denote the right size", "statement": "The text produced for a memory size parses back to the size up to the rounding of the displayed digits.", "quantifier": "every 64-bit size", "why_tests_cant": "2^64 values", "anchors": ["src/log.cpp: print_float_with_unit, jitc_mem_string"]}
{"id": "C48", "title": "Half-precision conversion is correctly rounded", "statement": "Converting a 32-bit float to half precision rounds to nearest-even, keeps infinities, NaN-ness and signed zeros; converting half to float is exact; half -> float -> half is the identity on non-NaN values.", "quantifier": "all 2^32 floats, all 2^16 halves", "why_tests_cant": "2^32 values with rounding boundary cases", "anchors": ["include/drjit-core/half.h: half::float32_to_float16_fallback, float16_to_float32_fallback"]}
{"id": "C49", "title": "Array variables: copy elision never changes what a reader sees", "statement": "A read from a local array variable sees the newest write that precedes it along its own operand chain, even if the compiler decided to update the array in place instead of copying.", "quantifier": "every DAG of array init / read / write operations and every evaluation order", "why_tests_cant": "in-place decisions depend on the schedule", "anchors": ["src/array.cpp: jitc_process_array_op"]}
{"id": "C50", "title": "Loop-invariant elimination keeps the meaning of symbolic loops", "statement": "Removing loop state that the optimizer considers invariant does not change the final values of any state variable.", "quantifier": "every loop state, body and trip count", "why_tests_cant": "fixpoint argument over all iterations", "anchors": ["src/loop.cpp: jitc_var_loop_end"]}
{"id": "C51", "title": "GPU launch configuration covers the range", "statement": "The computed block/thread counts cover every index below the size, never exceed device limits.", "quantifier": "every size and device configuration", "why_tests_cant": "boundary sizes", "anchors": ["src/internal.h: Device::get_launch_config"]}
{"id": "C52", "title": "Frozen functions: inferred launch sizes reproduce the recorded relation", "statement": "Replaying a frozen function with the recorded input sizes launches every kernel with the recorded size; with other sizes the launch size keeps the recorded integer ratio to the driving input, or the replay is refused.", "quantifier": "every recorded kernel, every replay input size", "why_tests_cant": "sizes unbounded", "anchors": ["src/record_ts.cpp: RecordThreadState::record_launch, Recording::replay_launch"]}
{"id": "C53", "title": "Rewinding failed evaluations releases exactly what was acquired", "statement": "If evaluation raises part-way, every reference taken for the evaluation is released exactly once and queued variables are unaffected otherwise.", "quantifier": "every failure point of every schedule", "why_tests_cant": "failure points are hard to provoke", "anchors": ["src/eval.cpp: jitc_eval, rollback code"]}
{"id": "C54", "title": "Size arithmetic of helper functions does not wrap", "statement": "ceil_div, align_up and round-to-power-of-two helpers return the mathematically expected value for every argument the API can pass.", "quantifier": "all 32/64-bit arguments", "why_tests_cant": "wrap-around occurs only near the type limits", "anchors": ["src/common.h: ceil_div, align_up, log2i_ceil", "src/malloc.cpp: round_pow2"]}
{"id": "C55", "title": "The memory high-water mark is not below current usage", "statement": "At every moment the reported peak of allocated memory of a backend is at least the amount currently allocated for it.", "quantifier": "every history of allocation, release, migration, flush and statistics-reset calls", "why_tests_cant": "depends on the order of migrations and allocations", "anchors": ["src/malloc.cpp: jitc_malloc, jitc_malloc_migrate, jitc_flush_malloc_cache, jitc_malloc_clear_statistics"]}
{"id": "C56", "title": "Operand sizes are checked and empty operands propagate", "statement": "Every two-operand builder rejects operands whose sizes differ unless one of them has size 1, and a builder applied only to empty operands (handle 0) returns the empty handle without reading any variable.", "quantifier": "every builder, store, flag combination and operand size", "why_tests_cant": "builders repeat the check by hand; a missing one is only visible for the particular builder and size combination", "anchors": ["src/op.cpp: jitc_var_check, jitc_var_mod, jitc_var_select, jitc_var_mul_wide"]}
{"id": "C57", "title": "Half-precision arithmetic rounds once", "statement": "The result of multiplying two half-precision numbers, and of building a half-precision number from a double, is the half-precision number closest to the exact value, ties to even.", "quantifier": "all pairs of finite halves; all doubles", "why_tests_cant": "2^32 pairs and 2^64 doubles; double rounding only shows near midpoints", "anchors": ["include/drjit-core/half.h: half::half(Value), half::operator*, float32_to_float16_fallback"]}
{"id": "C58", "title": "Cache sweeps happen at most once per hour", "statement": "However many processes start, two sweeps of a cache directory are at least an hour apart, and at most one process claims a sweep.", "quantifier": "every number of processes and interleaving of their file operations", "why_tests_cant": "depends on the interleaving of processes", "anchors": ["src/io.cpp: jitc_cache_init (stamp), jitc_cache_sweep"]}
{"id": "C59", "title": "Float simplifications keep the IEEE result", "statement": "With fast math off, the bits that sums, differences, products, quotients and fused multiply-adds of float arrays hold are those of IEEE 754 arithmetic, whatever algebraic simplification was applied because an operand is a literal.", "quantifier": "every float type, store, flag, operand size and lane value", "why_tests_cant": "a simplification that is wrong only for signed zeros, infinities or the last bit needs that very value next to that very literal", "anchors": ["src/op.cpp: jitc_var_add, jitc_var_sub, jitc_var_mul, jitc_var_div, jitc_var_rcp, jitc_var_fma"]}
{"id": "C60", "title": "Scatter-reductions combine every contribution exactly once", "statement": "After a scatter-reduction every element of the target is the combination, by the requested operation, of its old value and the values of all active lanes that refer to it, each taken once, regardless of conflicts between lanes or threads and of the reduction strategy; masked lanes have no influence.", "quantifier": "every operation, mode, vector width, set of indices, number of threads and interleaving of the memory operations", "why_tests_cant": "depends on which lanes collide within a vector, on addresses, and on the interleaving of threads", "anchors": ["src/llvm_scatter.cpp: jitc_llvm_append_reduce_op_direct, jitc_llvm_append_reduce_op_local, jitc_llvm_append_reduce_op_noconflict, jitc_llvm_render_scatter_reduce"]}
{"id": "C61", "title": "Atomic increments hand out every number exactly once", "statement": "The values that jit_var_scatter_inc returns for the active lanes that refer to a counter are the old value of the counter and the numbers that follow it, each returned to one lane; the counter is increased by the number of such lanes; masked lanes return 0.", "quantifier": "every set of indices and masks, number of threads and vectors, and interleaving of the atomic operations", "why_tests_cant": "depends on which lanes of a vector share a counter and on the interleaving of threads", "anchors": ["src/llvm_scatter.cpp: jitc_llvm_render_scatter_inc", "src/op.cpp: jitc_var_scatter_inc"]}
{"id": "C62", "title": "Loop state changes all at once", "statement": "At the end of an iteration of a symbolic loop every state variable takes the value that its new value had, even if state variables are exchanged, rotated or copied among each other.", "quantifier": "every pattern of updates between state variables, every set of live variables, 8-bit and wider types", "why_tests_cant": "the set of aliasing patterns is unbounded; copy order bugs only show for cycles", "anchors": ["src/cuda_eval.cpp: jitc_cuda_render_loop_end, jitc_cuda_mov", "src/metal_eval.cpp: LoopEnd"]}
{"id": "C63", "title": "Conditional statements choose per lane and run effects in their own lanes", "statement": "A symbolic conditional statement returns, for every lane, the value that the branch taken by that lane computed, with the type of the branches' values and the size of the statement; side effects of a branch take place exactly in the lanes that take it; inconsistent branches are rejected without losing references.", "quantifier": "every condition, number, size, type and literal value of the returned variables, set of side effects, vector width", "why_tests_cant": "the interesting cases are combinations of shortcuts (same variable, equal literals, pending side effects) with sizes and lanes", "anchors": ["src/cond.cpp: jitc_var_cond_append, jitc_var_cond_end", "src/llvm_eval.cpp: CondStart, CondMid, CondEnd", "src/cuda_eval.cpp: jitc_cuda_render_cond_mid", "src/metal_eval.cpp: CondMid, CondEnd"]}
{"id": "C64", "title": "A scatter is an update of one array in program order", "statement": "In a program of array operations, gathers, plain scatters and scatter-reductions, every array that is read has the contents that executing the operations one after the other on plain arrays gives: other references to a target keep the old contents, nodes created before a scatter use the values from before it, nodes created after it see it, and no scatter is lost or applied twice. This holds whatever the order of memory operations within an evaluation and whichever threads perform them.", "quantifier": "every program of such operations, contents, sizes, index and mask values, order of memory operations and assignment to threads", "why_tests_cant": "whether a pending scatter is seen depends on reference counts, dirty flags, evaluation points and the reduction mode; the failing combinations are rare sequences", "anchors": ["src/op.cpp: jitc_var_infer_reduce_mode, jitc_var_scatter", "src/var.cpp: jitc_var_new_node_*, jitc_var_eval_force, jitc_var_data, jitc_var_eval, jitc_var_copy, jitc_var_expand", "src/eval.cpp: elide_scatter, jitc_eval_impl"]}
{"id": "C65", "title": "A virtual function call returns in every lane what the callee selected by that lane computes", "statement": "After jit_var_call (and nested calls), each lane of an output holds the value that the instance with that lane's index computes from its own captured variables and from that lane's arguments, and zero if the lane is masked or its index is 0, on LLVM and CUDA, with and without OptimizeCalls and MergeFunctions; each active lane executes exactly one callee, once.", "quantifier": "all nested call structures, instances, captured variables and arguments, all lane contents, vector widths and instance indices, every choice of live outputs", "why_tests_cant": "the generated code depends on which outputs are live, on which callees happen to be merged, on the layout of captured data and on the mix of indices in a vector; tests see a few combinations", "anchors": ["src/call.cpp: jitc_var_call, jitc_var_call_assemble, jitc_var_call_analyze", "src/eval.cpp: jitc_assemble_func", "src/llvm_eval.cpp: jitc_llvm_assemble_func, jitc_var_call_assemble_llvm", "src/cuda_eval.cpp: jitc_cuda_assemble_func, jitc_var_call_assemble_cuda"]}
{"id": "C66", "title": "Recording a virtual function call keeps side effects, sizes and captured data apart", "statement": "When a virtual function call is recorded with jit_record_begin, jit_record_checkpoint, jit_var_call_input and jit_var_call, also within other recordings and with exceptions at any point, every recorded side effect is attached to the instance that caused it, in order, or released once on failure; the recording state is restored; the call is accepted exactly for consistent types, sizes and states, has the size of its largest operand, and each instance captures exactly the evaluated variables that it uses.", "quantifier": "every nesting of calls, number of instances, position of an exception, graph of variables, types, sizes and generation of stamps", "why_tests_cant": "errors show up as leaked or misattributed side effects in deeply nested recordings, after exceptions, or when stamps and sizes share storage", "anchors": ["src/api.cpp: jit_record_checkpoint, jit_record_begin, jit_record_end", "src/var.cpp: jitc_var_call_input, jitc_var_mark_side_effect", "src/call.cpp: jitc_var_call, jitc_var_call_analyze"]}
{"id": "C67", "title": "Replaying a frozen function computes what the function computes", "statement": "A function recorded with jit_freeze_start/stop and replayed with jit_freeze_replay on other inputs returns what calling the function on those inputs returns, with the sizes it would have, leaves the same contents in its inputs, returns an input itself if the function returns it, and releases every temporary buffer exactly once; the recording does not depend on addresses of buffers; reading a variable that is neither an input nor computed inside is refused; if jit_freeze_dry_run accepts the inputs then the operations of the replay succeed.", "quantifier": "every sequence of recorded operations, every device behaviour, all contents and sizes of inputs, every placement of buffers including reuse of freed addresses", "why_tests_cant": "a replay is correct only if slot assignment, inferred sizes, allocation and release agree for every sequence of operations and every later input size; tests freeze a few functions and replay similar inputs", "anchors": ["src/record_ts.cpp: RecordThreadState, Recording::replay, replay_launch, replay_*, add_param, add_variable, add_output, validate, jitc_freeze_start, jitc_freeze_stop, jitc_freeze_replay, jitc_freeze_dry_run", "include/drjit-core/jit.h: jit_freeze_*"]}
{"id": "C68", "title": "A getter returns in every lane the value of the selected instance", "statement": "After jit_var_call_getter, each lane of the result holds (mask && index != 0) ? values[index-1] : 0, where absent values read as zero and the mask includes the one on the mask stack; values are literals or scalars in memory, including those with pending scatters; lanes past the end of an LLVM kernel stay inactive and no lane reads outside of the call data; calls with wrong types, sizes or backends are rejected.", "quantifier": "all value tables, indices, masks and mask stacks, types, backends, vector widths, all other calls and getters of the kernel, every order of writing the call data", "why_tests_cant": "the table shares a buffer with offset tables of calls and other getters; correctness depends on which variables have pending effects, on vector width and mask stack contents", "anchors": ["src/call.cpp: jitc_var_call_getter, jitc_var_call_getter_assemble, jitc_call_upload", "src/var.cpp: jitc_var_mask_apply, jitc_var_resize", "src/llvm_eval.cpp: jitc_var_call_getter_assemble_llvm", "src/cuda_eval.cpp: jitc_var_call_getter_assemble_cuda"]}
{"id": "C69", "title": "Cooperative vectors compute the elements that their operations say", "statement": "Any program of jit_coop_vec_pack, literal, load, unary, cast, binary, ternary (fma) and matvec calls yields variables whose type, length, size and elements in every lane are those of the operations, up to the sign of zeros, and calls with arguments that do not fit are rejected; jit_coop_vec_accum and outer_product_accum add to each element of the buffer exactly what the active lanes contribute, whatever the order of the atomic additions; jit_coop_vec_pack_matrices copies each element of each matrix and nothing else, and consecutive layouts of jit_coop_vec_compute_layout do not overlap.", "quantifier": "all programs, element arithmetics with the identities used by simplifications, buffers, lanes, vector widths, masks, orders of atomic additions; all matrix descriptors in buffers up to 4 GiB", "why_tests_cant": "simplifications, broadcasting, strides, transposition, packets and masks combine; tests use a few shapes, one stride and small offsets", "anchors": ["src/coop_vec.cpp", "src/llvm_coop_vec.cpp", "src/metal_coop_vec.cpp", "src/llvm_ts.cpp: LLVMThreadState::coop_vec_pack", "src/var.cpp: jitc_var_resize", "include/drjit-core/jit.h: jit_coop_vec_*"]}
{"id": "C70", "title": "Assembled kernels compute the recorded variables", "statement": "jitc_assemble assigns parameters, registers and output buffers to the variables of a kernel and emits its text. Launching the text on LLVM, CUDA or Metal, with the workers interleaved in any way, causes no undefined behaviour and no rejected statement; when it has finished, each output buffer holds the values of its variable in every lane, memory outside of the output buffers is unchanged, and every lane has performed each side effect exactly once and in order. Kernels that differ only in identifiers, addresses and sizes have the same text and share one compiled kernel.", "quantifier": "all kernels (lists of evaluated arrays, literals, pointers, counters, masks, operations and calls), sizes, vector widths, launch configurations, initial memories, meanings of operations, and interleavings of the workers; all sequences of launches through the kernel cache", "why_tests_cant": "errors in offsets, registers or padding depend on the kernel; races between workers and padding lanes depend on the interleaving and on the contents of memory behind arrays; tests see a few kernels on one machine", "anchors": ["src/eval.cpp: jitc_assemble, jitc_run", "src/llvm_eval.cpp: jitc_llvm_assemble", "src/cuda_eval.cpp: jitc_cuda_assemble", "src/metal_eval.cpp: jitc_metal_assemble", "src/strbuf.cpp: fmt_llvm, fmt_cuda, fmt_metal", "src/llvm_ts.cpp: LLVMThreadState::launch", "src/malloc.cpp: jitc_malloc"]}
{"id": "C71", "title": "jit_var_call_reduce returns the buckets of its array and keeps them while it is in use", "statement": "jit_var_call_reduce(domain, index) returns one bucket for each value in the array: the registered instance of that number, and a variable with the positions of the value in increasing order, largest bucket first. Until the array is freed, further calls return the same memory with the same buckets and contents, whatever else is created, released, written or registered. Buckets that the client acquired stay valid after the array is freed, and when everything is released, no variable, memory or cache entry remains.", "quantifier": "all histories of creating arrays, acquiring and releasing references (also to buckets, and to buckets of buckets), jit_var_write, jit_var_call_reduce and registry operations; all contents, sizes, and sorting functions", "why_tests_cant": "lifetimes of arrays, permutations, buckets and cached results depend on the order of releases and on reused variable numbers; tests query one array once", "anchors": ["src/call.cpp: jitc_var_call_reduce, jitc_var_call_reduce_cache_remove", "src/var.cpp: jitc_var_free, jitc_var_write", "src/registry.cpp", "include/drjit-core/jit.h: jit_var_call_reduce"]}
{"id": "C72", "title": "Queries, reductions and rearrangements of arrays do not depend on how the arrays are stored", "statement": "For any sequence of calls, jit_var_any, jit_var_all, their asynchronous forms, jit_var_compress, jit_var_reduce, jit_var_block_reduce, jit_var_reduce_dot, jit_var_tile, jit_var_repeat, jit_var_reverse and jit_var_shrink give the result that the values of their operands imply, whether an operand is a literal, the default mask, an expression, memory, a view of a larger array, or memory with scatters that were not executed yet, and whichever path (constant, symbolic, evaluated) the call takes; no memory outside of allocations is touched, and all other arrays keep their values.", "quantifier": "all sequences of these calls with creations, scatters and evaluations; all values, sizes below the limits named, numbers of workers, block sizes, and arithmetics (order-independent where sums are reordered)", "why_tests_cant": "each call has a path per kind of storage, with padding of masks, partial blocks, wrapping counts and shared buffers; tests use fresh arrays of a few sizes in one or two of these states", "anchors": ["src/var.cpp: jitc_var_any, jitc_var_all, jitc_var_any_async, jitc_var_all_async, jitc_var_compress, jitc_var_block_reduce, jitc_var_tile, jitc_var_repeat, jitc_var_reduce, jitc_var_reduce_dot, jitc_var_shrink, jitc_var_reverse", "src/util.cpp: jitc_any, jitc_all", "src/init.cpp: ThreadState::block_reduce_bool", "src/llvm_ts.cpp: LLVMThreadState::reduce_dot"]}
{"id": "C73", "title": "Labels and callbacks belong to one variable and last as long as it does", "statement": "For any history of creating, acquiring, releasing and labelling variables, pushing and popping prefixes, and setting callbacks: jit_var_label returns the name last given to this variable (or the empty name of its prefix), and jit_var_graphviz draws it in the groups of the prefixes that were active then, no matter what happened to other variables or to freed ones whose number or record is reused; jit_var_set_label changes a variable in place only if the caller is its only owner, and otherwise labels a copy with the same value; releasing a reference frees exactly the variables that can no longer be reached and calls the callback of each of them once, before those of its operands.", "quantifier": "all histories of calls that use owned references, with valid names (or sole ownership), numbers as components of compound labels, and at most one callback per variable at a time", "why_tests_cant": "records are recycled through a free list, variables merged by value numbering and freed by a work list; a mix-up needs a particular interleaving of releases, reuse, merging and prefixes, and tests look at one label at a time", "anchors": ["src/var.cpp: jitc_var_free, jitc_lvn_drop, jitc_var_label, jitc_var_set_label, jitc_var_new, jitc_var_set_callback, jitc_var_copy, jitc_var_extra, jitc_var_graphviz", "src/api.cpp: jit_var_set_label", "src/init.cpp: jitc_prefix_push, jitc_prefix_pop, jitc_rebuild_prefix"]}
{"id": "C74", "title": "The mask stack: active lanes of nested conditions", "statement": "For any history of creating, evaluating, pushing, popping and applying masks: jit_var_mask_apply(index, size) returns a mask that is active in exactly the lanes in which both the argument and the mask on top of the stack are active (the latter only if its size is compatible with the operation), and on LLVM inactive in every lane that the vectorized kernel executes behind the end of the range, whatever the conditions compute there; evaluating a mask never changes what it or masks derived from it mean; jit_var_mask_peek/pop return and remove the masks in last-in first-out order and report an empty stack.", "quantifier": "all histories of legal calls, all sizes, kernels of any number of lanes, contents of memory behind arrays, both kinds of backends, constant propagation on or off", "why_tests_cant": "lanes behind the end are visible only through out of bounds accesses of particular sizes modulo the vector width; the path taken depends on literal, evaluated and scalar masks at each level of nesting", "anchors": ["src/var.cpp: jitc_var_mask_default, jitc_var_mask_peek, jitc_var_mask_push, jitc_var_mask_apply, jitc_var_mask_pop, jitc_var_resize", "src/op.cpp: jitc_var_and", "src/llvm_eval.cpp: DefaultMask"]}
{"id": "C75", "title": "Compiled LLVM kernels hold the generated code, wherever they are placed", "statement": "For any history of compilations: each kernel in memory holds exactly the bytes that LLVM stored into its sections; sections do not overlap, are aligned, keep the distances that LLVM assumed, and everything between them is zero, no matter what earlier kernels left in the reused buffer; the entry point is the address of the kernel function, and entry i of the table reached through @callables is the i-th callable; a kernel written to the disk cache and loaded at another address is the same code with the same callables.", "quantifier": "all histories of compilations, sections, alignments, orders of stores, symbols and addresses returned by the system, for code up to ten times the size of its text and below 4 GiB", "why_tests_cant": "placement depends on sizes and alignments chosen by LLVM and on the buffer left by earlier kernels; a wrong offset executes data or another callable only for particular layouts, and reloading needs a second process", "anchors": ["src/llvm_memmgr.cpp: jitc_llvm_memmgr_prepare, jitc_llvm_memmgr_allocate", "src/llvm_core.cpp: jitc_llvm_compile", "src/llvm_orcv2.cpp: jitc_llvm_orcv2_compile", "src/llvm_mcjit.cpp: jitc_llvm_mcjit_compile", "src/io.cpp: jitc_kernel_load, jitc_kernel_write"]}
{"id": "C76", "title": "The kernel history reports every launch once and nothing leaks", "statement": "While JitFlag::KernelHistory is set, jit_kernel_history returns exactly the kernels launched since the last query or jit_kernel_history_clear, in launch order, followed by an end marker inside the allocated array; each entry has its own text (if it is not a builtin kernel) and its execution time; the result is null exactly when there was no launch. If the caller frees results as documented, all memory is freed exactly once, and every reference to a task and every pair of events is released exactly once.", "quantifier": "all histories of launches on LLVM and CUDA by any threads, queries, clears and frees of results in any order, where kernels of CUDA are queried by the thread that launched them", "why_tests_cant": "errors are leaks, double frees or a missing end marker, visible only for particular numbers of launches between queries (when the array grows) or orders of queries and frees; times depend on which thread queries while kernels run", "anchors": ["src/init.cpp: KernelHistory::append, KernelHistory::get, KernelHistory::clear", "src/api.cpp: jit_kernel_history, jit_kernel_history_clear", "src/llvm_ts.cpp: submit_cpu, LLVMThreadState::launch", "src/cuda_ts.cpp: submit_gpu, CUDAThreadState::launch", "src/eval.cpp: jitc_run"]}
{"id": "C77", "title": "Migration preserves the contents of variables", "statement": "jit_var_migrate to the host or to the backend of the variable succeeds and returns a variable of the same size and backend, in memory of its own that the host (or kernels of the backend) can access, with the elements that the variable has after all work submitted before the call, including scatters that were pending; neither the contents of the original variable nor any other memory changes.", "quantifier": "all states of memory and of the queue of submitted work, literals, expressions, evaluated variables (with pending scatters), memory allocated by Dr.Jit or mapped from elsewhere, on LLVM and CUDA; host memory of Dr.Jit must not have unfinished work", "why_tests_cant": "copies are asynchronous: a missing wait is visible only when a kernel is slow enough, and each pair of memory kinds has its own code path, most of which need a GPU", "anchors": ["src/var.cpp: jitc_var_migrate", "src/malloc.cpp: jitc_malloc_migrate", "src/api.cpp: jit_var_migrate"]}
{"id": "C78", "title": "Scatters copy on write", "statement": "A scatter into an array changes what the reference it was given (and replaces) shows; every other reference to the same array keeps its contents, except when the array was stashed with jit_var_stash_ref while it had just one reference, in which case the array changes for all references until the handle is given to jit_var_unstash_ref. Nested stashes and expired handles have no effect, and arrays disappear exactly with their last reference.", "quantifier": "all histories of creation, copied and dropped references, scatters, stashes and unstashes in any order, with any choice of unused indices for new variables; fewer than 2^16 references when stashing", "why_tests_cant": "depends on exact reference counts at each scatter (with the temporary reference of the call itself); a wrong decision changes unrelated arrays of the caller, only for particular interleavings of copies, stashes and scatters", "anchors": ["src/var.cpp: jitc_var_stash_ref, jitc_var_unstash_ref, jitc_var_copy", "src/op.cpp: jitc_var_scatter", "src/internal.h: Variable::ref_count_stashed"]}
{"id": "C79", "title": "The instance variable of a recorded call is the one that was set, for as long as it is set", "statement": "jit_var_self returns the instance ID and variable of the last jit_var_set_self; while it is set, jit_var_class of that instance returns a new reference to this variable (the same index), and a literal with the instance ID for other instances and null pointers; setting another instance, or none, releases the variable but leaves it intact for all who own a reference, so that it can be restored; no variable outlives its last owner.", "quantifier": "all histories of creating, copying and dropping references, setting instances (with a variable of the caller or a new one, also the current one again), saving and restoring them, and jit_var_class, with any choice of unused indices", "why_tests_cant": "whether a stale index is used depends on which references happen to exist and which index the allocator reuses; tests use one pattern with a reference held by a guard object", "anchors": ["src/var.cpp: jitc_var_set_self, jitc_var_self", "src/api.cpp: jit_var_class"]}
