# Design of the drjit-core verification

The source under study is `/repo` (mitsuba-renderer/drjit-core, pinned). Nothing
is built or run; every definition of the model was written by reading the text
of the source and cites file and lines. The artefact is a Coq 8.16.1
development in `rocq/theories` (logical prefix `Verif`).

## 1. Layout and conventions

For every area `X` there are up to four kinds of files.

* `X_Model.v` – executable Gallina transcription of the code, no proofs. Each
  definition carries a comment `(* src/file.cpp:lines *)` and names every
  simplification.
* `X_Spec.v` – a small independent specification (lists, finite maps,
  mathematical integers), not using the helpers of the model.
* `X_Proofs.v` – lemmas and invariants.
* `X_Props.v` – only the property theorems (`Cnn_...`), each closed by an
  `exact`, followed by `Print Assumptions`, and the `Example`s showing that
  the hypotheses are satisfied by a concrete non-trivial case.

Small areas merge specification and properties into one file.

Machine integers are `Z` or `N` with explicit wrap-around (`mod 2^32`,
`mod 2^64`) wherever the C++ code computes in a fixed width. Undefined
behaviour of C++ (signed overflow, out-of-bounds access, null dereference, use
after free) is a distinct outcome of the model (`UB`, `None`, `OOB`, ...), never
a default value. Exceptions (`jitc_raise`) and aborts (`jitc_fail`) are distinct
outcomes as well. The operating system, the thread pool, LLVM/CUDA and the user
callbacks are parameters (oracles) of the model; theorems quantify over all of
their behaviours that the text of the theorem allows.

A property that is false of the faithful model is settled by a theorem named
`..._refuted` with an explicit witness, and, where a restricted version is
true and useful, by a `..._partial` theorem whose comment says what is missing.

## 2. Plan per property

| id | what is modelled | how it is proved |
|----|------------------|------------------|
| C01 | variable store: slots, ref counts, operands, free worklist, value-numbering table (var.cpp 367-486, 725-931) | invariant over op lists: `ref_count = external + #dependent uses`, acyclicity, table consistency; corollaries: held handles live, no leak when nothing is held |
| C02 | slot generation counter and `WeakRef` | monotone-history invariant: pair (index, counter) identifies one creation |
| C03 | value-numbering table, key construction | invariant: every table entry points at a live slot with that key; conversely every eligible live variable of the current key is found |
| C04 | `FreeSlots` bitmap with cursor, 64-bit words | refinement to a finite set with `pop = min` |
| C05 | handles, allocations, ref counts of evaluated variables; write/read/shrink | refinement to a map handle -> value list; refutation for aliases made by shrink |
| C06 | `jitc_var_literal`, `i2v`, `v2i` as bit-vector functions | algebraic round trip |
| C07 | scope compaction | order preservation and injectivity of the renumbering |
| C08 | builders of op.cpp as functions from expressions to expressions with an evaluator | semantic preservation: eval(builder a b) = op (eval a) (eval b) for all environments |
| C09 | comparison builders including the same-handle shortcuts; floats as Flocq binary32/64 or a type with NaN | integer part proved; float `neq(a,a)` refuted |
| C10 | bit-loop implementations | proved by induction on the width |
| C11 | C++ evaluation of literals with UB outcome | refuted (signed overflow), partial theorem for unsigned types |
| C12 | expressions, environment, gather, reindex | induction over expressions; refutation for packet gathers/effects |
| C13 | skip paths of scatter_exch/cas as decision functions | refutation with witness + partial theorem for the non-skip path |
| C14 | packet splitting | induction over the recursion that splits |
| C15 | select builder | semantic preservation as in C08 |
| C16 | launch partition (llvm_ts.cpp 98-201) | partition theorem for non-wrapping sizes, refutation near 2^32 |
| C17 | block_reduce chunking | equality with per-block fold for all partitions; wrap refutation |
| C18 | prefix-reduce two-pass algorithm | equality with scan specification |
| C19 | closed forms for literals | algebra for Add/Mul/... ; refutation of Min/Max exclusive and others |
| C20 | compress | equality with `filter` |
| C21 | mkperm | stable counting sort correctness; refutation of the partial-group case |
| C22 | gemm packing, micro kernel, sweeps, batch folding | order-exact refinement to triple loop |
| C23 | early return for K=0 | refuted |
| C24 | reduce_expanded | equality with column fold |
| C25 | `divisor` | number-theoretic proof for all 32-bit x, d |
| C26 | schedule sort | equality of counting sort and stable insertion sort |
| C27 | grouping loop | partition theorem |
| C28 | traversal with visit stamps | DFS invariants |
| C29 | layout function | disjointness/alignment invariants |
| C30 | allocator state machine | invariant over op lists |
| C31 | AllocInfo encode/decode | algebra |
| C32 | aligned_malloc/mmap, round_pow2 | refuted with witnesses, partial for sane sizes |
| C33 | registry state machine | invariant over op lists |
| C34 | registry shutdown | refuted |
| C35 | digit printing | number-theoretic proof for all values |
| C36 | formatter | induction over the format string |
| C37 | SWAR search | bit-level lemma on words, induction over the string |
| C38 | move_suffix | list equality |
| C39 | terminator | refuted, partial for operations that do terminate |
| C40 | nanostl vector/string on a heap | refuted for aliasing, proved otherwise |
| C41 | cache file format | round trip + rejection |
| C42 | write protocol on a file-system model | invariant over all crash points and interleavings |
| C43 | sweep | sortedness and prefix argument |
| C44 | parse_size | refuted for signs, partial otherwise |
| C45 | lock transition system with n threads | inductive invariant over all interleavings |
| C46 | postponed log queue | inductive invariant |
| C47 | decimal printing and zero stripping | refuted |
| C48 | half conversion on bit patterns | equality with correctly rounded specification |
| C49 | array state machine | invariant |
| C50 | loop state elimination | simulation over iterations |
| C51 | get_launch_config | arithmetic |
| C52 | size inference | arithmetic |
| C53 | rollback | ref-count balance invariant |
| C54 | helpers | arithmetic + refutation at wrap points |
| C55 | watermark statistics of the allocator | invariant; refuted for moves |
| C56 | size checks of the builders | case analysis over all builders |
| C57 | half arithmetic | correct rounding of products; refuted for conversions from double |
| C58 | hourly sweep stamp | transition system of processes |
| C59 | float simplification rules | laws of neutral operands, then IEEE 754 shown to satisfy them |
| C60 | scatter-reduction kernels, threads | kernel = list of updates; commuting updates over all interleavings |
| C61 | scatter_inc kernel, threads | ranks, then permutation of consecutive numbers |
| C62 | copies of loop state on CUDA/Metal | register machine, simultaneous assignment |
| C63 | `cond_end`, generated blocks, per-thread moves | each lane gets its branch's value; exact acceptance; effects in their lanes |
| C64 | `scatter`, `eval`, `copy`, `expand_var`, `run` on whole programs | reads equal the sequential semantics on plain arrays |
| C65 | `gen`, `gen_call`, `keyed`, `assembled`, `dispatch`, `docall`, `execute` | value of the selected callee per lane (`val`, `callee`), one execution per lane |
| C66 | `record_begin`, `record_end`, `move_effects`, `exec`, `call_input`, `analyze`, `var_call` | side effects per instance (`den`), ownership (`seen`), `acceptable`, size `largest`, `captured` |
| C67 | `record`, `rec_call`, `plan_of`, `replay_op`, `replay`, `dry_run` | direct run `run` on named variables, `follows`, `output_ok`, ownership as a permutation |
| C68 | `getter`, `collect`, `mask_apply`, `and_`, `resize`, `table`, `run` | `(mask && index != 0) ? values[index-1] : 0` on what the user sees of the variables (`expected`) |
| C69 | `exec`, `run`, `render`, `value`, `llvm_mat`, `metal_mat`, `atomics`, `perform`, `compute_layout`, `pack_matrices` | `meaning` of a call on vectors as functions of the lane, `additions` by lane and their `total`, `place` of matrix elements |
| C70 | `allocate`, `generate`, `exec`, `run`, `llvm_units`, `gpu_units`, `run_cached` | `means`: value of a variable in a lane, defined on the recorded variables alone; `launched_ok` on memory and effects |
| C71 | `new_var`, `dec`, `write`, `make_buckets`, `call_reduce`, `step` | `splits`: positions of each value and its instance; `effect` on a client that knows only its references, values and registrations; `good`, `kept`, `served` |
| C72 | `var_query`, `var_query_async`, `reduce_bool`, `var_compress`, `var_reduce`, `var_block_reduce`, `var_reduce_dot`, `gather`, `var_tile`, `var_repeat`, `var_reverse`, `var_shrink`, `var_scatter`, `var_eval`, `step`, `run` | `spec`: arrays are their values; `specs` on sequences; `legals`: conditions; `holds`, `reads` |
| C73 | `var_new`, `var_extra`, `drop`, `dec_all`, `free`, `dec_ref`, `var_copy`, `set_label`, `label`, `pieces`, `joined`, `prefix`, `step` | `effect` on a client that knows its references and, per variable, how it is computed, its label (prefixes, name) and callback; `reach`; `holds`: values; `served` |
| C74 | `val`, `mask_default`, `resize`, `var_and`, `mask_apply`, `eval`, `step` | `lane`, `top`, `lanes`: masks as functions of the lane; `legal`, `effect` on a client that knows its masks and the stack; `shows`: values in kernels, with lanes behind the end; `served` |
| C75 | `prepare`, `allocate`, `events`, `resolve`, `link`, `compile`, `kernel_write`, `kernel_load`, `code`, `callee` | `Placed`: sections at the first aligned position; `stored`: last byte stored; `legal`, `system`; `carries`: bytes, alignment, gaps, entry points, callables; `same_layout`; `served` |
| C76 | `grow`, `append`, `launch`, `sync`, `finalize`, `get`, `release`, `clear`, `client_free`, `step` | `client`: launches since the last query, results not yet freed; `legal`, `effect`; `reports`: entry of a launch; `shows`: results in memory, nothing left at the end; `served` |
| C77 | `exec`, `run`, `malloc`, `submit`, `memcpy`, `malloc_migrate`, `eval`, `var_migrate` | `final`: memory after all submitted work; `elements` of a variable; `sane`, `legal`; `usable`; `migrated` |
| C78 | `var_new`, `inc_ref`, `dec_ref`, `stash_ref`, `unstash_ref`, `scatter`, `step`, `value` | `client`: references, contents of arrays, whether stashed with one reference; `owners`, `contents`; `legal`, `effect`, `shows`, `served` |
| C79 | `var_new`, `inc_ref`, `dec_ref`, `release`, `set_self`, `self`, `class`, `step` | `client`: variables of references, contents, current instance; `legal`, `unused`, `effect`; `shows`: contents, equality of indices, instance, no leaks; `served` |

Thread interleavings of the *generated machine code*, LLVM/CUDA code
generation, float rounding of GPU instructions and wall-clock behaviour are out
of reach of the model; where a property touches them the note in
`MANIFEST.json` says so.

## 3. Trusted base

* The Coq 8.16.1 kernel, including `vm_compute`.
* The axioms that `Print Assumptions` lists for a theorem. None of the theorems
  depends on any (section 6). The libraries loaded through `lia`/`Zify` bring
  seven constants of `Coq.ssr.ssrunder.Under_rel` into the environment, which
  `coqchk` lists; no theorem uses them.
* The reading of the C++ source: the model is tied to the code by the cited
  lines only.
* The specifications (`*_Spec.v` and the statements in `*_Props.v`).

Outside of the model, and trusted where a theorem needs them:

* nanothread runs every work unit of a task once and respects dependencies;
* the C++ memory model gives sequential consistency to race-free programs
  (absence of races is proved for the kernels of `Red`, `Comp`, `Mkperm`, `Exp`);
* LLVM, PTX and MSL instructions behave as their documentation says; the
  generated text itself is modelled only where an area says so (packet
  operations, scatter-reductions, loops, arrays, atomic exchanges);
* the file system calls, `malloc`/`mmap`, XXH3 and LZ4 are parameters;
* the CUDA and Metal backends, OptiX, ray tracing, textures, cooperative
  vectors, virtual function call *tracing* (as opposed to their data layout),
  and the frozen function machinery apart from launch sizes are not modelled.

## 4. What is modelled, by area

| area | source | left out |
|------|--------|----------|
| `Arith` | common.h helpers, internal.h launch configuration | – |
| `Launch` | llvm_ts.cpp 97-201 and the loop of a kernel (llvm_eval.cpp 95-98, 197-205) | the thread pool |
| `FreeSlots` | free_slots.h | – |
| `Alloc` | malloc.h, malloc.cpp | device synchronisation; addresses come from an oracle |
| `Registry` | registry.cpp | strings are numbers |
| `Str` | strbuf.cpp, strbuf.h incl. the three formatters | `vsnprintf` |
| `Var` | var.cpp: creation, reference counts, value numbering, weak references, scopes, read/write/shrink/resize/copy | labels, callbacks, dirty bits |
| `Sched` | eval.cpp 864-923 and the grouping into kernels | – |
| `Trav` | eval.cpp 75-347, first part of `jitc_eval_impl` | – |
| `Rb` | eval.cpp 928-1360, reference counting and buffers on failures | code text |
| `Par` | llvm_ts.cpp 13-47, tasks and interleaved work units | – |
| `Red` | llvm_ts.cpp 265-460, llvm_red.h 80-175 | element types are abstract |
| `Comp`, `Mkperm`, `Exp` | llvm_ts.cpp 706-780, 785-933, 1009-1106 | per-task malloc |
| `Gemm` | util.cpp 69-151, util.h, llvm_gemm.h, llvm_ts.cpp 515-704, var.cpp 2757-2806 | SIMD intrinsics; arithmetic is a parameter |
| `Op`, `OpF` | op.cpp 76-1612, 1823-1896, node semantics of llvm_eval.cpp 523-1005 | reference counts; transcendental functions |
| `Lred` | var.cpp 2416-2516, 2654-2711, 2807-2864 (literals) | `std::pow` is a parameter |
| `Lay` | call.cpp 175-295, 493-528, 735-795, 1101-1219, call.h, llvm_packet.cpp 188-330 | other backends' loads |
| `Gat` | op.cpp 1901-2380 | symbolic recording, mask stack |
| `Pkt` | llvm_packet.cpp 21-155, 303-470, op.cpp 3088-3325 (decisions) | – |
| `Sred` | llvm_scatter.cpp 58-88, 165-580 | the `undef` parts |
| `Axc` | llvm_scatter.cpp 581-748, op.cpp 2477-2727 | copies of the target |
| `Lup`, `Cpy` | loop.cpp, llvm_eval.cpp 1155-1206, cuda_eval.cpp 489-574, 1372-1412, metal_eval.cpp 793-884, eval.cpp 185-208 | side effects and arrays in loops |
| `Cnd` | cond.cpp 54-226, llvm_eval.cpp 1211-1290, cuda_eval.cpp 1414-1452, metal_eval.cpp 895-935 | code of the branches, arrays |
| `Arr` | array.cpp, llvm_array.cpp, eval.cpp 456-466, llvm_eval.cpp 84-194 | one lane; loops and conditionals |
| `Frz` | record_ts.cpp 183-213, 672-990 | everything but sizes |
| `Lock` | lock.h 118-324, log.cpp 72-126 | std::mutex variant |
| `Cac` | io.cpp, kernel cache files and sweep | system errors are oracles |
| `Half` | half.h 130-178 and products | F16C / aarch64 instructions |
| `Fmt` | log.cpp 205-252 | `log10` is a parameter |
| `Sct` | op.cpp 2826-3086, var.cpp 1199-1340, 1543-1728, 1880-1926, 2866-2931, eval.cpp 159-166, 1033-1150 | element types, Permute/NoConflicts, mask stack, loops, calls; reference counts are computed; thread copies are abstracted |
| `Vcl` | call.cpp 418-432, 536-560, 783-1096, eval.cpp 209-240, 1219-1360, llvm_eval.cpp 231-242, 304-505, 1691-1893, cuda_eval.cpp 228-457, 1771-2025 | shared subexpressions are duplicated; hash assumed injective; liveness given; text of operations abstract; loops, Metal, OptiX |
| `Rec` | api.cpp 236-294, var.cpp 1068-1098, 1369-1384, call.cpp 297-640, 990-1096, eval.cpp 93-100, 422 | variables reduced to type, size, operands, stamp, flags; jitc_eval only clears dirty flags; Debug mode, several backends, getters |
| `Rpl` | record_ts.cpp: recording, slots, sizes, memory and outputs of replays (launch sizes from `Frz`) | expand, reduce_expanded, gemm, pointer entries of aggregations, pausing, resources; undefined contents are a fixed value; devices are functions of operation and contents |
| `Gtr` | call.cpp jit_var_call_getter, mask stack (var.cpp mask_apply), loads of LLVM/CUDA/Metal; tables in the shared buffer of `Lay` | Metal double precision, undefined or consumed variables, symbolic masks, effects issued between creation and evaluation |
| `Cov` | coop_vec.cpp, llvm_coop_vec.cpp, metal_coop_vec.cpp (scalar code), matrix packing of llvm_ts.cpp, resizing of vectors; element arithmetic is a parameter, instantiated with IEEE 754 in Cov_Ieee.v | OptiX, Metal 4 tensors, merging of equal nodes, effects inside callables, releases, rounding of sums |
| `Asm` | eval.cpp 349-545, 602-606 (parameters, registers, outputs), llvm_eval.cpp, cuda_eval.cpp, metal_eval.cpp (assembly loop, literals, counters, masks), directives of strbuf.cpp, execution by concurrent workers, kernel cache of jitc_run | characters of the text, code of single operations (a parameter), loops, conditionals, arrays, callables, OptiX, compilers; statements of one variable are atomic |
| `Crd` | call.cpp 1247-1389 (buckets and their cache), release of variables with owned or borrowed memory, jit_var_write, with the registry of `Registry` | evaluation, Debug check, wrap of counters; the permutation is that of `Mkperm`, std::sort is a parameter |
| `Agg` | var.cpp 1966-1997, 2294-2414, 2466-2609, 2654-2755, 3039-3053; util.cpp 153-214; init.cpp 919-942; llvm_ts.cpp 265-350, 479-513 | reference counts, symbolic variables, other backends; unevaluated variables are functions of the lane; kernels run at once |
| `Lab` | var.cpp 364-478, 614-681, 725-870, 1340-1356, 1880-1926, 2193-2211, 3150-3212 (groups); api.cpp 1064-1116; init.cpp 619-659 | one backend; reference counters are unbounded; the fields seen by value numbering are one number plus kind and operands; callbacks do not call the library; numbers start at 0 with none as `None` |
| `Msk` | var.cpp 1999-2052, 2176-2190, 2213-2281; op.cpp 1460-1485; llvm_eval.cpp 1092-1106 | masks only; conditions are arbitrary functions of the lane, also behind the end; sole ownership of the argument is an input; no merging of nodes; one thread |
| `Img` | llvm_memmgr.cpp 17-90; llvm_core.cpp 420-555; llvm_orcv2.cpp 89-135; llvm_mcjit.cpp 111-140; io.cpp 370-415, 465-487; llvm_eval.cpp 213, 1716, 1859 | LLVM is a sequence of section requests and stores, then positions of symbols; malloc and mmap return arbitrary legal addresses and contents; no compression, checksums, page protection |
| `Khi` | init.cpp 777-864; api.cpp 1429-1438; llvm_ts.cpp 32-43, 194-198; cuda_ts.cpp 22-46, 55-60, 119-123; eval.cpp 691-712, 840-849 | LLVM and CUDA; what an entry reports is a number; a kernel has one task reference or event pair; CUDA calls succeed, except that the time of a running kernel is not available; malloc returns fresh blocks; one lock, hence no interleaving inside a call |
| `Mig` | var.cpp 2056-2174, 1714-1728; malloc.cpp 314-431 | LLVM and CUDA, one device, one thread; memory is blocks of elements, not freed or reused; one queue of work for the backend of the variable; work of another backend concerns new blocks only |
| `Cow` | var.cpp 367-402, 501-550, 572-591, 725-806, 1880-1926 (evaluated); op.cpp 2998-2999 | evaluated variables, scatters of one element that are done at once, any unused index for a new variable, counters do not wrap |
| `Slf` | var.cpp 2609-2639, 489-498, 514-518, 553-556, 572-591; api.cpp 829-839 | one thread and backend; equal literals are not merged; any unused index for a new variable; counts do not wrap; no copies of the thread state |
| `Nst` | nanostl.h strings, vectors, numbers | size_t wrap-around, failing `new` |

## 5. Disagreements between the properties and the code

Each is a theorem with a concrete witness. Where a restricted claim holds, it
is proved next to it.

| theorem | what happens |
|---------|--------------|
| `C01_side_effect_overflow_refuted` | the 16-bit count of pending side effects wraps after 65536 write pointers; the array is freed while referenced |
| `C03_stale_entry_refuted` | `jit_array_write` edits an operand of a node in the value-numbering table; the entry goes stale |
| `C04_double_release_out_of_bounds_refuted` | releasing a slot twice makes the search leave the bitmap (client obligation) |
| `C05_write_view_refuted`, `C05_shrink_undefined_refuted` | writing through a `jit_var_shrink` view changes the original; shrinking an uninitialised variable leaves a dangling pointer |
| `C07_advance_refuted`, `C07_saved_scope_refuted` | `jit_advance_scope` saturates; scopes saved by the caller are not renumbered |
| `C08_copysign_refuted`, `C10_mul_hi_refuted` | two integer literals (`copysign`; 8/16-bit `mul_hi`) abort the process |
| `C09_neq_self_refuted`, `C09_neq_nan_refuted` | `x != x` folds to false; `fcmp one` is false on NaN |
| `C11_folding_refuted` | constant folding has signed overflow (undefined) |
| `C12_division_refuted`, `C12_packet_refuted`, `C12_increment_refuted` | a re-indexed gather divides by zero or reads out of bounds in masked lanes, or repeats an atomic increment |
| `C13_unmasked_refuted` | with a literal mask `true`, invalid IR is generated for exchange/compare-and-swap |
| `C13_exch_shortcut_refuted`, `C13_cas_shortcut_refuted`, `C13_empty_refuted` | shortcuts return the target (wrong size) or nothing; empty operands are dereferenced |
| `C14_scatter_unaligned_refuted` | a packet scatter to unaligned mapped memory declares aligned stores |
| `C16_*_refuted`, `C17_large_refuted`, `C20_large_refuted`, `C51_*_refuted`, `C54_*_refuted` | 32-bit wrap of block counts next to 2^32: nothing is done, or a division by zero |
| `C18_api_swapped_refuted` | api.cpp:1331 swaps size and block size |
| `C18_copy_wraps_refuted` | byte count of an 8-byte copy wraps |
| `C19_*_refuted` | closed forms for literals: exponent converted to the element type, signed overflow, reversed partial blocks, exclusive minimum, block count |
| `C21_partial_group_refuted` | a task starts behind the end when the last group is short |
| `C22_*_refuted`, `C23_refuted` | gemm: division by zero, wrapped grid counts, empty reductions and `K = 0` leave the result unwritten |
| `C24_pool_change_refuted` | the expansion factor is recomputed from the current number of workers |
| `C28_*_refuted` | nested calls, call inputs, and operands outside of `dep` can come after their users |
| `C30_refused_mmap_refuted`, `C32_*_refuted`, `C55_move_refuted`, `C31_large_refuted` | refused `mmap` is treated as success; huge requests; statistics |
| `C34_*_refuted` | the pointer table survives `jit_registry_clear`/shutdown |
| `C39_terminated_refuted` | some buffer operations leave the text without terminator |
| `C40_*_refuted` | self-assignment empties a string; appending from one's own buffer, `push_back` of one's own element, printing the most negative integer are undefined |
| `C41_total_refuted`, `C42_same_pid_refuted`, `C44_strict_refuted`, `C58_once_refuted` | kernel cache: offsets in a file are trusted; temporary files of equal pids collide; `" -5"` is a size; two sweeps within an hour |
| `C46_*_refuted` | order of postponed messages; a deferred flush is not repeated |
| `C47_refuted` | trailing zeros in front of the point are stripped: 10 B is shown as `1 B` |
| `C49_*_refuted` | arrays: use of an initialised array after a write to it, evaluation between two writes, masked reads of initialised arrays |
| `C50_abort_refuted` | a loop whose state does not fit is recorded and aborts at evaluation |
| `C52_*_refuted` | replayed launch sizes are rounded, reset to the recorded size, or wrap |
| `C53_*_refuted` | a reference of the side-effect queue and temporary buffers leak on failures |
| `C56_empty_refuted` | `mod`/`select` of empty handles dereference null; `mul_wide` raises |
| `C57_double_refuted` | `half(double)` rounds twice |
| `C59_*_refuted` | `x + 0` for `x = -0`; division by a literal multiplies by the reciprocal |
| `C60_*_refuted` | masked lanes contribute at addresses that are multiples of 2^34; NaN; lost updates with `NoConflicts`; 32-lane vectors give invalid IR |
| `C63_*_refuted` | conditionals: dirty value of the false branch wins in all lanes; scalar condition with array branches aborts; mixed types accepted; leak and double release on errors |
| `C64_*_refuted` | scatter then reduction onto thread copies (LLVM default) loses the first; set/add or add/max in one evaluation are reordered; a dirty operand makes later contributions stay in thread copies; target as mask aborts on GPU backends |
| `C65_*_refuted` | calls: a scalar that is both argument and captured makes code refer to a missing register; MergeFunctions off: calls with a single instance run each other's callee; CUDA calls some callable for an unused index |
| `C66_*_refuted` | calls: size of a literal argument overwritten by the stamp of a nested call; mask stack larger than a scalar call and contradicting argument sizes are accepted and abort later; jit_record_begin's value is not a valid checkpoint |
| `C67_*_refuted` | frozen functions: input of 4 GiB or more is truncated; an output not computed inside is silently dropped and later outputs move; the same output twice is owned (freed) twice; kernels on shrunk variables and partial copies replay at full size; a constant written by memset and captured by a call is lost; memset on an input can free the caller's memory |
| `C68_*_refuted` | getters: a dirty index is not evaluated first; index shorter than the mask is accepted and read out of bounds; mask stack (also gathers): scalar evaluated mask on the stack leaves lanes past the end active on LLVM, since mask_apply tests the size of the operation, not of the stack mask |
| `C69_*_refuted` | cooperative vectors: LLVM matvec ignores the row stride; adding a wide zero (or multiplying by a wide one) changes the size of the other operand in place, or gives invalid LLVM code if it is shared; signed integers are converted as unsigned, same-size integer casts and integer min/max/step/fma give invalid code; unary operations abort on LLVM; pack accepts different sizes and reads out of bounds; loads ignore pending effects and bounds; lengths cut to 16 bit; outer product offsets wrap at 2^30 floats, packing at 4 GiB |
| `C70_*_refuted` | kernels: vectors of 64-bit values at LLVM width 16 are accessed with `align 128`, but memory is only aligned to 64 bytes; padding lanes of the last vector execute integer divisions by whatever is behind the array |
| `C71_*_refuted` | jit_var_call_reduce: its cache is keyed by the variable alone and not cleared by writes or registry changes: stale buckets after an in-place jit_var_write, instances of another domain, pointers of removed instances; values out of range are not checked |
| `C72_*_refuted` | jit_var_any/all of a view made by jit_var_shrink overwrite up to three entries of the original array; of mapped memory they write behind it; above 2^32-4 entries or for undefined masks they return garbage; jit_var_reduce_dot of an evaluated array with a literal of the same size uses the literal as address, and above 2^32-16384 entries sums only the first block; jit_var_block_reduce with a block larger than the array fails only if the array is evaluated; jit_var_shrink of an array with scatters that were not executed shows old values |
| `C73_*_refuted` | jit_var_set_label with several components writes `[x][y]` for names, since api.cpp:1080 tests `s[0] >= '0' \|\| s[1] <= '9'` instead of a digit, and reads behind the end of empty components; with an invalid name and a variable that has other owners it leaks a copy; variables merged by value numbering keep the prefix of the first one |
| `C74_*_refuted` | jit_var_mask_apply: an evaluated scalar mask, or a condition not made by jit_var_mask_apply, on the stack leaves lanes behind the end active on LLVM; a constant mask of size N on the stack changes the size of the caller's scalar argument in place |
| `C75_*_refuted` | LLVM memory manager: padding is cleared before the size is tested, hence behind the end of the buffer; after posix_memalign failed (exception) the freed buffer is used or freed again; kernel.size is cut to 32 bit; section alignment above 4096 is lost |
| `C76_*_refuted` | jit_kernel_history waits for its own thread only, hence CUDA kernels of other threads that still run are reported without execution time (cuEventElapsedTime is not checked); the loop documented in jit.h dereferences a null pointer when the history is empty |
| `C77_*_refuted` | jit_var_migrate always copies (documented: same index for identical source and target); host memory of an LLVM variable (for example of a migrated literal) is copied by memcpy while a kernel that scatters to it may still run; literals are migrated from LLVM to GPU memory without the check that applies to evaluated variables |
| `C78_width_refuted` | jitc_var_stash_ref: ref_count (32 bit) is cut to 16 bit; with 65537 references the stashed count is 1 and scatters write in place although others own the array |
| `C79_borrowed_refuted` | jit_var_self returns an index without a reference; jit_var_set_self gives up the old reference before it takes the new one, so even passing the current index back terminates the process, and a saved index may belong to another variable by then |

## 6. `Print Assumptions` per theorem

Every theorem is printed by `Print Assumptions` as "Closed under the global context", i.e. it uses no axiom at all. The list:

* `Agg_Props.v`: `C72_histories`, `C72_evaluated`, `C72_view_refuted`, `C72_query_refuted`, `C72_dot_constant_refuted`, `C72_dot_size_refuted`, `C72_block_refuted`, `C72_dirty_refuted`
* `Alloc_Props.v`: `C30_client_history`, `C30_system_contract`, `C30_backed`, `C30_usage`, `C30_reuse_matches`, `C30_refused_mmap_refuted`, `C31_round_trip`, `C31_injective`, `C31_large_refuted`, `C32_commit_partial`, `C32_no_exception_refuted`, `C32_huge_refuted`, `C32_statistics_refuted`, `C54_round_pow2`, `C54_round_pow2_refuted`, `C55_watermark_partial`, `C55_move_refuted`
* `Arith_Props.v`: `C25_divisor_exact`, `C51_launch_config_covers_partial`, `C51_launch_config_covers_refuted`, `C54_ceil_div_partial`, `C54_ceil_div_wraps_refuted`, `C54_align_up_partial`, `C54_align_up_wraps_refuted`, `C54_log2i_ceil`
* `Arr_Props.v`: `C49_write`, `C49_read_partial`, `C49_kernel_partial`, `C49_init_refuted`, `C49_eval_refuted`, `C49_masked_read_refuted`
* `Asm_Props.v`: `C70_llvm_launch`, `C70_gpu_launch`, `C70_assembles`, `C70_written`, `C70_text_shared`, `C70_cache_own`, `C70_cache_once`, `C70_alignment_refuted`, `C70_padding_refuted`
* `Axc_Props.v`: `C13_code`, `C13_unmasked_refuted`, `C13_threads`, `C13_one_winner`, `C13_sizes_partial`, `C13_cas_sizes_partial`, `C13_exch_shortcut_refuted`, `C13_cas_shortcut_refuted`, `C13_empty_refuted`
* `Cac_Props.v`: `C44_accepts`, `C44_sound_partial`, `C44_strict_refuted`, `C41_round_trip`, `C41_accepts_only`, `C41_altered`, `C41_total_refuted`, `C42_atomic`, `C42_stable`, `C42_publishes`, `C42_same_pid_refuted`, `C43_only_entries`, `C43_untouched`, `C43_oldest`, `C43_budget`, `C43_minimal`, `C43_entries`, `C58_hourly_partial`, `C58_once_refuted`
* `Cnd_Props.v`: `C63_accepts`, `C63_llvm_partial`, `C63_llvm_blocks`, `C63_thread_partial`, `C63_thread_branch`, `C63_shape_partial`, `C63_effects`, `C63_effects_all_or_raise`, `C63_effects_owned`, `C63_effect_lanes`, `C63_dirty_refuted`, `C63_scalar_condition_refuted`, `C63_type_refuted`, `C63_literal_size_refuted`, `C63_leak_refuted`, `C63_double_release_refuted`
* `Comp_Props.v`: `C20_compress_partial`, `C20_active_spec`, `C20_large_refuted`
* `Cov_Props.v`: `C69_values_partial`, `C69_effects_partial`, `C69_ieee`, `C69_pack_matrices_partial`, `C69_layout`, `C69_stride_refuted`, `C69_resize_operand_refuted`, `C69_resize_code_refuted`, `C69_signed_cast_refuted`, `C69_same_size_cast_refuted`, `C69_integer_ops_refuted`, `C69_integer_fma_refuted`, `C69_unary_refuted`, `C69_pack_sizes_refuted`, `C69_load_bounds_refuted`, `C69_load_pending_refuted`, `C69_length_refuted`, `C69_outer_offset_refuted`, `C69_pack_offset_refuted`
* `Cow_Props.v`: `C78_histories`, `C78_width_refuted`
* `Cpy_Props.v`: `C62_simultaneous`, `C62_declared_once`, `C62_mixed_refuted`
* `Crd_Props.v`: `C71_histories`, `C71_stale_write_refuted`, `C71_other_domain_refuted`, `C71_removed_instance_refuted`, `C71_range_refuted`
* `Exp_Props.v`: `C24_reduce_expanded`, `C24_expand_accumulate_reduce`, `C24_pool_change_refuted`
* `Fmt_Props.v`: `C47_text_partial`, `C47_refuted`
* `FreeSlots_Props.v`: `C04_free_slots_refine_min_set`, `C04_double_release_out_of_bounds_refuted`
* `Frz_Props.v`: `C52_same`, `C52_ratio_partial`, `C52_inexact_refuted`, `C52_zero_refuted`, `C52_overflow_refuted`, `C52_scalar_refuted`
* `Gat_Props.v`: `C12_shape`, `C12_active`, `C12_inactive_partial`, `C12_padding_partial`, `C12_no_fault`, `C12_division_refuted`, `C12_packet_refuted`, `C12_increment_refuted`, `C14_gather`, `C14_depth`
* `Gemm_Props.v`: `C22_entries_partial`, `C22_size`, `C22_both_transposed`, `C22_near_limit_refuted`, `C22_grid_wraps_refuted`, `C22_empty_reduction_refuted`, `C22_empty_grid_refuted`, `C23_unwritten`, `C23_refuted`, `C23_backend`
* `Gtr_Props.v`: `C68_values`, `C68_checks`, `C68_pending_index_refuted`, `C68_short_index_refuted`, `C68_scalar_stack_mask_refuted`
* `Half_Props.v`: `C48_float_to_half`, `C48_special`, `C48_half_to_float`, `C48_round_trip`, `C57_product`, `C57_double_refuted`
* `Img_Props.v`: `C75_histories`, `C75_reload`, `C75_disjoint`, `C75_overflow_refuted`, `C75_dangling_refuted`, `C75_size_refuted`, `C75_align_refuted`
* `Khi_Props.v`: `C76_histories`, `C76_time_refuted`, `C76_loop_refuted`
* `Lab_Props.v`: `C73_histories`, `C73_values`, `C73_join_refuted`, `C73_empty_refuted`, `C73_leak_refuted`, `C73_prefix_refuted`
* `Launch_Props.v`: `C16_launch_exactly_once_partial`, `C16_launch_exactly_once_refuted`, `C16_launch_block_count_refuted`
* `Lay_Props.v`: `C29_layout`, `C29_packet_loads`, `C29_buffer`, `C29_readback`, `C29_getters`
* `Lock_Props.v`: `C45_mutual_exclusion`, `C45_no_race`, `C45_nesting`, `C45_free`, `C45_progress`, `C46_once`, `C46_outside`, `C46_complete`, `C46_order_partial`, `C46_order_nested_refuted`, `C46_order_threads_refuted`, `C46_deferred_refuted`
* `Lred_Props.v`: `C19_reduce_partial`, `C19_empty`, `C19_block_reduce_partial`, `C19_prefix_sum_partial`, `C19_prefix_minmax_partial`, `C19_product_refuted`, `C19_sum_refuted`, `C19_reverse_refuted`, `C19_exclusive_min_refuted`, `C19_block_count_refuted`
* `Lup_Props.v`: `C50_vector`, `C50_vector_ends`, `C50_thread`, `C50_needed`, `C50_needed_ends`, `C50_new_sizes`, `C50_initial_sizes`, `C50_accepts`, `C50_abort_refuted`
* `Mig_Props.v`: `C77_migrated`, `C77_identity_refuted`, `C77_stale_refuted`, `C77_literal_refuted`
* `Mkperm_Props.v`: `C21_mkperm_partial`, `C21_bucket_sorted_spec`, `C21_partial_group_refuted`
* `Msk_Props.v`: `C74_histories`, `C74_constant`, `C74_scalar_refuted`, `C74_user_refuted`, `C74_size_refuted`
* `Nst_Props.v`: `C40_string_partial`, `C40_string_memory`, `C40_self_assign_empties`, `C40_self_assign_refuted`, `C40_pointer_append`, `C40_pointer_append_refuted`, `C40_vector_partial`, `C40_push_own`, `C40_push_own_refuted`, `C40_number_partial`, `C40_number_refuted`
* `OpF_Props.v`: `C08_literal_division`, `C59_ieee`, `C59_binary`, `C59_division_partial`, `C59_reciprocal`, `C59_fma`, `C59_zero_sum_refuted`, `C59_division_refuted`
* `Op_Props.v`: `C08_binary_partial`, `C08_unary_partial`, `C08_bitwise`, `C08_not_bool`, `C08_mask`, `C08_fma_partial`, `C08_mul_wide`, `C08_cast`, `C08_copysign_partial`, `C08_copysign_refuted`, `C09_compare_partial`, `C09_neq_self_refuted`, `C09_neq_nan_refuted`, `C10_bits`, `C10_mul_hi_partial`, `C10_mul_hi_refuted`, `C11_binary_iff`, `C11_unary_iff`, `C11_folding_refuted`, `C15_select`, `C56_sizes`, `C56_empty_partial`, `C56_empty_refuted`
* `Pkt_Props.v`: `C14_gather_code`, `C14_scatter_code`, `C14_scatter_skip`, `C14_scatter_aligned`, `C14_scatter_unaligned_refuted`
* `Rb_Props.v`: `C53_failure`, `C53_success_partial`, `C53_upload_refuted`, `C53_late_elision_refuted`
* `Rec_Props.v`: `C66_recorded`, `C66_argument`, `C66_argument_kept`, `C66_inputs`, `C66_accepts`, `C66_results_partial`, `C66_stashed_size_refuted`, `C66_mask_stack_refuted`, `C66_sizes_refuted`, `C66_begin_checkpoint_refuted`
* `Red_Props.v`: `C17_block_reduce_partial`, `C17_block_reduce_int_partial`, `C17_block_reduce_invalid`, `C17_large_refuted`, `C18_prefix_reduce_partial`, `C18_prefix_reduce_int_partial`, `C18_copy_wraps_refuted`, `C18_api_swapped_refuted`, `C18_api_whole`
* `Registry_Props.v`: `C33_registry_refines_spec`, `C33_get_pointers_in_bounds`, `C34_reregister_refuted`, `C34_remove_out_of_bounds_refuted`, `C34_clean_shutdown_partial`
* `Rpl_Props.v`: `C67_replay`, `C67_placement`, `C67_rejects`, `C67_dry_run`, `C67_type_sizes`, `C67_large_input_refuted`, `C67_lost_output_refuted`, `C67_repeated_output_refuted`, `C67_shrink_refuted`, `C67_partial_copy_refuted`, `C67_constant_in_call_data_refuted`, `C67_memset_input_refuted`
* `Sched_Props.v`: `C26_schedule_sort`, `C27_partition`
* `Sct_Props.v`: `C64_functional_partial`, `C64_numbers_partial`, `C64_set_then_expand_refuted`, `C64_direct_then_expand_refuted`, `C64_set_then_add_refuted`, `C64_add_then_max_refuted`, `C64_dirty_operand_refuted`, `C64_value_is_target_refuted`, `C64_mask_is_target_refuted`
* `Slf_Props.v`: `C79_histories`, `C79_borrowed_refuted`
* `Sred_Props.v`: `C60_reduce_partial`, `C60_ends`, `C60_masked_lanes_refuted`, `C60_width_refuted`, `C60_nan_refuted`, `C60_noconflict_refuted`
* `Sred_Props_Inc.v`: `C61_results`, `C61_distinct`, `C61_ends`, `C61_single`, `C61_masked`
* `Str_Props.v`: `C35_numeral_denotes`, `C35_numeral_no_leading_zero`, `C35_padded_denotes`, `C35_w_u32`, `C35_w_u64`, `C35_w_x64`, `C35_w_q64`, `C36_fmt_llvm`, `C36_fmt_cuda`, `C36_fmt_metal`, `C37_run`, `C38_move_suffix`, `C39_contents`, `C39_terminated_partial`, `C39_terminated_refuted`
* `Trav_Props.v`: `C28_collect`, `C28_kernels`, `C28_levels_refuted`, `C28_other_operands_refuted`, `C28_call_inputs_refuted`
* `Var_Props.v`: `C01_no_failure`, `C01_held_live`, `C01_live_reachable`, `C01_exact_counts`, `C01_no_leak`, `C01_side_effect_overflow_refuted`, `C02_weak_reference`, `C03_merge_sound`, `C03_no_duplicates`, `C03_stale_entry_refuted`, `C05_write_partial`, `C05_read`, `C05_shrink`, `C05_write_view_refuted`, `C05_shrink_undefined_refuted`, `C06_literal_reads_back`, `C07_new_scope`, `C07_advance_refuted`, `C07_saved_scope_refuted`
* `Vcl_Props.v`: `C65_generates`, `C65_values`, `C65_values_nomerge`, `C65_once`, `C65_devirtualized`, `C65_registers`, `C65_shared_refuted`, `C65_nomerge_refuted`, `C65_unknown_id_refuted`
