(** Model of the work division of an LLVM kernel launch:
    src/llvm_ts.cpp:97-167 together with the loop that the generated kernel runs
    (src/llvm_eval.cpp:95-98 and 197-205). Values are [uint32_t] unless noted. *)
From Verif Require Import Base Arith_Model.
Local Open Scope N_scope.

(** src/llvm_ts.cpp:105-142: number of blocks and block size. [w] is
    jitc_llvm_vector_width, [desired] is jitc_llvm_block_size, [cores] is
    pool_size(). Simplification: kernel parameters other than size/block size
    are irrelevant to the work division and omitted. *)
Definition launch_plan (w desired cores size : N) : option (N * N) :=
  let? packets := udiv (sub32 (u32 (size + w)) 1) w in
  if cores <=? 1 then Some (1, size)
  else if packets <=? cores then Some (packets, w)
  else if size <=? u32 (u32 (desired * cores) * 2) then
    let blocks := u32 (2 * cores) in
    let? q := udiv (sub32 (u32 (packets + blocks)) 1) blocks in
    Some (blocks, u32 (q * w))
  else
    let block_size := desired in
    let? blocks := udiv (sub32 (u32 (size + block_size)) 1) block_size in
    Some (blocks, block_size).

(** src/llvm_eval.cpp:95-98, 197-205: the loop of the generated kernel
    function, [index = start; do { body(index); index += w } while (!(index >= end))],
    in 64-bit arithmetic. The result lists the packets (first lane) executed;
    [None] means that [fuel] iterations were not enough. *)
Fixpoint kernel_loop (fuel : nat) (w index end_ : N) : option (list N) :=
  match fuel with
  | O => None
  | S f =>
      let next := u64 (index + w) in
      if end_ <=? next then Some [index]
      else let? r := kernel_loop f w next end_ in Some (index :: r)
  end.

(** src/llvm_ts.cpp:144-167: the callback run for work unit [index]. [size] and
    [block_size] travel through a 64-bit parameter, the low/high halves of
    which are extracted again. *)
Definition launch_callback (w size_param index : N) : option (list N) :=
  let size := u32 size_param in
  let block_size := u32 (N.shiftr size_param 32) in
  let start := u32 (index * block_size) in
  let end_ := N.min (u32 (start + block_size)) size in
  if end_ <=? start then Some []
  else kernel_loop (N.to_nat (end_ - start)) w start end_.

(** src/llvm_ts.cpp:170-171: packing of the parameter (64-bit). *)
Definition launch_param (block_size size : N) : N :=
  u64 (u64 (N.shiftl block_size 32) + size).

Fixpoint run_units (w param : N) (units : list N) : option (list N) :=
  match units with
  | [] => Some []
  | i :: r => let? a := launch_callback w param i in
              let? b := run_units w param r in
              Some (a ++ b)
  end.

(** src/llvm_ts.cpp:181-186: [task_submit_dep(.., blocks, callback, ..)] runs the
    callback once for each index 0..blocks-1. The thread pool (nanothread) is
    an oracle: [order] is the order in which work units are executed. *)
Definition launch (w desired cores size : N) (order : list N) : option (list N) :=
  let? plan := launch_plan w desired cores size in
  run_units w (launch_param (snd plan) size) order.
