(** Bucket permutation: llvm_ts.cpp:785-933 LLVMThreadState::block_mkperm. *)
From Verif Require Import Base Arith_Model Par_Model Red_Model.
Local Open Scope N_scope.

(** llvm_ts.cpp:798-813: number of groups, tasks per group, elements per task.
    [None]: division by zero. *)
Definition mk_plan (workers ideal size block_size : N) : option (N * N * N) :=
  let? n_blocks := ceil_div size block_size in
  if 1 <? workers then
    let tpg := u32 (workers * 4) in
    if tpg =? 0 then None else
    let task := N.max ideal (u32 (u32 (block_size + tpg) + 2 ^ 32 - 1) / tpg) in
    if task =? 0 then None else
    Some (n_blocks, u32 (u32 (block_size + task) + 2 ^ 32 - 1) / task, task)
  else Some (n_blocks, 1, block_size).

(** llvm_ts.cpp:837-842, 907-912: element range of task [index]. *)
Definition task_range (size block_size tpg task index : N) : N * N :=
  let group_start := u32 (index / tpg * block_size) in
  let start := u32 (group_start + u32 (index mod tpg * task)) in
  (start, N.min (u32 (start + task)) (N.min (u32 (group_start + block_size)) size)).

Section Mk.
(** Buffers: values, permutation, offset table (may be null), the host variable
    unique_count, the pointer array; [local t] is the histogram of task [t]. *)
Variables (src perm : N) (offsets : option N) (uc fresh : N).
Variables (size block_size bucket_count n_blocks tpg task : N).

Definition local (t : N) : N := fresh + 1 + t.

(** llvm_ts.cpp:834-852 *)
Definition hist_kernel (index : N) : prog N :=
  let '(s, e) := task_range size block_size tpg task index in
  loop (range_lt 0 bucket_count) (fun b (_ : unit) k => Wr (local index, b) 0 (k tt)) tt (fun _ =>
  loop (range_ne s e) (fun i (_ : unit) k =>
    Rd (src, i) (fun x => Rd (local index, x) (fun v => Wr (local index, x) (u32 (v + 1)) (k tt))))
    tt (fun _ => Wr (fresh, index) (local index) Ret)).

(** llvm_ts.cpp:862-893: the accumulation step, one unit. *)
Definition accum_inner (g i group_offset : N) (k : N -> prog N) : prog N :=
  loop (range_lt 0 tpg) (fun j sum k' =>
    Rd (fresh, u32 (g * tpg + j)) (fun p => Rd (p, i) (fun v =>
      Wr (p, i) (u32 (u32 (u32 (g * block_size) + group_offset) + sum)) (k' (u32 (sum + v))))))
    0 k.
Definition accum_mid (g uc0 : N) (k : N -> prog N) : prog N :=
  loop (range_lt 0 bucket_count) (fun i st k' =>
    let '(group_offset, ucl) := st in
    accum_inner g i group_offset (fun sum =>
      let next ucl' := k' (u32 (group_offset + sum), ucl') in
      match offsets with
      | Some off =>
          if (n_blocks =? 1) && (0 <? sum) then
            Wr (off, u32 (ucl * 4)) i
              (Wr (off, u32 (ucl * 4 + 1)) group_offset
                (Wr (off, u32 (ucl * 4 + 2)) sum
                  (Wr (off, u32 (ucl * 4 + 3)) 0 (next (u32 (ucl + 1))))))
          else next ucl
      | None => next ucl
      end)) (0, uc0) (fun st => k (snd st)).
Definition accum_kernel : prog N :=
  loop (range_lt 0 n_blocks) (fun g ucl k => accum_mid g ucl k) 0
    (fun ucl => Wr (uc, 0) ucl Ret).

(** llvm_ts.cpp:904-922 *)
Definition emit_kernel (index : N) : prog N :=
  let '(s, e) := task_range size block_size tpg task index in
  Rd (fresh, index) (fun p =>
    loop (range_ne s e) (fun i (_ : unit) k =>
      Rd (src, i) (fun x => Rd (p, x) (fun idx =>
        Wr (p, x) (u32 (idx + 1)) (Wr (perm, idx) i (k tt))))) tt (fun _ => Ret)).

Definition total_tasks : N := u32 (n_blocks * tpg).

(** The per-task malloc/free happen inside the tasks in the code; here all
    histograms are allocated before phase 1 and released after phase 2. *)
Definition mk_cmds : list (cmd N) :=
  Alloc fresh total_tasks
  :: map (fun t => Alloc (local t) bucket_count) (range_lt 0 total_tasks)
  ++ Par (units total_tasks hist_kernel)
  :: Par [accum_kernel]
  :: Par (units total_tasks emit_kernel)
  :: map (fun t => Free (local t)) (range_lt 0 total_tasks)
  ++ [Free fresh].
End Mk.

(** [Raise] stands for the abort of line 792. *)
Definition block_mkperm (workers ideal fresh size block_size bucket_count src perm : N)
    (offsets : option N) (uc : N) : host (list (cmd N)) :=
  if size =? 0 then Cmds []
  else if bucket_count =? 0 then Raise
  else match mk_plan workers ideal size block_size with
       | None => HostFault
       | Some (n_blocks, tpg, task) =>
           Cmds (mk_cmds src perm offsets uc fresh size block_size bucket_count n_blocks tpg task)
       end.
