(** Stream compaction: llvm_ts.cpp:706-780 LLVMThreadState::compress. *)
From Verif Require Import Base Arith_Model Par_Model Red_Model.
Local Open Scope N_scope.

Definition U32 : ity := IT false 32.

(** llvm_ts.cpp:734-736, 757-758: range of work unit [index]. *)
Definition comp_range (block_size size index : N) : N * N :=
  let s := u32 (index * block_size) in
  (s, N.min (u32 (s + block_size)) size).

(** llvm_ts.cpp:733-743: number of set entries of the range. *)
Definition count_kernel (block_size size src scratch index : N) : prog Z :=
  let '(s, e) := comp_range block_size size index in
  loop (range_ne s e)
    (fun i acc k => Rd (src, i) (fun x => k (it_wrap U32 (acc + x)%Z))) 0%Z
    (fun acc => Wr (scratch, index) acc Ret).

(** llvm_ts.cpp:756-774.  Location [(cnt, 0)] is the host variable count_out. *)
Definition emit_kernel (block_size size : N) (scratch : option N) (src dst cnt index : N)
    : prog Z :=
  let '(s, e) := comp_range block_size size index in
  let go accum :=
    loop (range_ne s e)
      (fun i acc k => Rd (src, i) (fun x =>
         let k' := k (it_wrap U32 (acc + x)%Z) in
         if (x =? 0)%Z then k' else Wr (dst, Z.to_N acc) (Z.of_N i) k'))
      accum (fun acc => if e =? size then Wr (cnt, 0) acc Ret else Ret) in
  match scratch with
  | Some b => Rd (b, index) go
  | None => go 0%Z
  end.

(** llvm_ts.cpp:711-715 *)
Definition comp_plan (workers ideal size : N) : option (N * N) :=
  if 1 <? workers then
    if ideal =? 0 then None else Some (ideal, u32 (size + ideal - 1) / ideal)
  else Some (size, 1).

(** llvm_ts.cpp:706-780.  [fresh] is the identifier jitc_malloc returns for the
    scratch buffer (64-bit byte count); the caller sets count_out to 0 (line 717);
    the returned value is count_out after the final synchronisation. *)
Definition compress (workers ideal : N) (fuel : nat) (fresh cnt size src dst : N)
    : host (list (cmd Z)) :=
  if size =? 0 then Cmds []
  else
    match comp_plan workers ideal size with
    | None => HostFault
    | Some (bs, blocks) =>
        if 1 <? blocks then
          match block_prefix_reduce (fun x => x) (fun x => x) (iinit U32 RAdd) (ired U32 RAdd)
                  (it_wrap U32 (reduce_identity U32 RAdd)) 4 workers ideal fuel (fresh + 1)
                  blocks blocks true false fresh fresh with
          | Cmds cs =>
              Cmds (Alloc fresh blocks
                    :: Par (units blocks (count_kernel bs size src fresh))
                    :: cs ++
                    [Par (units blocks (emit_kernel bs size (Some fresh) src dst cnt));
                     Free fresh])
          | r => r
          end
        else Cmds [Par (units blocks (emit_kernel bs size None src dst cnt))]
    end.
