(** Model of the arithmetic helpers of src/common.h and of the launch
    configuration heuristic of src/internal.h. All values are C++ [uint32_t],
    i.e. [N] reduced modulo 2^32 after every operation. [None] is a division by
    zero (undefined behaviour). *)
From Verif Require Import Base.
Local Open Scope N_scope.

Definition udiv (a b : N) : option N := if b =? 0 then None else Some (a / b).

(** src/common.h:108-110 *)
Definition ceil_div (a b : N) : option N := udiv (sub32 (u32 (a + b)) 1) b.

(** src/common.h:112-115 *)
Definition align_up (x a : N) : option N :=
  let? q := ceil_div x a in Some (u32 (q * a)).

(** src/common.h:130-141 [log2i_ceil]; [32 - __builtin_clz x] for nonzero [x]
    is the number of significant bits of [x]. *)
Definition log2i_ceil (x : N) : N :=
  if x <=? 1 then 0 else let y := x - 1 in 32 - (32 - N.size y).

(** src/common.h:145-150, the fields of [struct divisor]. *)
Record divisor := mkDiv { dv_magic : N; dv_shift : N; dv_value : N }.

(** src/common.h:153-154: [for (tmp = value; tmp > 1; tmp >>= 1) shift++].
    [fuel] bounds the number of iterations; 32 always suffices for a 32-bit
    value ([None] = fuel exhausted). *)
Fixpoint dv_shift_loop (fuel : nat) (tmp sh : N) : option N :=
  match fuel with
  | O => None
  | S f => if 1 <? tmp then dv_shift_loop f (N.shiftr tmp 1) (u32 (sh + 1)) else Some sh
  end.

(** src/common.h:152-168 the constructor. [1ull << (shift + 32)] is a 64-bit
    shift by at most 63. *)
Definition dv_make (value : N) : option divisor :=
  let? sh := dv_shift_loop 33 value 0 in
  if N.land value (sub32 value 1) =? 0 then Some (mkDiv 0 sh value)
  else
    let w := u64 (N.shiftl 1 (sh + 32)) in
    let w_div := u32 (w / value) in
    let w_rem := u32 (w mod value) in
    let magic := u32 (u32 (w_div * 2) + 1) in
    let w_rem_2 := u32 (w_rem * 2) in
    let magic := if (value <=? w_rem_2) || (w_rem_2 <? w_rem)
                 then u32 (magic + 1) else magic in
    Some (mkDiv magic sh value).

(** src/common.h:170-172; the 64-bit product of 32-bit numbers does not wrap. *)
Definition dv_mul_hi (a b : N) : N := u32 (N.shiftr (u64 (a * b)) 32).

(** src/common.h:174-188 *)
Definition dv_div_rem (d : divisor) (input : N) : N * N :=
  if dv_magic d =? 0 then
    let div := N.shiftr input (dv_shift d) in
    let rem := sub32 input (u32 (N.shiftl div (dv_shift d))) in
    (div, rem)
  else
    let hi := dv_mul_hi input (dv_magic d) in
    let div := N.shiftr (u32 (N.shiftr (sub32 input hi) 1 + hi)) (dv_shift d) in
    let rem := sub32 input (u32 (div * dv_value d)) in
    (div, rem).

(** src/internal.h:563-620 [Device::get_launch_config]. The result is
    [(blocks, threads)]; [LcAbort] is the explicit [abort()], [LcUB] a division
    by zero. [sm_count] is the device's multiprocessor count. *)
Inductive lc_result := LcOk (blocks threads : N) | LcAbort | LcUB.

Definition lc_ceil (a b : N) : option N := udiv (sub32 (u32 (a + b)) 1) b.

Definition get_launch_config (sm_count size max_threads max_blocks_per_sm : N) : lc_result :=
  let warp_size := 32 in
  let cfg :=
    let? warp_count := lc_ceil size warp_size in
    let? max_warps := lc_ceil max_threads warp_size in
    if warp_count <=? sm_count then Some (warp_count, warp_count, 1)
    else
      let block_count := sm_count in
      let? wpb := lc_ceil warp_count block_count in
      if max_warps <? wpb then
        let? bc := lc_ceil warp_count max_warps in
        let? bc :=
          if bc <? u32 (sm_count * 4)
          then let? q := lc_ceil bc sm_count in Some (u32 (q * sm_count))
          else Some bc in
        let max_blocks := u32 (max_blocks_per_sm * sm_count) in
        if negb (max_blocks =? 0) && (max_blocks <? bc)
        then Some (warp_count, max_blocks, max_warps)
        else
          let? wpb := lc_ceil warp_count bc in
          let? bc := lc_ceil warp_count wpb in
          Some (warp_count, bc, wpb)
      else Some (warp_count, block_count, wpb) in
  match cfg with
  | None => LcUB
  | Some (warp_count, bc, wpb) =>
      if (u32 (bc * wpb) <? warp_count) && (max_blocks_per_sm =? 0)
      then LcAbort
      else LcOk bc (u32 (wpb * warp_size))
  end.
