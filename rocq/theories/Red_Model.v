(** Block reductions and prefix reductions of the CPU backend.

    /repo/src/llvm_ts.cpp:265-460 and the kernels of /repo/src/llvm_red.h:80-175.
    The host functions are modelled as the list of commands they enqueue.

    Simplifications: element types are abstract ([T] in memory, [Value] for the
    accumulator: [float] for half precision, otherwise the same type); logging and
    kernel history omitted; [jitc_memset] with the identity writes the identity
    (the element-size dispatch of memset_async is not modelled). *)
From Verif Require Import Base Arith_Model Par_Model.
Local Open Scope N_scope.

(** Result of a host function: the enqueued commands, an exception, or a host
    division by zero.  [NoFuel] marks exhausted recursion fuel. *)
Inductive host (A : Type) : Type :=
| Cmds (a : A) | Raise | HostFault | NoFuel.
Arguments Cmds {A}. Arguments Raise {A}. Arguments HostFault {A}. Arguments NoFuel {A}.

(** llvm_ts.cpp:281-310 (block_reduce), 374-403 (block_prefix_reduce): division
    of the work.  Result: chunk size, chunks per block, number of chunks, number of
    work units, chunks per work unit. *)
Record plan_t := Plan {
  p_chunk : N; p_cpb : N; p_count : N; p_units : N; p_wus : N }.

Definition plan (workers ideal size block_size : N) : option plan_t :=
  let? block_count := ceil_div size block_size in
  let chunk :=
    if (u32 (2 * ideal) <? block_size) && (block_count <? u32 (2 * workers))
    then ideal else block_size in
  let? cpb := ceil_div block_size chunk in
  let count := u32 (block_count * cpb) in
  if 1 <? workers then
    let? q := ceil_div ideal chunk in
    let wus := N.min q count in
    let? wu := ceil_div count wus in
    Some (Plan chunk cpb count wu wus)
  else Some (Plan chunk cpb count 1 count).

Section Red.
Context {T Value : Type}.
Variables (up : T -> Value) (down : Value -> T).
Variables (init : Value) (rop : Value -> Value -> Value).
(** jitc_reduce_identity(vt, op) truncated to the element type. *)
Variable ident : T.
(** type_size of the element type. *)
Variable tsize : N.
Variables (workers ideal : N).

(** llvm_red.h:100-110, 147-157: element range of chunk [i] (32-bit arithmetic). *)
Definition chunk_bounds (size block_size : N) (p : plan_t) (i : N) : N * N :=
  let block_id := i / p_cpb p in
  let within := i mod p_cpb p in
  let rel_start := u32 (within * p_chunk p) in
  let rel_end := N.min (u32 (rel_start + p_chunk p)) block_size in
  let off := u32 (block_id * block_size) in
  (u32 (rel_start + off), N.min (u32 (rel_end + off)) size).

(** llvm_red.h:96-98, 144-145: chunks handled by work unit [index]. *)
Definition unit_chunks (p : plan_t) (index : N) : list N :=
  let s := u32 (index * p_wus p) in
  range_lt s (N.min (u32 (s + p_wus p)) (p_count p)).

(** llvm_red.h:86-118 *)
Definition reduce_kernel (size block_size : N) (p : plan_t) (src dst : N)
    (index : N) : prog T :=
  loop (unit_chunks p index) (fun i (_ : unit) k =>
    if p_cpb p =? 0 then Fault else
    let '(s, e) := chunk_bounds size block_size p i in
    loop (range_lt s e) (fun j acc k' => Rd (src, j) (fun x => k' (rop acc (up x)))) init
      (fun acc => Wr (dst, i) (down acc) (k tt))) tt (fun _ => Ret).

(** llvm_red.h:128-187 *)
Definition prefix_kernel (size block_size : N) (p : plan_t) (exclusive reverse : bool)
    (src : N) (scratch : option N) (dst : N) (index : N) : prog T :=
  loop (unit_chunks p index) (fun i (_ : unit) k =>
    if p_cpb p =? 0 then Fault else
    let '(s, e) := chunk_bounds size block_size p i in
    let scan acc0 :=
      loop (if reverse then rev (range_lt s e) else range_lt s e)
        (fun j acc k' => Rd (src, j) (fun x =>
           let acc' := rop acc (up x) in
           Wr (dst, j) (down (if exclusive then acc else acc')) (k' acc')))
        acc0 (fun _ => k tt) in
    match scratch with
    | Some b => Rd (b, i) (fun x => scan (up x))
    | None => scan init
    end) tt (fun _ => Ret).

(** llvm_ts.cpp:936-945 memcpy_async with a size of [bytes] bytes. *)
Definition copy_cmd (src dst bytes : N) : cmd T :=
  Par [loop (range_lt 0 (bytes / tsize))
         (fun j (_ : unit) k => Rd (src, j) (fun x => Wr (dst, j) x (k tt)))
         tt (fun _ => Ret)].

(** llvm_ts.cpp:203-263 memset_async *)
Definition fill_cmd (dst size : N) (v : T) : cmd T :=
  Par [loop (range_lt 0 size) (fun j (_ : unit) k => Wr (dst, j) v (k tt))
         tt (fun _ => Ret)].

(** jitc_malloc(JitBackend::LLVM, tsize * count): the product is computed with 32
    bits (llvm_ts.cpp:316, 410). *)
Definition alloc_elems (b count : N) : cmd T := Alloc b (u32 (tsize * count) / tsize).

(** llvm_ts.cpp:265-350.  [fresh] is the identifier jitc_malloc returns. *)
Fixpoint block_reduce (fuel : nat) (fresh size block_size src dst : N)
    : host (list (cmd T)) :=
  if size =? 0 then Cmds []
  else if (block_size =? 0) || (size <? block_size) then Raise
  else if block_size =? 1 then Cmds [copy_cmd src dst (size * tsize)]
  else
    match plan workers ideal size block_size with
    | None => HostFault
    | Some p =>
        if 1 <? p_cpb p then
          match fuel with
          | O => NoFuel
          | S fuel =>
              match block_reduce fuel (fresh + 1) (p_count p) (p_cpb p) fresh dst with
              | Cmds cs =>
                  Cmds (alloc_elems fresh (p_count p)
                        :: Par (units (p_units p) (reduce_kernel size block_size p src fresh))
                        :: cs ++ [Free fresh])
              | r => r
              end
          end
        else Cmds [Par (units (p_units p) (reduce_kernel size block_size p src dst))]
    end.

(** llvm_ts.cpp:352-460 *)
Fixpoint block_prefix_reduce (fuel : nat) (fresh size block_size : N)
    (exclusive reverse : bool) (src dst : N) : host (list (cmd T)) :=
  if size =? 0 then Cmds []
  else if (block_size =? 0) || (size <? block_size) then Raise
  else if block_size =? 1 then
    Cmds (if exclusive then [fill_cmd dst size ident]
          else if src =? dst then []
          else [copy_cmd src dst (u32 (size * tsize))])
  else
    match plan workers ideal size block_size with
    | None => HostFault
    | Some p =>
        if 1 <? p_cpb p then
          match fuel with
          | O => NoFuel
          | S fuel =>
              match block_prefix_reduce fuel (fresh + 1) (p_count p) (p_cpb p)
                      true reverse fresh fresh with
              | Cmds cs =>
                  Cmds (alloc_elems fresh (p_count p)
                        :: Par (units (p_units p) (reduce_kernel size block_size p src fresh))
                        :: cs ++
                        [Par (units (p_units p)
                                (prefix_kernel size block_size p exclusive reverse src
                                   (Some fresh) dst));
                         Free fresh])
              | r => r
              end
          end
        else Cmds [Par (units (p_units p)
                          (prefix_kernel size block_size p exclusive reverse src None dst))]
    end.

(** api.cpp:1331-1337 with util.cpp:55-61: the public entry point is declared with the
    parameters (block_size, size) (jit.h:2365-2373) and forwards them in this order to
    a function declared with (size, block_size). *)
Definition api_block_prefix_reduce (fuel : nat) (fresh block_size size : N)
    (exclusive reverse : bool) (src dst : N) : host (list (cmd T)) :=
  block_prefix_reduce fuel fresh block_size size exclusive reverse src dst.

End Red.

(** Integer element types.  llvm_red.h:10-79: RedAdd, RedMul, RedMin, RedMax, RedOr,
    RedAnd; values are the mathematical values of the type.

    Signed overflow of [a + b], [a * b] in RedAdd/RedMul is undefined behaviour in
    C++; the model wraps (as the kernels are compiled in practice). *)
Inductive redop := RAdd | RMul | RMin | RMax | ROr | RAnd.

Local Open Scope Z_scope.
Record ity := IT { it_signed : bool; it_bits : Z }.
Definition it_min (t : ity) : Z := if it_signed t then - 2 ^ (it_bits t - 1) else 0.
Definition it_max (t : ity) : Z :=
  if it_signed t then 2 ^ (it_bits t - 1) - 1 else 2 ^ it_bits t - 1.
Definition it_wrap (t : ity) (x : Z) : Z := (x - it_min t) mod 2 ^ it_bits t + it_min t.
Definition it_in (t : ity) (x : Z) : Prop := it_min t <= x <= it_max t.

Definition ired (t : ity) (o : redop) (a b : Z) : Z :=
  match o with
  | RAdd => it_wrap t (a + b)
  | RMul => it_wrap t (a * b)
  | RMin => Z.min a b
  | RMax => Z.max a b
  | ROr => Z.lor a b
  | RAnd => Z.land a b
  end.
Definition iinit (t : ity) (o : redop) : Z :=
  match o with
  | RAdd | ROr => 0
  | RMul => 1
  | RMin => it_max t
  | RMax => it_min t
  | RAnd => it_wrap t (-1)
  end.

(** /repo/src/var.cpp:2642-2652 with the tables type_all_ones, type_one, type_max,
    type_min (/repo/src/var.cpp): bit pattern read back at the element type. *)
Definition it_pattern (t : ity) (x : Z) : Z := x mod 2 ^ it_bits t.
Definition reduce_identity (t : ity) (o : redop) : Z :=
  match o with
  | ROr | RAdd => 0
  | RAnd => 2 ^ it_bits t - 1
  | RMul => 1
  | RMin => it_pattern t (it_max t)
  | RMax => it_pattern t (it_min t)
  end.
