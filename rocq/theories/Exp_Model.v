(** Combining expanded accumulation buffers: llvm_ts.cpp:1009-1106. *)
From Verif Require Import Base Arith_Model Par_Model Red_Model.
Local Open Scope N_scope.

Section Exp.
Context {V : Type}.
Variable op : V -> V -> V.
Variables (ptr exp size : N).

(** ptr[a] = op(ptr[a], ptr[b]) *)
Definition combine (a b : N) (k : prog V) : prog V :=
  Rd (ptr, a) (fun x => Rd (ptr, b) (fun y => Wr (ptr, a) (op x y) k)).

(** llvm_ts.cpp:1021-1022: values of [i] visited by the block loop, and [i] after it;
    [None]: the loop does not stop within [fuel] iterations. *)
Fixpoint block_starts (fuel : nat) (i e : N) : option (list N * N) :=
  if u32 (i + 128) <=? e then
    match fuel with
    | O => None
    | S fuel => let? r := block_starts fuel (u32 (i + 128)) e in Some (i :: fst r, snd r)
    end
  else Some ([], i).

(** llvm_ts.cpp:1012-1031 *)
Definition expanded_kernel (s e : N) : prog V :=
  match block_starts (N.to_nat e) s e with
  | None => Fault
  | Some (starts, i1) =>
      loop starts (fun i (_ : unit) k0 =>
        loop (range_lt 1 exp) (fun j (_ : unit) k1 =>
          loop (range_lt 0 128) (fun k (_ : unit) k2 =>
            combine (u32 (i + k)) (u32 (u32 (i + k) + u32 (j * size))) (k2 tt))
          tt k1) tt k0) tt (fun _ =>
      loop (range_lt i1 e) (fun i (_ : unit) k0 =>
        loop (range_lt 1 exp) (fun j (_ : unit) k1 =>
          combine i (u32 (i + u32 (j * size))) (k1 tt)) tt k0) tt (fun _ => Ret))
  end.
End Exp.

(** llvm_ts.cpp:1083-1106 *)
Definition reduce_expanded {V} (op : V -> V -> V) (workers ideal ptr exp size : N)
    : host (list (cmd V)) :=
  if (1 <? workers) && (ideal =? 0) then HostFault else
  let bs := if 1 <? workers then ideal else size in
  let blocks := if 1 <? workers then u32 (size + ideal - 1) / ideal else 1 in
  Cmds [Par (units (N.max 1 blocks) (fun index =>
          expanded_kernel op ptr exp size (u32 (index * bs))
            (N.min (u32 (u32 (index + 1) * bs)) size)))].

(** llvm_core.cpp:556-563: number of workers and copies per worker. *)
Definition replication_factor (pool size tsize : N) : N * N :=
  (pool, if size =? 1 then 64 / tsize else 1).

(** var.cpp:2866-2930 jitc_var_expand on the contents [xs] of an array that is not
    expanded yet: the new contents and the index scale; [None]: an error is raised.
    The literal is evaluated to an array of [ident] (var.cpp:2909-2910); the source is
    copied over its beginning (var.cpp:2912-2918, skipped when it has the same values). *)
Definition expand {V} (ident : V) (pool tsize : N) (xs : list V) : option (list V * N) :=
  let size := N.of_nat (length xs) in
  let '(workers, rep) := replication_factor pool size tsize in
  let scale := u32 (rep * size) in
  if workers =? 1 then Some (xs, 1) else
  let new_size := u64 (u64 (size * rep) * workers) in
  if 2 ^ 32 - 1 <? new_size then None
  else Some (xs ++ repeat ident (N.to_nat new_size - length xs), scale).

(** var.cpp:2933-2964 jitc_var_reduce_expanded: the factor passed on. *)
Definition reduce_factor (pool size tsize : N) : N :=
  let '(workers, rep) := replication_factor pool size tsize in u32 (rep * workers).
