(** Model of the scatter-reduction kernels of the LLVM backend
    (/repo/src/llvm_scatter.cpp:165-522), of the memory operations that they execute on
    several threads, and of the kernels for scatter_inc, scatter_exch, scatter_cas
    (/repo/src/llvm_scatter.cpp:524-780).

    A vector has [w] lanes.  Masks <w x i1> / i<w> are bit strings (lane k is bit k).
    Pointers are 64-bit addresses.  Memory maps the address of an element to its value.

    Simplifications: one element type per array (no overlapping accesses); [undef] elements
    of intermediate vectors are never read; vector.reduce combines the lanes in order; the
    memory operations of all threads interleave, and a load sees the last store to the same
    address (relaxed atomics guarantee this order per address). *)
From Verif Require Import Base.
Local Open Scope N_scope.

Section Kernels.
Context {V : Type}.
Variable w : N.
Definition lane_list : list N := map N.of_nat (seq 0 (N.to_nat w)).
(** bitcast of a vector of bits *)
Definition bits (f : N -> bool) : N := fold_right (fun k acc => if f k then N.lor (N.shiftl 1 k) acc else acc) 0 lane_list.

(** The reduction, its identity element (jitc_reduce_identity), and the comparison
    "icmp ne" / "fcmp one" *)
Variable op : V -> V -> V.
Variable ident : V.
Variable differs : V -> V -> bool.
(** llvm_scatter.cpp:255: log2 of the element size *)
Variable shift : N.

(** An update: combine the element at an address with a value *)
Notation update := (N * V)%type.

(** llvm_scatter.cpp:175-212 "atomic": lanes in order; [index] counts up *)
Fixpoint direct_loop (c : nat) (index : N) (ptr : N -> N) (val : N -> V) (valid : N) : list update :=
  match c with
  | O => []
  | S c =>
      let bit_i := N.shiftl 1 index in
      let rest := direct_loop c (index + 1) ptr val valid in
      if N.land bit_i valid =? 0 then rest else (ptr index, val index) :: rest
  end.
Definition direct (ptr : N -> N) (val : N -> V) (active : N) : list update := direct_loop (N.to_nat w) 0 ptr val active.

(** @llvm.vector.reduce *)
Definition vreduce (l : list V) : V := match l with [] => ident | x :: l => fold_left op l x end.
(** llvm_scatter.cpp:277-307 "atomic_local", 424-465 "noconflict": the same loop.
    [None]: the loop does not end or reads beyond the pointers. *)
Fixpoint local_loop (fuel : nat) (ptr : N -> N) (val : N -> V) (ptrlo_3 : N -> N) (active bit index : N) : option (list update) :=
  match fuel with
  | O => None
  | S fuel =>
      if active =? 0 then Some []
      else
        let bit_next := N.land (N.shiftl bit 1) (N.ones w) in
        if N.land bit active =? 0 then local_loop fuel ptr val ptrlo_3 active bit_next (index + 1)
        else if w <=? index then None
        else
          let ptr_i := ptr index in
          let ptrlo_6 := u32 (N.shiftr ptr_i shift) in
          let ptr_diff k := negb (ptrlo_6 =? ptrlo_3 k) in
          let red_in := map (fun k => if ptr_diff k then ident else val k) lane_list in
          let red_out := vreduce red_in in
          let active_next := N.land active (bits ptr_diff) in
          let? rest := local_loop fuel ptr val ptrlo_3 active_next bit_next (index + 1) in
          Some ((ptr_i, red_out) :: rest)
  end.
Definition local (fuel : nat) (ptr : N -> N) (val : N -> V) (active_in : N) : option (list update) :=
  let valid_0 := bits (fun k => differs ident (val k)) in
  let valid_2 := N.land valid_0 active_in in
  let ptrlo_3 k := if N.testbit active_in k then u32 (N.shiftr (ptr k) shift) else 0 in
  local_loop fuel ptr val ptrlo_3 valid_2 (N.land 1 (N.ones w)) 0.
End Kernels.

(** ** Memory operations of the threads *)
Section Machine.
Context {V : Type}.
Variable op : V -> V -> V.
(** llvm_scatter.cpp:58-88: Min/Max first load the element and compare it *)
Variable skip : V -> V -> bool.

Notation update := (N * V)%type.
Definition memory := N -> V.
Definition mset (m : memory) (a : N) (v : V) : memory := fun b => if b =? a then v else m b.
(** How an update is executed: atomicrmw; load, compare, atomicrmw; load, combine, store *)
Inductive how := HAtomic | HCheck | HPlain.
Inductive phase := Ready | Rmw | Write (before : V).
Record thread := { th_todo : list update; th_phase : phase }.
Definition step (h : how) (t : thread) (m : memory) : thread * memory :=
  match th_todo t with
  | [] => (t, m)
  | (a, v) :: rest =>
      match th_phase t with
      | Ready =>
          match h with
          | HAtomic => ({| th_todo := rest; th_phase := Ready |}, mset m a (op (m a) v))
          | HCheck =>
              if skip (m a) v then ({| th_todo := rest; th_phase := Ready |}, m)
              else ({| th_todo := th_todo t; th_phase := Rmw |}, m)
          | HPlain => ({| th_todo := th_todo t; th_phase := Write (m a) |}, m)
          end
      | Rmw => ({| th_todo := rest; th_phase := Ready |}, mset m a (op (m a) v))
      | Write before => ({| th_todo := rest; th_phase := Ready |}, mset m a (op before v))
      end
  end.
(** A schedule names the thread that makes the next step *)
Fixpoint run (h : how) (sched : list nat) (ts : list thread) (m : memory) : list thread * memory :=
  match sched with
  | [] => (ts, m)
  | i :: sched =>
      match nth_error ts i with
      | None => run h sched ts m
      | Some t => let '(t', m') := step h t m in run h sched (set_nth i t' ts) m'
      end
  end.
Definition start (todo : list update) : thread := {| th_todo := todo; th_phase := Ready |}.
Definition finished (t : thread) : Prop := th_todo t = [].
End Machine.

(** ** scatter_inc (llvm_scatter.cpp:524-579) *)
Section Inc.
Variable w : N.
Definition umax (l : list N) : N := fold_left N.max l 0.
(** @llvm.cttz of a number that is not zero *)
Fixpoint cttz_pos (p : positive) : N := match p with xO p => 1 + cttz_pos p | _ => 0 end.
Definition cttz (x : N) : N := match x with 0 => 0 | N.pos p => cttz_pos p end.
(** L3: ranks of the lanes that share a pointer; [None]: the loop does not end *)
Fixpoint ranks (fuel : nat) (active accum : N) (out : N -> N) : option (N * (N -> N)) :=
  match fuel with
  | O => None
  | S fuel =>
      let index := cttz active in
      let active_next := N.lxor active (N.shiftl 1 index) in
      let out_next k := if k =? index then accum else out k in
      if active_next =? 0 then Some (accum + 1, out_next)
      else ranks fuel active_next (accum + 1) out_next
  end.
(** L1-L5; one [atomicrmw add] per iteration.  The value that the atomic operation returns
    is that of the memory [mems i], in which other threads may have made changes since the
    previous iteration.  Result: the updates (address, count) and the ranks and indices of
    the atomic operations that the lanes depend on *)
Fixpoint inc_loop (fuel : nat) (ptrs : N -> N) (out : N -> option (N * nat)) (i : nat) : option (list (N * N) * (N -> option (N * nat))) :=
  match fuel with
  | O => None
  | S fuel =>
      let ptr := umax (map ptrs (lane_list w)) in
      if ptr =? 0 then Some ([], out)
      else
        let active_v k := ptr =? ptrs k in
        let ptrs_next k := if active_v k then 0 else ptrs k in
        let? r := ranks (N.to_nat w) (bits w active_v) 0 (fun _ => 0) in
        let '(count, rank) := r in
        let out_next k := if active_v k then Some (rank k, i) else out k in
        let? r := inc_loop fuel ptrs_next out_next (S i) in
        Some ((ptr, count) :: fst r, snd r)
  end.
(** Updates of the counters; for each lane the number to be added to the result of an
    atomic operation (masked lanes: 0) *)
Definition inc (fuel : nat) (ptrs_in : N -> N) (active_in : N) : option (list (N * N) * (N -> option (N * nat))) :=
  inc_loop fuel (fun k => if N.testbit active_in k then ptrs_in k else 0) (fun _ => None) 0.
End Inc.

(** ** Scatter-reductions of a thread: one kernel call per vector of lanes *)
Section Program.
Context {V : Type}.
Variables (w : N) (op : V -> V -> V) (ident : V) (differs : V -> V -> bool) (shift : N).
Inductive mode := Direct | Local | NoConflicts.
(** Pointers, values, mask of a vector of lanes *)
Record block := { b_ptr : N -> N; b_val : N -> V; b_active : N }.
Definition kernel (md : mode) (b : block) : option (list (N * V)) :=
  match md with
  | Direct => Some (direct w (b_ptr b) (b_val b) (b_active b))
  | Local | NoConflicts => local w op ident differs shift (S (N.to_nat w)) (b_ptr b) (b_val b) (b_active b)
  end.
Fixpoint program (md : mode) (bs : list block) : option (list (N * V)) :=
  match bs with
  | [] => Some []
  | b :: bs => let? us := kernel md b in let? r := program md bs in Some (us ++ r)
  end.
(** llvm_scatter.cpp:58-88: [minmax] for Min and Max *)
Definition how_of (md : mode) (minmax : bool) : how :=
  match md with
  | NoConflicts => HPlain
  | _ => if minmax then HCheck else HAtomic
  end.
End Program.

(** ** Counters: atomic additions of all threads, scatter_inc *)
Section Counters.
Notation cmemory := (N -> N).
(** An executed operation: address, amount, previous value *)
Record cthread := { ct_todo : list (N * N); ct_done : list (N * N * N) }.
Definition cstep (t : cthread) (m : cmemory) : cthread * cmemory :=
  match ct_todo t with
  | [] => (t, m)
  | (a, c) :: rest =>
      ({| ct_todo := rest; ct_done := ct_done t ++ [(a, c, m a)] |}, fun b => if b =? a then u32 (m a + c) else m b)
  end.
Fixpoint crun (sched : list nat) (ts : list cthread) (m : cmemory) : list cthread * cmemory :=
  match sched with
  | [] => (ts, m)
  | i :: sched =>
      match nth_error ts i with
      | None => crun sched ts m
      | Some t => let '(t', m') := cstep t m in crun sched (set_nth i t' ts) m'
      end
  end.
Definition cstart (todo : list (N * N)) : cthread := {| ct_todo := todo; ct_done := [] |}.

(** A vector of lanes: pointers and mask *)
Record cblock := { c_ptr : N -> N; c_active : N }.
(** The operations of a vector, and those of a thread *)
Definition cprog1 (w : N) (b : cblock) : option (list (N * N) * (N -> option (N * nat))) := inc w (S (N.to_nat w)) (c_ptr b) (c_active b).
Fixpoint cprog (w : N) (bs : list cblock) : option (list (N * N)) :=
  match bs with
  | [] => Some []
  | b :: bs => let? r := cprog1 w b in let? rs := cprog w bs in Some (fst r ++ rs)
  end.
(** llvm_scatter.cpp:566-569: results of the lanes of a vector whose operations are the
    first ones of [done]; masked lanes: 0 *)
Definition lane_result (assign : N -> option (N * nat)) (done : list (N * N * N)) (k : N) : N :=
  match assign k with
  | None => 0
  | Some (rank, i) => match nth_error done i with Some (_, _, prev) => u32 (prev + rank) | None => 0 end
  end.
(** The results of the active lanes of all vectors of a thread that refer to [a] *)
Fixpoint results (w : N) (bs : list cblock) (done : list (N * N * N)) (a : N) : option (list N) :=
  match bs with
  | [] => Some []
  | b :: bs =>
      let? r := cprog1 w b in
      let? rest := results w bs (skipn (length (fst r)) done) a in
      Some (map (lane_result (snd r) done) (filter (fun k => N.testbit (c_active b) k && (c_ptr b k =? a)) (lane_list w)) ++ rest)
  end.
(** The operations of all threads *)
Fixpoint cprogs (w : N) (work : list (list cblock)) : option (list (list (N * N))) :=
  match work with
  | [] => Some []
  | bs :: work => let? ops := cprog w bs in let? r := cprogs w work in Some (ops :: r)
  end.
(** Results of all threads *)
Fixpoint all_results (w : N) (work : list (list cblock)) (ts : list cthread) (a : N) : option (list N) :=
  match work, ts with
  | bs :: work, t :: ts => let? r := results w bs (ct_done t) a in let? rs := all_results w work ts a in Some (r ++ rs)
  | _, _ => Some []
  end.
End Counters.
