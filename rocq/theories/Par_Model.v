(** Asynchronous host commands and parallel work units over shared memory.

    /repo/src/llvm_ts.cpp:13-47 (submit_cpu): every operation of the CPU thread
    state enqueues a task consisting of [size] work units; the task depends on
    the previously enqueued one ([task_submit_dep(nullptr, &jitc_task, 1, ...)]),
    so tasks run one after the other while the work units of one task run
    concurrently on the thread pool.

    A work unit is a program issuing one memory access at a time; the units of a
    task interleave arbitrarily at the granularity of single accesses.  An access
    outside an allocated buffer and a data race (two units about to access the
    same location, at least one of them writing) are errors.

    Simplifications: memory is typed (a location holds one element, not bytes);
    the C++ memory model is reduced to sequential consistency, which is what it
    guarantees for race-free programs; the thread pool (nanothread) is trusted to
    run every unit exactly once and to respect task dependencies. *)
From Verif Require Import Base.

Section Par.
Context {V : Type}.

(** Buffer identifier and element index. *)
Definition loc : Type := (N * N)%type.
(** [None]: not allocated. *)
Definition mem : Type := loc -> option V.

Definition loc_eqb (a b : loc) : bool := (fst a =? fst b)%N && (snd a =? snd b)%N.
Definition mset (m : mem) (l : loc) (v : V) : mem :=
  fun x => if loc_eqb x l then Some v else m x.

Inductive prog : Type :=
| Ret
| Fault                            (* e.g. integer division by zero *)
| Rd (l : loc) (k : V -> prog)
| Wr (l : loc) (v : V) (k : prog).

(** One access of one of the units of a task. *)
Inductive step : list prog * mem -> list prog * mem -> Prop :=
| step_rd ps m i l k v :
    nth_error ps i = Some (Rd l k) -> m l = Some v ->
    step (ps, m) (set_nth i (k v) ps, m)
| step_wr ps m i l v k :
    nth_error ps i = Some (Wr l v k) -> m l <> None ->
    step (ps, m) (set_nth i k ps, mset m l v).

Inductive steps : list prog * mem -> list prog * mem -> Prop :=
| steps_refl c : steps c c
| steps_step c c' c'' : step c c' -> steps c' c'' -> steps c c''.

Definition access (p : prog) : option (bool * loc) :=
  match p with
  | Ret | Fault => None
  | Rd l _ => Some (false, l)
  | Wr l _ _ => Some (true, l)
  end.

Definition all_done (ps : list prog) : Prop := forall p, In p ps -> p = Ret.

(** No unit has crashed, no unit is about to access memory that is not allocated,
    and no two units are about to perform conflicting accesses. *)
Definition safe (c : list prog * mem) : Prop :=
  ~ In Fault (fst c) /\
  (forall i p w l, nth_error (fst c) i = Some p -> access p = Some (w, l) ->
     snd c l <> None) /\
  (forall i j p q w w' l, i <> j ->
     nth_error (fst c) i = Some p -> nth_error (fst c) j = Some q ->
     access p = Some (w, l) -> access q = Some (w', l) ->
     w = false /\ w' = false).

(** Host commands. *)
Inductive cmd : Type :=
| Alloc (b : N) (n : N)            (* jitc_malloc: contents indeterminate *)
| Free (b : N)                     (* jitc_free, ordered after earlier tasks *)
| Par (ps : list prog).            (* submit_cpu *)

(** [m'] is [m] with a buffer [b] of [n] elements of arbitrary content. *)
Definition allocated (m : mem) (b n : N) (m' : mem) : Prop :=
  (forall i, (i < n)%N -> exists v, m' (b, i) = Some v) /\
  (forall i, (n <= i)%N -> m' (b, i) = None) /\
  (forall l, fst l <> b -> m' l = m l).

Definition mfree (m : mem) (b : N) : mem :=
  fun l => if (fst l =? b)%N then None else m l.

(** [ensures cs Q m]: every execution of the commands [cs] from memory [m], under
    every interleaving and every content of fresh memory, terminates without a
    crash, out-of-bounds access or data race in a memory satisfying [Q]. *)
Fixpoint ensures (cs : list cmd) (Q : mem -> Prop) (m : mem) : Prop :=
  match cs with
  | [] => Q m
  | Alloc b n :: cs => forall m', allocated m b n m' -> ensures cs Q m'
  | Free b :: cs => ensures cs Q (mfree m b)
  | Par ps :: cs =>
      Acc (fun c' c => step c c') (ps, m) /\
      forall ps' m', steps (ps, m) (ps', m') ->
        safe (ps', m') /\ (all_done ps' -> ensures cs Q m')
  end.

(** Buffer [b] holds exactly [xs]. *)
Definition holds (m : mem) (b : N) (xs : list V) : Prop :=
  forall i, m (b, i) = nth_error xs (N.to_nat i).

(** No buffer with identifier at least [f] is allocated. *)
Definition fresh_from (m : mem) (f : N) : Prop :=
  forall b i, (f <= b)%N -> m (b, i) = None.

(** C++ loops over consecutive 32-bit indices. *)

(** [for (i = s; i < e; ++i)] *)
Definition range_lt (s e : N) : list N :=
  map (fun t => s + N.of_nat t)%N (seq 0 (N.to_nat (e - s))).
(** [for (i = s; i != e; ++i)]: wraps around when [s > e]. *)
Definition range_ne (s e : N) : list N :=
  map (fun t => u32 (s + N.of_nat t)) (seq 0 (N.to_nat (sub32 e s))).

(** Loop with an accumulator, in continuation-passing style. *)
Fixpoint loop {S : Type} (js : list N) (body : N -> S -> (S -> prog) -> prog)
    (s : S) (k : S -> prog) : prog :=
  match js with
  | [] => k s
  | j :: js => body j s (fun s' => loop js body s' k)
  end.

(** The units [0 .. n-1] of a task. *)
Definition units (n : N) (f : N -> prog) : list prog :=
  map (fun t => f (N.of_nat t)) (seq 0 (N.to_nat n)).

End Par.
Arguments mem : clear implicits.
Arguments prog : clear implicits.
Arguments cmd : clear implicits.

(** One particular schedule (units one after the other), for concrete examples. *)
Section Exec.
Context {V : Type} (v0 : V).
Fixpoint run_unit (p : prog V) (m : mem V) : option (mem V) :=
  match p with
  | Ret => Some m
  | Fault => None
  | Rd l k => match m l with Some v => run_unit (k v) m | None => None end
  | Wr l v k => match m l with Some _ => run_unit k (mset m l v) | None => None end
  end.
Fixpoint run_seq (ps : list (prog V)) (m : mem V) : option (mem V) :=
  match ps with
  | [] => Some m
  | p :: ps => let? m' := run_unit p m in run_seq ps m'
  end.
Fixpoint exec (cs : list (cmd V)) (m : mem V) : option (mem V) :=
  match cs with
  | [] => Some m
  | Alloc b n :: cs =>
      exec cs (fun l => if (fst l =? b)%N then if (snd l <? n)%N then Some v0 else None else m l)
  | Free b :: cs => exec cs (mfree m b)
  | Par ps :: cs => let? m' := run_seq ps m in exec cs m'
  end.
Definition contents (m : mem V) (b n : N) : list (option V) :=
  map (fun t => m (b, N.of_nat t)) (seq 0 (N.to_nat n)).
Definition mem_of (bufs : list (N * list V)) : mem V :=
  fun l => match find (fun b => (fst b =? fst l)%N) bufs with
           | Some (_, xs) => nth_error xs (N.to_nat (snd l))
           | None => None
           end.
End Exec.
