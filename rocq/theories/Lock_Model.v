(** The global lock and postponed log messages: src/lock.h:118-324 (the spin lock variant),
    src/log.cpp:72-126 (jitc_log_deliver, jit_log_flush, lock_release_pending,
    jitc_log_postpone).

    Simplifications: atomic steps of all threads are interleaved in one order (sequential
    consistency); the two sections protected by log_mutex (log.cpp:75-78, 116-119) are one
    step each; a log callback stays registered and the level filter lets every message
    pass; jitc_vfail (which aborts) and lock_destroy are omitted; a callback that throws has
    received its message. *)
From Verif Require Import Base.
Local Open Scope N_scope.

(** lock.h:133 *)
Definition PENDING : N := 2 ^ 63.

(** Messages are numbered. *)
Definition msg : Type := N.
(** Open scopes of a piece of client code: an acquisition (lock_guard, jit_state_lock), a
    temporary release with the saved flag (unlock_guard). *)
Inductive scope := SLock | SUnlock (pending : bool).
(** Points inside lock_acquire: first load, strong exchange, spinning load, weak exchange,
    increment, assignment of 1. *)
Inductive acq := ALoad | ACas | ASpin | AWeak | AInc | ASet.
(** Activation records of a thread, innermost first. *)
Inductive frame :=
| Client (sc : list scope)      (** client code, also the code of a callback *)
| Acq (a : acq)
| Restore (pending : bool)      (** rest of ~unlock_guard *)
| RDec | RStore                 (** lock_release: decrement and test; store of 0 *)
| RPend                         (** lock_release_pending *)
| LogTest | SetPend             (** jitc_log_postpone after queueing *)
| Flush | Swap                  (** jit_log_flush; jitc_log_deliver *)
| Deliver (todo : list msg).    (** the loop of jitc_log_deliver *)

Record state := mkState {
  owner : nat;                  (** 0: free; S i: thread i *)
  count : N;
  queue : list msg;
  threads : list (list frame);
  logged : list msg;            (** history: messages in the order of logging, *)
  delivered : list (nat * nat * msg);  (** deliveries: thread, owner of the lock, message; *)
  deferred : bool               (** the last flush was refused by the defer callback *)
}.

(** Decisions that are not determined by the state. *)
Inductive choice :=
| CLock | CUnlock               (** client: acquire; release *)
| CYield | CResume              (** client: enter, leave an unlock_guard scope *)
| CLog (m : msg) | CFlush       (** client: log a message; jit_log_flush *)
| CReturn                       (** return from a callback *)
| CGo                           (** continue the current library function *)
| CFail                         (** as CGo; a weak exchange fails, flushing is deferred *)
.

(** [Stuck]: the choice is not available; [Race]: access to recursion_count by a thread
    that does not hold the lock. *)
Inductive outcome := Next (s : state) | Stuck | Race.

(** Acquisitions and temporary releases open in a thread. *)
Definition open_scopes (st : list frame) : list scope := flat_map (fun f => match f with Client sc => sc | _ => [] end) st.
Definition locks (st : list frame) : N :=
  N.of_nat (length (filter (fun x => match x with SLock => true | _ => false end) (open_scopes st))).
Definition unlocks (st : list frame) : N :=
  N.of_nat (length (filter (fun x => match x with SLock => false | _ => true end) (open_scopes st))).

Definition set_owner (s : state) o := mkState o (count s) (queue s) (threads s) (logged s) (delivered s) (deferred s).
Definition set_thread (s : state) (i : nat) st :=
  mkState (owner s) (count s) (queue s) (set_nth i st (threads s)) (logged s) (delivered s) (deferred s).
(** Access to recursion_count by thread [i]. *)
Definition with_count (s : state) (i : nat) (c : N) (k : state -> outcome) : outcome :=
  if Nat.eqb (owner s) (S i)
  then k (mkState (owner s) c (queue s) (threads s) (logged s) (delivered s) (deferred s))
  else Race.

(** A step of client code; [K]: frames below.  Client code nests at most 2^62 acquisitions,
    releases what it acquired, and uses unlock_guard only while it holds the lock (lock.h:213-226). *)
Definition client_step (s : state) (i : nat) (sc : list scope) (K : list frame) (c : choice) : outcome :=
  let go st := Next (set_thread s i st) in
  match c, sc with
  | CLock, _ => if locks (Client sc :: K) <? 2 ^ 62 then go (Acq ALoad :: Client (SLock :: sc) :: K) else Stuck
  | CUnlock, SLock :: r => go (RDec :: Client r :: K)
  (** lock.h:300-304 *)
  | CYield, _ =>
      if unlocks (Client sc :: K) <? locks (Client sc :: K) then
        with_count s i (N.land (count s) (PENDING - 1)) (fun s' =>
          Next (set_thread s' i (RDec :: Client (SUnlock (negb (N.land (count s) PENDING =? 0)) :: sc) :: K)))
      else Stuck
  (** lock.h:306-311 *)
  | CResume, SUnlock p :: r => go (Acq ALoad :: Restore p :: Client r :: K)
  (** log.cpp:115-119 *)
  | CLog m, _ =>
      Next (mkState (owner s) (count s) (queue s ++ [m]) (set_nth i (LogTest :: Client sc :: K) (threads s))
              (logged s ++ [m]) (delivered s) (deferred s))
  (** log.cpp:71: not while holding the lock *)
  | CFlush, _ => if unlocks (Client sc :: K) =? locks (Client sc :: K) then go (Flush :: Client sc :: K) else Stuck
  | CReturn, [] => match K with [] => Stuck | _ => go K end
  | _, _ => Stuck
  end.

Definition step (s : state) (i : nat) (c : choice) : outcome :=
  let self := S i in
  match nth_error (threads s) i with
  | None | Some [] => Stuck
  | Some (f :: K) =>
      let go st := Next (set_thread s i st) in
      match f with
      | Client sc => client_step s i sc K c
      | _ =>
        match c with
        | CGo | CFail =>
          match f with
          | Client _ => Stuck
          (** lock.h:168-205 *)
          | Acq ALoad => if Nat.eqb (owner s) self then go (Acq AInc :: K)
                         else if Nat.eqb (owner s) 0 then go (Acq ACas :: K) else go (Acq ASpin :: K)
          | Acq ACas => if Nat.eqb (owner s) 0 then Next (set_thread (set_owner s self) i (Acq ASet :: K))
                        else go (Acq ASpin :: K)
          | Acq ASpin => if Nat.eqb (owner s) 0 then go (Acq AWeak :: K) else Next s
          | Acq AWeak => match c with
                         | CFail => go (Acq ASpin :: K)
                         | _ => if Nat.eqb (owner s) 0 then Next (set_thread (set_owner s self) i (Acq ASet :: K))
                                else go (Acq ASpin :: K)
                         end
          | Acq AInc => with_count s i (u64 (count s + 1)) (fun s' => Next (set_thread s' i K))
          | Acq ASet => with_count s i 1 (fun s' => Next (set_thread s' i K))
          | Restore p => with_count s i (N.lor (count s) (if p then PENDING else 0)) (fun s' => Next (set_thread s' i K))
          (** lock.h:207-231 *)
          | RDec => with_count s i (sub64 (count s) 1) (fun s' =>
              Next (set_thread s' i (if count s' =? 0 then RStore :: K
                                     else if count s' =? PENDING then RPend :: K else K)))
          | RStore => Next (set_thread (set_owner s 0) i K)
          (** log.cpp:108-112 *)
          | RPend => with_count s i 1 (fun s' => Next (set_thread s' i (RDec :: Flush :: K)))
          (** log.cpp:121-124 *)
          | LogTest => if Nat.eqb (owner s) self then go (SetPend :: K) else go (Flush :: K)
          (** lock.h:276-278 *)
          | SetPend => with_count s i (N.lor (count s) PENDING) (fun s' => Next (set_thread s' i K))
          (** log.cpp:96-102 *)
          | Flush => match c with
                     | CFail => Next (mkState (owner s) (count s) (queue s) (set_nth i K (threads s))
                                        (logged s) (delivered s) true)
                     | _ => go (Swap :: K)
                     end
          (** log.cpp:73-78 *)
          | Swap => Next (mkState (owner s) (count s) [] (set_nth i (Deliver (queue s) :: K) (threads s))
                            (logged s) (delivered s) false)
          (** log.cpp:80-93: the callback is client code *)
          | Deliver [] => go K
          | Deliver (m :: r) =>
              Next (mkState (owner s) (count s) (queue s) (set_nth i (Client [] :: Deliver r :: K) (threads s))
                      (logged s) (delivered s ++ [(i, owner s, m)]) (deferred s))
          end
        | _ => Stuck
        end
      end
  end.

(** lock.h:156-160; [n] threads *)
Definition init (n : nat) : state := mkState 0 0 [] (repeat [Client []] n) [] [] false.

Fixpoint run (s : state) (l : list (nat * choice)) : outcome :=
  match l with
  | [] => Next s
  | (i, c) :: r => match step s i c with Next s' => run s' r | o => o end
  end.
