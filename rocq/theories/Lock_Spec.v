(** Mutual exclusion and delivery of messages. *)
From Verif Require Import Base Lock_Model.
Local Open Scope N_scope.

(** States reached by [n] threads. *)
Definition reached (n : nat) (s : state) : Prop := exists l, run (init n) l = Next s.

(** Scopes open in a thread, innermost first, and how many acquisitions they leave. *)
Definition scopes (st : list frame) : list scope := flat_map (fun f => match f with Client sc => sc | _ => [] end) st.
Fixpoint depth (l : list scope) : Z :=
  match l with [] => 0 | SLock :: r => depth r + 1 | SUnlock _ :: r => depth r - 1 end.

(** Thread [i] executes client code, and is inside the lock. *)
Definition in_client (s : state) (i : nat) : Prop := exists sc K, nth_error (threads s) i = Some (Client sc :: K).
Definition inside (s : state) (i : nat) : Prop :=
  exists st, in_client s i /\ nth_error (threads s) i = Some st /\ (0 < depth (scopes st))%Z.

(** Every thread is outside of all scopes and library functions. *)
Definition quiescent (s : state) : Prop := forall i st, nth_error (threads s) i = Some st -> st = [Client []].

(** Messages that have been taken from the queue but not delivered. *)
Definition todos (st : list frame) : list msg := flat_map (fun f => match f with Deliver t => t | _ => [] end) st.
Definition in_flight (s : state) : list msg := flat_map todos (threads s).
Definition got (s : state) : list msg := map snd (delivered s).

(** Runs in which messages are only taken from the queue while none is in flight. *)
Definition takes (s : state) (i : nat) : bool :=
  match nth_error (threads s) i with Some (Swap :: _) => true | _ => false end.
Fixpoint orderly (s : state) (l : list (nat * choice)) : Prop :=
  match l with
  | [] => True
  | (i, c) :: r => (takes s i = true -> in_flight s = []) /\
      match step s i c with Next s' => orderly s' r | _ => True end
  end.
