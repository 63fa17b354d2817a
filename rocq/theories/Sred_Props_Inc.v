(** C61: atomic increments hand out every number exactly once. *)
From Verif Require Import Base Sred_Model Sred_Spec Sred_Proofs Sred_Inc.
Local Open Scope N_scope.

(** *** C61: any number of threads, vectors, lanes and counters, any interleaving of the
    atomic operations.  The results of the active lanes that refer to the counter at [a]
    are its old value and the numbers after it, each one once; the counter ends at the
    number after them. *)
Theorem C61_results : forall w work todos sched m ts' m',
  cprogs w work = Some todos -> crun sched (map cstart todos) m = (ts', m') -> (forall t, In t ts' -> ct_todo t = []) -> (forall a, m a < 2 ^ 32) ->
  forall a, a <> 0 ->
  exists r, all_results w work ts' a = Some r /\ Permutation r (map u32 (iota (m a) (requests w work a))) /\ m' a = u32 (m a + N.of_nat (requests w work a)).
Proof. exact inc_ok. Qed.
Print Assumptions C61_results.
(** *** C61: as long as there are at most 2^32 increments, no number is handed out twice *)
Theorem C61_distinct : forall w work todos sched m ts' m',
  cprogs w work = Some todos -> crun sched (map cstart todos) m = (ts', m') -> (forall t, In t ts' -> ct_todo t = []) -> (forall a, m a < 2 ^ 32) ->
  forall a r, a <> 0 -> N.of_nat (requests w work a) <= 2 ^ 32 -> all_results w work ts' a = Some r -> NoDup r.
Proof. exact inc_distinct. Qed.
Print Assumptions C61_distinct.
(** *** C61: the kernel ends; a vector performs one atomic operation per counter, and only
    on counters that an active lane refers to; a schedule that serves every thread often
    enough finishes *)
Theorem C61_ends : forall w work, exists todos, cprogs w work = Some todos /\
  forall sched m ts' m', crun sched (map cstart todos) m = (ts', m') ->
    (forall i ops, nth_error todos i = Some ops -> (length ops <= count_occ Nat.eq_dec sched i)%nat) -> forall t, In t ts' -> ct_todo t = [].
Proof. exact inc_ends. Qed.
Print Assumptions C61_ends.
Theorem C61_single : forall w b ops assign, cprog1 w b = Some (ops, assign) ->
  NoDup (map fst ops) /\ forall a c, In (a, c) ops -> a <> 0 /\ lanes_of w b a <> [] /\ c = N.of_nat (length (lanes_of w b a)).
Proof. exact cprog1_single. Qed.
Print Assumptions C61_single.
(** *** C61: a lane that is masked off returns 0 and changes nothing *)
Theorem C61_masked : forall w b ops assign done k, cprog1 w b = Some (ops, assign) -> k < w -> N.testbit (c_active b) k = false -> lane_result assign done k = 0.
Proof. exact cprog1_masked. Qed.
Print Assumptions C61_masked.
(** Examples: two threads, one with two vectors; two counters, one masked lane *)
Definition ex_vec (x y z u active : N) : cblock := {| c_ptr := fun k => 64 + 4 * nth (N.to_nat k) [x; y; z; u] 0; c_active := active |}.
Definition ex_work : list (list cblock) := [[ex_vec 0 1 0 0 15; ex_vec 1 1 0 1 7]; [ex_vec 0 0 0 1 15]].
Example ex_ops : cprogs 4 ex_work = Some [[(68, 1); (64, 3); (68, 2); (64, 1)]; [(68, 1); (64, 3)]].
Proof. vm_compute. reflexivity. Qed.
Definition ex_results (sched : list nat) (a : N) : option (list N) * N :=
  match cprogs 4 ex_work with
  | Some todos => let '(ts, m) := crun sched (map cstart todos) (fun _ => 10) in (all_results 4 ex_work ts a, m a)
  | None => (None, 0)
  end.
Example ex_run : ex_results [0; 1; 0; 1; 0; 0; 0]%nat 64 = (Some [10; 11; 12; 16; 13; 14; 15], 17).
Proof. vm_compute. reflexivity. Qed.
Example ex_run2 : ex_results [1; 1; 0; 0; 0; 0]%nat 68 = (Some [11; 12; 13; 10], 14).
Proof. vm_compute. reflexivity. Qed.
Example ex_requests : requests 4 ex_work 64 = 7%nat.
Proof. vm_compute. reflexivity. Qed.
