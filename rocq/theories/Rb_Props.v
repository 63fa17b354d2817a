(** C53: references and buffers of an evaluation. *)
From Verif Require Import Base Rb_Model Rb_Spec Rb_Proofs Rb_Eval.
Local Open Scope Z_scope.

(** A failing evaluation, whatever the operation that raises: apart from the queued side
    effects, which are dropped, every reference taken is released, the buffers of outputs
    are freed, and callbacks registered on the way are forgotten. *)
Theorem C53_failure : forall fails has_callback sort j s v s',
  (forall l, Permutation (sort l) l) -> idle s -> callable_job j ->
  eval fails has_callback sort j s v = Failed s' ->
  (forall i, cnt s' i = cnt s i - count i (queued s)) /\ Permutation (bufs s') (bufs s) /\ cbs s' = cbs s /\ clear s'.
Proof.
  intros fails has_callback sort j s v s' P I C E. unfold eval in E.
  pose proof (main_ok fails has_callback sort P j s I C (fun _ => True) (fun _ _ _ _ => Logic.I)) as M.
  destruct (eval_main fails has_callback sort j s) as [s1|s1]; [destruct (cleanup has_callback (sched s1) s1 v); discriminate|]. injection E as <-.
  destruct (rollback_ok fails fails _ _ _ _ M) as (A & B & D & F & _). split; [|auto]. intros i. rewrite A. unfold f0. lia.
Qed.
Print Assumptions C53_failure.

(** A successful one: side effects and callbacks are released once, the operands of what was
    computed are released, and all buffers belong to the outputs. *)
Theorem C53_success_partial : forall fails has_callback sort j s v s' v',
  (forall l, Permutation (sort l) l) -> idle s -> callable_job j ->
  NoDup (j_visited j) -> Permutation (filter (v_effect v) (j_visited j)) (kept s) -> (j_visited j <> [] -> pending j s) -> outputs_only sort j v ->
  eval fails has_callback sort j s v = Evaluated s' v' ->
  (forall i, cnt s' i = cnt s i - count i (queued s) - count i (cbs s) - count i (flat_map (operands v) (j_visited j))) /\
  Permutation (bufs s') (bufs s) /\ effects s' = [] /\ cbs s' = [] /\
  (forall i, In i (j_visited j) -> v_effect v' i = false /\ (v_out v i || v_effect v i = true -> v_dep v' i = [])).
Proof. exact success. Qed.
Print Assumptions C53_success_partial.

(** ** A job with nested calls, a getter, an output, an elided and a kept effect *)
Definition ex_state : st := mkSt (fun _ => 2) 0 [(5%nat, false); (6%nat, true)] [] [] [] [] [] [] [] [] [40%nat] [] 41.
Definition ex_job : job :=
  mkJob [(1%nat, false); (2%nat, true)] [1; 3; 5]%nat
    [mkKernel [true; false; false] (Some 9%nat)
       [Emit; CallTo 3 [7%nat] [([10; 11]%nat, [Emit; CallTo 11 [] [([12]%nat, [Emit])]]); ([13]%nat, [Emit])]; Getter 4]].
Definition ex_vars : vars := mkVars (Nat.eqb 1) (Nat.eqb 5) (fun i => match i with 1 => [3] | 3 => [20] | 5 => [1; 3] | _ => [] end%nat) (fun _ => None).
Definition ex_counts (s : st) : list Z := map (cnt s) (seq 0 21).
(** Every possible point of failure. *)
Definition failures : list nat :=
  filter (fun n => match eval (Nat.eqb n) (Nat.eqb 10) (fun l => l) ex_job ex_state ex_vars with Failed _ => true | _ => false end) (seq 0 40).
Example C53_ex_failures : failures = seq 0 24.
Proof. vm_compute. reflexivity. Qed.
Example C53_ex_failed :
  (* in the innermost callable, after an output was allocated *)
  match eval (Nat.eqb 12) (Nat.eqb 10) (fun l => l) ex_job ex_state ex_vars with
  | Failed s => map (cnt s) [1; 3; 5; 6; 7; 9; 11; 12]%nat = [2; 2; 1; 1; 2; 2; 2; 2] /\ bufs s = [40%nat]
  | Evaluated _ _ => False
  end.
Proof. vm_compute. auto. Qed.
Example C53_ex_success :
  match eval (fun _ => false) (Nat.eqb 10) (fun l => l) ex_job ex_state ex_vars with
  | Evaluated s v => map (cnt s) [1; 3; 5; 6; 7; 9; 10; 11; 20]%nat = [1; 0; 1; 1; 2; 2; 2; 2; 2] /\ bufs s = [40%nat] /\ v_data v 1 = Some 41%nat /\ temps s = []
  | Failed _ => False
  end.
Proof. vm_compute. auto. Qed.
Example C53_ex_hypotheses :
  idle ex_state /\ callable_job ex_job /\ NoDup (j_visited ex_job) /\ Permutation (filter (v_effect ex_vars) (j_visited ex_job)) (kept ex_state) /\
  pending ex_job ex_state /\ outputs_only (fun l => l) ex_job ex_vars.
Proof.
  split; [|split; [|split; [|split; [|split]]]].
  - repeat split; auto. constructor; [cbn; tauto|constructor]. constructor; [cbn; lia|constructor].
  - repeat constructor; cbn; discriminate.
  - repeat constructor; cbn; lia.
  - vm_compute. apply Permutation_refl.
  - exists 1%nat. left. cbn. auto.
  - intros [|[|[|n]]] i A B; cbn in *; try discriminate. injection B as <-. reflexivity.
    destruct n; discriminate.
Qed.

(** When assembling or uploading the data of calls fails half-way, temporary memory stays
    allocated (call.cpp:1131-1226: [agg] and [buf] are plain pointers). *)
Theorem C53_upload_refuted : exists fails has_callback sort j s v s',
  (forall l, Permutation (sort l) l) /\ idle s /\ callable_job j /\ eval fails has_callback sort j s v = Failed s' /\ temps s = [] /\ temps s' <> [].
Proof.
  assert (W : match eval (Nat.eqb 20) (fun _ => false) (fun l => l) ex_job ex_state ex_vars with Failed s' => length (temps s') = 1%nat | Evaluated _ _ => False end) by (vm_compute; reflexivity).
  destruct (eval (Nat.eqb 20) (fun _ => false) (fun l => l) ex_job ex_state ex_vars) as [s' v'|s'] eqn:E; [destruct W|].
  exists (Nat.eqb 20), (fun _ => false), (fun l => l), ex_job, ex_state, ex_vars, s'.
  split; [intros; apply Permutation_refl|]. split; [apply C53_ex_hypotheses|]. split; [apply C53_ex_hypotheses|]. split; [exact E|]. split; [reflexivity|]. intros X. rewrite X in W. discriminate.
Qed.
Print Assumptions C53_upload_refuted.

(** A side effect that was collected but not scheduled (jitc_elide_scatter answers "elide"
    only during the traversal, eval.cpp:176, since the scatter released while collecting
    was the last user of the target): nobody releases the reference of the queue. *)
Theorem C53_late_elision_refuted : exists fails has_callback sort j s v s' v',
  (forall l, Permutation (sort l) l) /\ idle s /\ callable_job j /\ NoDup (j_visited j) /\ pending j s /\ outputs_only sort j v /\
  eval fails has_callback sort j s v = Evaluated s' v' /\ In (5%nat, false) (effects s) /\ v_effect v 5 = true /\ effects s' = [] /\ cnt s' 5%nat = cnt s 5%nat.
Proof.
  pose (j := mkJob [(1%nat, false)] [1%nat] [mkKernel [true] None [Emit]]).
  assert (OO : outputs_only (fun l => l) j ex_vars) by (intros [|[|n]] i A B; cbn in *; try discriminate; injection B as <-; reflexivity).
  assert (W : match eval (fun _ => false) (fun _ => false) (fun l => l) j ex_state ex_vars with Evaluated s' _ => effects s' = [] /\ cnt s' 5%nat = 2 | Failed _ => False end) by (vm_compute; auto).
  destruct (eval (fun _ => false) (fun _ => false) (fun l => l) j ex_state ex_vars) as [s' v'|s'] eqn:E; [|destruct W].
  exists (fun _ => false), (fun _ => false), (fun l => l), j, ex_state, ex_vars, s', v'.
  split; [intros; apply Permutation_refl|]. split; [apply C53_ex_hypotheses|]. split; [repeat constructor|]. split; [repeat constructor; cbn; tauto|].
  split; [exists 1%nat; left; cbn; auto|]. split; [exact OO|].
  split; [exact E|]. split; [cbn; auto|]. split; [reflexivity|]. exact W.
Qed.
Print Assumptions C53_late_elision_refuted.
