(** C28: what ends up in a kernel, and in which order. *)
From Verif Require Import Base Sched_Model Sched_Spec Sched_Proofs Sched_Groups Trav_Model Trav_Spec Trav_Collect Trav_Order.
Local Open Scope nat_scope.

(** Collecting the variables of an evaluation always ends, with the variables the outputs of
    each size need, each once and after its operands, or with an error that names a reason. *)
Theorem C28_collect :
  forall g stable_sort gen scratch0 tasks,
  sorts stable_sort -> closed g -> acyclic g -> (gen <= 0x7fffffff)%N -> stale gen scratch0 -> Forall (fun t => t_index t < length g) tasks ->
  match collect g stable_sort gen scratch0 tasks with
  | (Done s, gen') => (gen' <= 0x7fffffff)%N /\ stale gen' (scratch s) /\
      (forall x, In x (sched s) -> (exists t, In t tasks /\ t_size t = sv_size x) /\ exists v, has g (N.to_nat (sv_index x)) v /\ sv_scope x = n_scope v) /\
      forall size, NoDup (vars (of_size size (sched s))) /\
        (forall i, In i (vars (of_size size (sched s))) -> needed g (roots_of size tasks) (i, 0) /\ forall v, has g i v -> live v) /\
        (levelled g (roots_of size tasks) -> exact_schedule g (roots_of size tasks) (of_size size (sched s))) /\
        operands_first g (of_size size (sched s))
  | (Raised s, gen') => (gen' <= 0x7fffffff)%N /\ stale gen' (scratch s) /\ exists size p, needed g (roots_of size tasks) p /\ stuck g (fst p)
  | _ => False
  end.
Proof. exact collect_ok. Qed.
Print Assumptions C28_collect.

(** The instruction sequence of every kernel, after ordering by scope. *)
Theorem C28_kernels :
  forall g sort ssv stask old gen scratch0 tasks s gen',
  sorts sort -> sorts_stably ssv -> sorts stask -> closed g -> acyclic g -> (gen <= 0x7fffffff)%N -> stale gen scratch0 ->
  Forall (fun t => t_index t < length g) tasks ->
  collect g stask gen scratch0 tasks = (Done s, gen') -> sched s <> [] -> (N.of_nat (length (sched s)) < 2 ^ 32)%N ->
  exists r gs, schedule_sort sort ssv old (sched s) = Some r /\ partition r = Some gs /\ flat_map (slice r) gs = r /\
    forall gr, In gr gs ->
      let roots := roots_of (g_size gr) tasks in
      NoDup (vars (slice r gr)) /\
      (forall i, In i (vars (slice r gr)) -> needed g roots (i, 0) /\ forall v, has g i v -> live v) /\
      (levelled g roots -> exact_schedule g roots (slice r gr)) /\
      scoped_operands_first g (slice r gr) /\
      (scopes_ok g (slice r gr) = true -> dependencies_first g (slice r gr)) /\
      (forall i k v w, In i (vars (slice r gr)) -> In k (vars (slice r gr)) -> has g i v -> has g k w -> (n_scope w < n_scope v)%N ->
         before (vars (slice r gr)) k i).
Proof. exact kernels_ok. Qed.
Print Assumptions C28_kernels.

(** ** Examples *)
Definition plain (deps : list nat) (scope : N) : node := mkNode Plain deps scope false.
(** 0, 1: operands; 2: loop variable; 3: its next value; 4: after the loop; 5: an elided scatter;
    6: a scatter using the loop result *)
Definition loop_graph : list node :=
  [plain [] 1%N; plain [0] 1%N; mkNode (LoopPhi (Some (1, 3))) [] 2%N false; plain [2; 0] 2%N;
   mkNode (LoopOutput (Some (3, 1, 2))) [] 3%N false; mkNode (Scatter true) [4; 0] 3%N false; mkNode (Scatter false) [4; 0; 4] 3%N false].
Definition all_tasks : list task := [mkTask 4%N 0 false; mkTask 8%N 5 true; mkTask 8%N 6 true; mkTask 8%N 4 false].
Example C28_ex :
  match collect loop_graph isort 7%N (fun i => 15%N) all_tasks with
  | (Done s, gen) => gen = 9%N /\ vars (of_size 8%N (sched s)) = [0; 1; 2; 3; 4; 6] /\ vars (of_size 4%N (sched s)) = [0]
      /\ match schedule_sort isort isort [] (sched s) with Some r => vars r = [0; 1; 2; 3; 4; 6; 0] /\ scopes_ok loop_graph r = true | None => False end
  | _ => False
  end.
Proof. vm_compute. repeat split. Qed.
(** The last generation: all stamps are reset. *)
Example C28_ex_wrap :
  match collect loop_graph isort 0x7fffffff%N (fun i => 0xffffffff%N) all_tasks with
  | (Done s, gen) => gen = 2%N /\ vars (of_size 8%N (sched s)) = [0; 1; 2; 3; 4; 6] | _ => False end.
Proof. vm_compute. repeat split. Qed.
Example C28_ex_raised :
  match collect [plain [] 1%N; mkNode Plain [0] 1%N true; plain [1] 1%N] isort 0%N (fun _ => 0%N) [mkTask 8%N 2 false] with
  | (Raised _, _) => True | _ => False end.
Proof. vm_compute. exact I. Qed.
(** The hypotheses hold for this graph. *)
Lemma loop_edges : forall p q, operand loop_graph p q \/ feedback loop_graph p q ->
  In (fst p, fst q) [(1, 0); (2, 1); (2, 3); (3, 2); (3, 0); (4, 3); (4, 1); (4, 2); (6, 4); (6, 0)] /\ snd p = snd q /\ (feedback loop_graph p q <-> (fst p, fst q) = (2, 3)).
Proof.
  assert (FB : forall i d q, feedback loop_graph (i, d) q -> i = 2 /\ q = (3, d)).
  { intros i d q F. inversion F; subst. unfold has in *. do 7 (destruct i as [|i]; [match goal with H : nth_error _ _ = Some _ |- _ => cbn in H; injection H as <- end; match goal with K : n_kind _ = _ |- _ => cbn in K; try discriminate K; injection K as <- <- end; auto|]). destruct i; discriminate. }
  assert (FB2 : forall d, feedback loop_graph (2, d) (3, d)) by (intros d; eapply fb_phi; reflexivity).
  intros [i d] q [O|F].
  - assert (HV : exists v, has loop_graph i v) by (inversion O; eauto). destruct HV as [v HV]. unfold has in HV.
    assert (A : In (i, fst q) [(1, 0); (2, 1); (3, 2); (3, 0); (4, 3); (4, 1); (4, 2); (6, 4); (6, 0)] /\ d = snd q).
    { pose proof (operand_edges _ _ _ _ _ HV O) as I. do 7 (destruct i as [|i]; [cbn in HV; injection HV as <-; cbn in I; intuition (subst; cbn; tauto)|]). destruct i; discriminate. }
    destruct A as [A E]. cbn [fst snd]. split; [cbn in *; tauto|]. split; [exact E|]. split.
    + intros F. apply FB in F. destruct F as [-> ->]. reflexivity.
    + intros E2. rewrite E2 in A. cbn in A. exfalso. repeat (destruct A as [A|A]; [discriminate A|]). exact A.
  - apply FB in F. destruct F as [-> ->]. cbn [fst snd]. split; [cbn; tauto|]. split; [reflexivity|]. split; auto.
Qed.
Example C28_ex_hypotheses : closed loop_graph /\ acyclic loop_graph /\ levelled loop_graph (roots_of 8%N all_tasks).
Proof.
  split; [|split].
  - split.
    + intros p q O. apply loop_edges in O. destruct O as [I _]. cbn in I. cbn [length loop_graph]. repeat (destruct I as [I|I]; [injection I as _ <-; lia|]). destruct I.
    + intros i v H K. unfold has in H. do 7 (destruct i as [|i]; [cbn in H; injection H as <-; discriminate K|]). destruct i; discriminate.
  - exists (fun i => i). intros p q O. pose proof (loop_edges p q (or_introl O)) as (I & D & F). cbn in I.
    assert (NF : (fst p, fst q) <> (2, 3)).
    { intros E. destruct p as [i d], q as [j e]. cbn in E. injection E as -> ->. pose proof (operand_edges loop_graph 2 d (3, e) _ eq_refl O) as J. cbn in J. destruct J as [J|[]]. discriminate. }
    repeat (destruct I as [I|I]; [try (injection I as <- <-; lia); exfalso; apply NF; symmetry; exact I|]). destruct I.
  - assert (Z : forall p, needed loop_graph (roots_of 8%N all_tasks) p -> snd p = 0).
    { intros p N. induction N as [i I|p q N IH O|p q N IH O]; [reflexivity| |]; rewrite <- IH; symmetry; apply (loop_edges p q); auto. }
    intros i d e A B NE. apply Z in A, B. cbn in A, B. congruence.
Qed.

(** ** Limits *)
(** A variable wrapped as the input of a call that occurs at two depths of nested calls is
    visited once only; the kernel then lacks the variable it wraps. *)
Definition nested : list node :=
  [plain [] 1%N; mkNode CallInput [0] 2%N false; mkNode (Call false [] [1] []) [] 3%N false; mkNode (Call false [] [2] []) [] 4%N false].
Theorem C28_levels_refuted :
  exists g tasks s gen', collect g isort 0%N (fun _ => 0%N) tasks = (Done s, gen') /\
    exists k, k < length g /\ needed g (roots_of 8%N tasks) (k, 0) /\ ~ In k (vars (of_size 8%N (sched s))).
Proof.
  exists nested, [mkTask 8%N 3 false; mkTask 8%N 2 false]. eexists. eexists. split; [vm_compute; reflexivity|].
  exists 0. split; [cbn; lia|]. split.
  - eapply need_op; [eapply (need_op _ _ (2, 0) (1, 1)); [apply need_root; right; left; reflexivity|]|].
    + eapply op_call_body; [reflexivity|reflexivity|left; reflexivity].
    + eapply op_input; reflexivity.
  - vm_compute. intros [E|[E|[]]]; discriminate.
Qed.
Print Assumptions C28_levels_refuted.

(** The check of jitc_assemble covers [dep] only: another operand can follow its user. *)
Theorem C28_other_operands_refuted :
  exists g tasks s gen' r, collect g isort 0%N (fun _ => 0%N) tasks = (Done s, gen') /\ schedule_sort isort isort [] (sched s) = Some r /\
    scopes_ok g r = true /\ exists i k, In i (vars r) /\ operand g (i, 0) (k, 0) /\ before (vars r) i k.
Proof.
  exists [plain [] 2%N; mkNode (Listed [0]) [] 1%N false], [mkTask 8%N 1 false]. eexists. eexists. eexists.
  split; [vm_compute; reflexivity|]. split; [vm_compute; reflexivity|]. split; [reflexivity|]. exists 1, 0. split; [left; reflexivity|]. split.
  - eapply op_list; [reflexivity|reflexivity|left; reflexivity].
  - exists [], [], []. reflexivity.
Qed.
Print Assumptions C28_other_operands_refuted.

(** With the optimization of calls, the inputs are reached through the outputs.  Unless a new
    scope is started before the call, a later output's input follows the call reading it. *)
Theorem C28_call_inputs_refuted :
  exists g tasks s gen' r call outer inner se k v, collect g isort 0%N (fun _ => 0%N) tasks = (Done s, gen') /\
    schedule_sort isort isort [] (sched s) = Some r /\ scopes_ok g r = true /\
    has g call v /\ n_kind v = Call true outer inner se /\ In k outer /\ before (vars r) call k.
Proof.
  exists [plain [] 1%N; plain [] 1%N; mkNode CallInput [0] 1%N false; mkNode CallInput [1] 1%N false; mkNode (Call true [0; 1] [2; 3] []) [] 1%N false;
          mkNode (CallOutput [2]) [4] 1%N false; mkNode (CallOutput [3]) [4] 1%N false], [mkTask 8%N 5 false; mkTask 8%N 6 false].
  eexists. eexists. eexists. exists 4, [0; 1], [2; 3], [], 1. eexists.
  split; [vm_compute; reflexivity|]. split; [vm_compute; reflexivity|]. split; [reflexivity|]. split; [reflexivity|]. split; [reflexivity|]. split; [right; left; reflexivity|].
  exists [0], [5], [6]. reflexivity.
Qed.
Print Assumptions C28_call_inputs_refuted.
