(** C45: the global lock; C46: postponed log messages. *)
From Verif Require Import Base Lock_Model Lock_Spec Lock_Proofs Lock_Log.
Local Open Scope N_scope.

(** At most one thread is inside, for every number of threads and every interleaving. *)
Theorem C45_mutual_exclusion : forall n s i j, reached n s -> inside s i -> inside s j -> i = j.
Proof.
  assert (G : forall n s i, reached n s -> inside s i -> owner s = S i).
  { intros n s i R (st & (sc & K & E1) & E & D). rewrite E in E1. injection E1 as ->.
    destruct (i_thread s (reached_inv n s R) _ _ E) as ([_ LV] & _ & _).
    apply Nat.eqb_eq. eapply level_own; [exact LV|]. unfold depth_of. lia. }
  intros n s i j R A B. pose proof (G n s i R A). pose proof (G n s j R B). congruence.
Qed.
Print Assumptions C45_mutual_exclusion.

(** recursion_count is only accessed by the thread that holds the lock. *)
Theorem C45_no_race : forall n l, run (init n) l <> Race.
Proof. intros n l E. pose proof (run_fine l (init n) (inv_init n)) as F. rewrite E in F. exact F. Qed.
Print Assumptions C45_no_race.

(** A thread executing client code holds the lock exactly if its acquisitions outnumber its
    releases, and the recursion count is that number (with the flag in the top bit). *)
Theorem C45_nesting : forall n s i sc K, reached n s -> nth_error (threads s) i = Some (Client sc :: K) ->
  let d := depth (scopes (Client sc :: K)) in
  (owner s = S i <-> (0 < d)%Z) /\
  (owner s = S i -> (Z.of_N (count s) = d \/ Z.of_N (count s) = d + 2 ^ 63)%Z).
Proof.
  intros n s i sc K R E d. destruct (i_thread s (reached_inv n s R) _ _ E) as ([_ LV] & W & _).
  apply wf_depth in W. fold d in W. change (depth_of (Client sc :: K)) with d in LV. destruct (Nat.eqb_spec (owner s) (S i)) as [O|O].
  - apply level_true in LV. split; [split; [intros _; apply LV|auto]|intros _; apply LV].
  - apply level_free in LV. split; [split; [congruence|lia]|congruence].
Qed.
Print Assumptions C45_nesting.

(** Once every scope is closed, the lock is free. *)
Theorem C45_free : forall n s, reached n s -> quiescent s -> owner s = O.
Proof. intros n s R Q. exact (proj1 (quiet_free s (reached_inv n s R) Q)). Qed.
Print Assumptions C45_free.

(** A thread that starts, or waits, to acquire a free lock obtains it in a few steps of its own. *)
Theorem C45_progress : forall n s i a K, reached n s -> owner s = O ->
  nth_error (threads s) i = Some (Acq a :: K) ->
  exists k s', (k <= 4)%nat /\ run s (repeat (i, CGo) k) = Next s' /\ owner s' = S i /\ count s' = 1 /\
    threads s' = set_nth i K (threads s).
Proof.
  intros n s i a K R OZ E.
  assert (LI : (i < length (threads s))%nat) by (apply nth_error_Some; rewrite E; discriminate).
  assert (SS : forall {A} (x y : A) l, set_nth i y (set_nth i x l) = set_nth i y l).
  { clear. intros A x y l. revert i. induction l as [|h l IH]; intros [|i]; cbn; auto. f_equal. auto. }
  assert (LAST : forall t, owner t = S i -> nth_error (threads t) i = Some (Acq ASet :: K) ->
    exists s', step t i CGo = Next s' /\ owner s' = S i /\ count s' = 1 /\ threads s' = set_nth i K (threads t)).
  { intros t OT ET. unfold step. rewrite ET. unfold with_count. rewrite OT, Nat.eqb_refl. eexists. split; [reflexivity|]. cbn. auto. }
  assert (CAS : forall t b, (b = ACas \/ b = AWeak) -> owner t = 0%nat -> nth_error (threads t) i = Some (Acq b :: K) -> (i < length (threads t))%nat ->
    exists s', run t (repeat (i, CGo) 2) = Next s' /\ owner s' = S i /\ count s' = 1 /\ threads s' = set_nth i K (threads t)).
  { intros t b B OT ET LT. cbn [repeat run].
    assert (ST : step t i CGo = Next (set_thread (set_owner t (S i)) i (Acq ASet :: K))).
    { unfold step. rewrite ET. destruct B as [-> | ->]; rewrite OT; reflexivity. }
    rewrite ST. destruct (LAST (set_thread (set_owner t (S i)) i (Acq ASet :: K))) as (s' & S1 & S2 & S3 & S4);
      [reflexivity|cbn; apply nth_error_set_nth_eq; exact LT|]. exists s'. rewrite S1. split; [reflexivity|]. split; [exact S2|]. split; [exact S3|].
    rewrite S4. cbn. apply SS. }
  assert (PRE : forall a b, step s i CGo = Next (set_thread s i (Acq b :: K)) -> (b = ACas \/ b = AWeak) -> a = Acq b ->
    exists s', run s (repeat (i, CGo) 3) = Next s' /\ owner s' = S i /\ count s' = 1 /\ threads s' = set_nth i K (threads s)).
  { intros _ b ST B _. change (repeat (i, CGo) 3) with ((i, CGo) :: repeat (i, CGo) 2). cbn [run]. rewrite ST.
    destruct (CAS (set_thread s i (Acq b :: K)) b B) as (s' & S1 & S2 & S3 & S4); [exact OZ|cbn; apply nth_error_set_nth_eq; exact LI|cbn; rewrite set_nth_length; exact LI|].
    exists s'. split; [exact S1|]. split; [exact S2|]. split; [exact S3|]. rewrite S4. cbn. apply SS. }
  assert (NOT : a <> AInc /\ a <> ASet).
  { pose proof (i_thread s (reached_inv n s R) _ _ E) as (SH & _). rewrite OZ in SH. cbn [shape Nat.eqb] in SH.
    split; intros ->; destruct SH as [_ [X _]]; discriminate. }
  destruct a; try (destruct NOT; congruence).
  - destruct (PRE (Acq ACas) ACas) as (s' & H); auto; [unfold step; rewrite E, OZ; reflexivity|]. exists 3%nat, s'. split; [lia|exact H].
  - destruct (CAS s ACas) as (s' & H); auto. exists 2%nat, s'. split; [lia|exact H].
  - destruct (PRE (Acq AWeak) AWeak) as (s' & H); auto; [unfold step; rewrite E, OZ; reflexivity|]. exists 3%nat, s'. split; [lia|exact H].
  - destruct (CAS s AWeak) as (s' & H); auto. exists 2%nat, s'. split; [lia|exact H].
Qed.
Print Assumptions C45_progress.

(** Messages are neither lost nor duplicated: every logged message has been delivered once,
    is about to be, or is queued. *)
Theorem C46_once : forall n s, reached n s -> Permutation (logged s) (got s ++ in_flight s ++ queue s).
Proof. intros n s [l E]. exact (conserved_run l _ _ (conserved_init n) E). Qed.
Print Assumptions C46_once.

(** A thread does not hold the lock while it delivers a message. *)
Theorem C46_outside : forall n s, reached n s ->
  Forall (fun d : nat * nat * msg => snd (fst d) <> S (fst (fst d))) (delivered s).
Proof. intros n s [l E]. exact (outside_run l _ _ (inv_init n) ltac:(constructor) E). Qed.
Print Assumptions C46_outside.

(** When all scopes are closed, everything has been delivered, unless the client has deferred
    the last flush. *)
Theorem C46_complete : forall n s, reached n s -> quiescent s -> deferred s = false ->
  queue s = [] /\ Permutation (logged s) (got s).
Proof.
  intros n s R Q D. destruct (quiet_queue n s R Q) as [QE|X]; [|congruence]. split; [exact QE|].
  pose proof (C46_once n s R) as P. rewrite (quiet_flight s Q), QE, !app_nil_r in P. exact P.
Qed.
Print Assumptions C46_complete.

(** Deliveries follow the order of logging if no batch is taken from the queue while another
    one is being delivered (by another thread, or by a callback that logs). *)
Theorem C46_order_partial : forall n l s, run (init n) l = Next s -> orderly (init n) l ->
  logged s = got s ++ in_flight s ++ queue s.
Proof. intros n l s E O. exact (proj1 (ordered_run l _ _ (ordered_init n) O E)). Qed.
Print Assumptions C46_order_partial.

(** Otherwise they need not: a message logged by a callback overtakes the rest of the batch, *)
Definition nested_run : list (nat * choice) :=
  map (fun c => (0%nat, c))
    [CLock; CGo; CGo; CGo; CLog 1; CGo; CGo; CLog 2; CGo; CGo; CUnlock; CGo; CGo; CGo; CGo; CGo; CGo;
     CGo; CLog 3; CGo; CGo; CGo; CGo; CReturn; CGo; CReturn; CGo; CReturn; CGo].
Theorem C46_order_nested_refuted :
  exists l s, run (init 1) l = Next s /\ quiescent s /\ logged s = [1; 2; 3] /\ got s = [1; 3; 2].
Proof.
  exists nested_run. eexists. split; [vm_compute; reflexivity|]. split; [|split; reflexivity].
  intros [|[|i]] st E; cbn in E; congruence.
Qed.
Print Assumptions C46_order_nested_refuted.
(** and so does a message logged by another thread. *)
Definition two_run : list (nat * choice) :=
  map (fun c => (0%nat, c)) [CLog 1; CGo; CGo; CGo] ++ map (fun c => (1%nat, c)) [CLog 2; CGo; CGo; CGo; CGo; CReturn; CGo] ++
  map (fun c => (0%nat, c)) [CGo; CReturn; CGo].
Theorem C46_order_threads_refuted :
  exists l s, run (init 2) l = Next s /\ quiescent s /\ logged s = [1; 2] /\ got s = [2; 1].
Proof.
  exists two_run. eexists. split; [vm_compute; reflexivity|]. split; [|split; reflexivity].
  intros [|[|[|i]]] st E; cbn in E; congruence.
Qed.
Print Assumptions C46_order_threads_refuted.
(** A deferred flush is not made up for when the lock is released again: only the next
    message or an explicit flush delivers. *)
Definition deferred_run : list (nat * choice) :=
  map (fun c => (0%nat, c)) [CLog 1; CGo; CFail; CLock; CGo; CGo; CGo; CUnlock; CGo; CGo].
Theorem C46_deferred_refuted :
  exists l s, run (init 1) l = Next s /\ quiescent s /\ logged s = [1] /\ got s = [] /\ queue s = [1].
Proof.
  exists deferred_run. eexists. split; [vm_compute; reflexivity|]. split; [|repeat split; reflexivity].
  intros [|[|i]] st E; cbn in E; congruence.
Qed.
Print Assumptions C46_deferred_refuted.

(** Examples: nesting with a temporary release while another thread waits; the waiting thread
    enters only then. *)
Definition go (i : nat) (k : nat) : list (nat * choice) := repeat (i, CGo) k.
Definition two_threads : list (nat * choice) :=
  [(0%nat, CLock)] ++ go 0 3 ++ [(1%nat, CLock)] ++ go 1 4 ++ [(0%nat, CLog 7)] ++ go 0 2 ++ [(0%nat, CYield)] ++ go 0 2 ++
  go 1 3 ++ [(1%nat, CUnlock)] ++ go 1 2 ++ [(0%nat, CResume)] ++ go 0 4 ++ [(0%nat, CUnlock)] ++ go 0 4.
Example C45_ex :
  match run (init 2) (firstn 8 two_threads) with Next s => owner s = 1%nat /\ nth 1 (threads s) [] = [Acq ASpin; Client [SLock]] | _ => False end /\
  match run (init 2) (firstn 18 two_threads) with Next s => owner s = 2%nat /\ inside s 1 /\ queue s = [7] | _ => False end /\
  match run (init 2) two_threads with Next s => owner s = 0%nat /\ count s = 0 | _ => False end.
Proof.
  split; [vm_compute; auto|]. split.
  - vm_compute. split; [reflexivity|]. split; [|reflexivity]. eexists. split; [|split; [reflexivity|reflexivity]]. eexists _, _. reflexivity.
  - vm_compute. auto.
Qed.
Example C46_ex :
  match run (init 2) (two_threads ++ go 0 3 ++ [(0%nat, CReturn)] ++ go 0 1) with
  | Next s => got s = [7] /\ logged s = [7] /\ quiescent s | _ => False end /\
  orderly (init 2) (two_threads ++ go 0 3 ++ [(0%nat, CReturn)] ++ go 0 1).
Proof.
  split.
  - vm_compute. split; [reflexivity|]. split; [reflexivity|]. intros [|[|[|i]]] st E; cbn in E; congruence.
  - vm_compute. intuition discriminate.
Qed.
