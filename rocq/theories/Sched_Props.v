(** C26, C27: order of the schedule and its partition into kernels. *)
From Verif Require Import Base Sched_Model Sched_Spec Sched_Proofs Sched_Groups.
Local Open Scope N_scope.

(** For every schedule of fewer than 2^32 entries, every previous content of the
    scratch buffer and every correct std::sort / std::stable_sort, no access is
    out of bounds and the result is the stably sorted schedule. *)
Theorem C26_schedule_sort :
  forall sort stable_sort old l,
  sorts sort -> sorts_stably stable_sort -> N.of_nat (length l) < 2 ^ 32 ->
  exists r, schedule_sort sort stable_sort old l = Some r /\ stably_sorted l r.
Proof. exact schedule_sort_ok. Qed.
Print Assumptions C26_schedule_sort.

(** Both library functions can be implemented (insertion sort). *)
Example C26_ex_contracts : sorts (@isort bucket) /\ sorts_stably (@isort sv).
Proof. split; [exact isort_sorts|exact isort_stable]. Qed.

Definition demo : list sv :=
  [mkSv 4 9 1; mkSv 4 9 2; mkSv 100 3 3; mkSv 4 2 4; mkSv 100 3 5; mkSv 1 2 6; mkSv 4 9 7].
Example C26_ex :
  schedule_sort isort isort [mkSv 5 5 5] demo
  = Some [mkSv 100 3 3; mkSv 100 3 5; mkSv 4 2 4; mkSv 4 9 1; mkSv 4 9 2; mkSv 4 9 7; mkSv 1 2 6].
Proof. vm_compute. reflexivity. Qed.
(** 40 distinct keys: the comparison sort is used. *)
Definition many_keys : list sv := map (fun k => mkSv (k mod 40) (k mod 3) k) (map N.of_nat (seq 0 100)).
Example C26_ex_fallback :
  tally many_keys [] 0 = Some None /\
  option_map (fun r => map sv_index (firstn 6 r)) (schedule_sort isort isort [] many_keys)
  = Some [39; 79; 78; 38; 37; 77].
Proof. vm_compute. auto. Qed.

(** For every nonempty sorted schedule, the kernels tile it without gaps or
    overlaps, together contain exactly the scheduled entries in order, each has
    one size, which no other kernel has, and entries inside a kernel are
    ordered by scope. *)
Theorem C27_partition :
  forall l, l <> [] -> StronglySorted (fun x y => may_precede (sv_key x) (sv_key y)) l ->
  N.of_nat (length l) < 2 ^ 32 ->
  exists gs, partition l = Some gs /\ tiles 0 (N.of_nat (length l)) gs /\ flat_map (slice l) gs = l /\
    (forall g x, In g gs -> In x (slice l g) -> sv_size x = g_size g) /\
    (forall g, In g gs -> StronglySorted (fun x y => sv_scope x <= sv_scope y) (slice l g)) /\
    StronglySorted (fun g h => g_size h < g_size g) gs.
Proof. exact partition_ok. Qed.
Print Assumptions C27_partition.

Example C27_ex :
  (let? r := schedule_sort isort isort [] demo in partition r)
  = Some [mkGr 100 0 2; mkGr 4 2 6; mkGr 1 6 7].
Proof. vm_compute. reflexivity. Qed.
Example C27_ex_single : partition [mkSv 8 2 1; mkSv 8 3 2] = Some [mkGr 8 0 2].
Proof. vm_compute. reflexivity. Qed.
