(** Property C71. *)
From Verif Require Import Base Par_Model Registry_Model Registry_Spec Registry_Proofs
  Crd_Model Crd_Spec Crd_Inv Crd_Steps Crd_Run Crd_Examples.
Local Open Scope N_scope.

(** For every sorting function and every history of fewer than 2^32-1 operations in which
    the client follows the rules: no operation fails, hangs or touches released memory,
    each has its specified effect ([effect]); all arrays of the client and all buckets
    lent to it have the expected contents, nothing remains after the last release
    ([good]), and the buckets of an array stay as they are while it is in use ([kept]). *)
Theorem C71_histories sort os : sorts sort -> N.of_nat (length os) < 2 ^ 32 - 1 ->
  served sort init start os.
Proof. intros S1 L. exact (served_ok sort S1 os 0 init start CI_init ltac:(lia)). Qed.
Print Assumptions C71_histories.

(** Three instances, one of them unused: buckets by decreasing size; value 0 has no
    instance. Then: a bucket that the client acquired outlives its array; afterwards
    nothing remains. *)
Example C71_example :
  seen [Registry (Put A 100); Registry (Put A 200); Registry (Put B 300); Registry (Put A 400); New [3; 1; 1; 0; 1; 3]]
    (Domain A) 0
  = Some [(100, 1, Some [1; 2; 4]); (400, 3, Some [0; 5]); (0, 0, Some [3])].
Proof. vm_compute. reflexivity. Qed.

Example C71_example_release :
  (match run isort init [New [2; 1; 2]; Reduce (Upto 2) 0; Inc 3; Dec 0] with
   | Ret (s, a) => Some (a, data s 0, data s 1, data s 2, data s 3, cache s)
   | _ => None end,
   match run isort init [New [2; 1; 2]; Reduce (Upto 2) 0; Inc 3; Dec 0; Dec 3] with
   | Ret (s, a) => Some (vars s, bufs s 0, bufs s 1, blocks s 2)
   | _ => None end)
  = (Some ([AVar 0; ABuckets (Some 2); ANone; ANone], None, Some [1; 0; 2], None, Some [1], []),
     Some ([None; None; None; None], None, None, None)).
Proof. vm_compute. reflexivity. Qed.

(** The result is cached by variable only, and the cache is emptied only when the
    variable is freed. Writing to an array in place (jit_var_write on the only
    reference) leaves the old buckets: they no longer are the positions of their id. *)
Theorem C71_stale_write_refuted : exists sort os s l t i a bs b xs,
  sorts sort /\ run sort init os = Ret (s, l) /\ call_reduce sort s t i = Ret (s, Some a) /\
  blocks s a = Some bs /\ In b bs /\ data s i = Some xs /\ data s (b_index b) <> Some (positions xs (b_id b)).
Proof.
  exists isort, [New [1; 2; 2]; Reduce (Upto 2) 0; Write 0 0 2].
  eexists _, _, (Upto 2), 0%nat, _, _, _, _. split; [exact isort_sorts|].
  split; [vm_compute; reflexivity|]. split; [vm_compute; reflexivity|].
  split; [vm_compute; reflexivity|]. split; [left; reflexivity|]. split; [vm_compute; reflexivity|].
  vm_compute. discriminate.
Qed.
Print Assumptions C71_stale_write_refuted.

Example C71_stale_write_example :
  (seen [New [1; 2; 2]; Reduce (Upto 2) 0; Write 0 0 2] (Upto 2) 0, seen [New [1; 2; 2]; Write 0 0 2] (Upto 2) 0)
  = (Some [(0, 2, Some [1; 2]); (0, 1, Some [0])], Some [(0, 2, Some [0; 1; 2])]).
Proof. vm_compute. reflexivity. Qed.

(** A query for another domain returns the instances of the first domain. *)
Theorem C71_other_domain_refuted : exists sort os s l k i a bs b,
  sorts sort /\ run sort init os = Ret (s, l) /\ call_reduce sort s (Domain k) i = Ret (s, Some a) /\
  blocks s a = Some bs /\ In b bs /\
  reg_ptr (registry s) k (b_id b) <> Some (OPtr (b_ptr b)).
Proof.
  exists isort, [Registry (Put A 100); Registry (Put B 300); New [1; 1]; Reduce (Domain A) 0].
  eexists _, _, B, 0%nat, _, _, _. split; [exact isort_sorts|].
  split; [vm_compute; reflexivity|]. split; [vm_compute; reflexivity|].
  split; [vm_compute; reflexivity|]. split; [left; reflexivity|].
  vm_compute. discriminate.
Qed.
Print Assumptions C71_other_domain_refuted.

Example C71_other_domain_example :
  let os := [Registry (Put A 100); Registry (Put B 300); New [1; 1]] in
  (seen (os ++ [Reduce (Domain A) 0]) (Domain B) 0, seen os (Domain B) 0)
  = (Some [(100, 1, Some [0; 1])], Some [(300, 1, Some [0; 1])]).
Proof. vm_compute. reflexivity. Qed.

(** After an instance was removed, a query still returns its pointer. *)
Theorem C71_removed_instance_refuted : exists sort os s l k i a bs b,
  sorts sort /\ run sort init os = Ret (s, l) /\ call_reduce sort s (Domain k) i = Ret (s, Some a) /\
  blocks s a = Some bs /\ In b bs /\ b_ptr b <> 0 /\ reg_id (registry s) (b_ptr b) = ORaise.
Proof.
  exists isort, [Registry (Put A 100); New [1; 1]; Reduce (Domain A) 0; Registry (Remove 100)].
  eexists _, _, A, 0%nat, _, _, _. split; [exact isort_sorts|].
  split; [vm_compute; reflexivity|]. split; [vm_compute; reflexivity|].
  split; [vm_compute; reflexivity|]. split; [left; reflexivity|].
  split; [vm_compute; discriminate|vm_compute; reflexivity].
Qed.
Print Assumptions C71_removed_instance_refuted.

(** Values out of range (without JitFlag::Debug) are undefined behaviour, not an error. *)
Theorem C71_range_refuted : exists sort os s l t i, sorts sort /\ run sort init os = Ret (s, l) /\
  get s i <> None /\ call_reduce sort s t i = UB.
Proof.
  exists isort, [New [1; 3]]. eexists _, _, (Upto 2), 0%nat. split; [exact isort_sorts|].
  split; [vm_compute; reflexivity|]. split; [vm_compute; discriminate|vm_compute; reflexivity].
Qed.
Print Assumptions C71_range_refuted.
