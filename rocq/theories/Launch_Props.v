(** C16: work division of LLVM kernel launches. *)
From Verif Require Import Base Arith_Model Launch_Model Launch_Proofs.
Local Open Scope N_scope.

(** For every packet width [w], block size (a multiple of [w], see
    jit_llvm_set_block_size), thread-pool size and every kernel size that keeps
    the 32-bit intermediate sums in range, and every order [order] in which the
    pool runs the work units 0..blocks-1: the kernel body is executed for a
    list [pk] of packets such that each element is inside exactly one of them
    and no packet starts beyond the end. What is missing for the full property:
    the sizes close to 2^32, for which it is false (see below). *)
Theorem C16_launch_exactly_once_partial :
  forall w desired cores size k order,
  0 < w < 2 ^ 32 -> desired = k * w -> 0 < desired -> 0 < size ->
  size + desired <= 2 ^ 32 -> size + 2 * cores * w + w <= 2 ^ 32 ->
  forall blocks bs, launch_plan w desired cores size = Some (blocks, bs) ->
  Permutation order (nseq 0 (N.to_nat blocks)) ->
  exists pk, launch w desired cores size order = Some pk /\
    (forall i, i < size ->
       length (filter (fun p => (p <=? i) && (i <? p + w)) pk) = 1%nat) /\
    (forall p, In p pk -> p < size /\ p mod w = 0).
Proof. exact launch_hits. Qed.
Print Assumptions C16_launch_exactly_once_partial.

(** 100 elements, 8-wide packets, 4 threads: regime 3, 8 blocks of 16. The
    units are executed in reverse order. *)
Example C16_example :
  launch_plan 8 16384 4 100 = Some (8, 16) /\
  Permutation (rev (nseq 0 8)) (nseq 0 8) /\
  launch 8 16384 4 100 (rev (nseq 0 8)) =
    Some [96; 80; 88; 64; 72; 48; 56; 32; 40; 16; 24; 0; 8].
Proof.
  split; [vm_compute; reflexivity|]. split; [|vm_compute; reflexivity].
  apply Permutation_sym, Permutation_rev.
Qed.

(** Size 2^32-1 on a machine with 8-wide vectors and 2 threads: no work unit is
    created, the kernel silently does nothing. *)
Theorem C16_launch_exactly_once_refuted :
  exists w desired cores size bs,
    0 < size < 2 ^ 32 /\ launch_plan w desired cores size = Some (0, bs).
Proof. exists 8, 16384, 2, (2 ^ 32 - 1), 8. split; [lia|vm_compute; reflexivity]. Qed.
Print Assumptions C16_launch_exactly_once_refuted.

(** A size for which the packet count does not wrap but the block count does
    (size > 2^32 - block size). *)
Theorem C16_launch_block_count_refuted :
  exists w desired cores size bs,
    0 < size /\ size + 2 * cores * w + w <= 2 ^ 32 /\
    launch_plan w desired cores size = Some (0, bs).
Proof. exists 8, 16384, 4, (2 ^ 32 - 8192), 16384. repeat split; try lia. Qed.
Print Assumptions C16_launch_block_count_refuted.
