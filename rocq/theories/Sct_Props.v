(** C64: a scatter is an update of one array. *)
From Verif Require Import Base Sct_Model Sct_Spec Sct_Proofs Sct_Inv.

(** Programs of array operations, gathers, scatters, reads: what is read are the values of the
    functional semantics, for every order of the memory operations of an evaluation, and
    whichever thread performs them.  In particular no evaluation has a race between parts of
    its kernels, aborts or raises.
    Missing: programs that are not [steady] or not [apart] (see the refutations), plain
    scatters with repeated indices, modes Permute and NoConflicts. *)
Theorem C64_functional_partial : forall (V : Type) (veq : V -> V -> bool) (zero : V) (red : rop -> V -> V -> V) (to_idx : V -> nat) (truth : V -> bool)
  (llvm : bool) (sh : nat -> list (@upd V) -> list (@upd V)) (own : nat -> @upd V -> bool),
  (forall e l, Permutation (sh e l) l) ->
  (forall o, o <> RId -> forall a x y, red o (red o a x) y = red o (red o a y) x) ->
  (forall a b, veq a b = true -> a = b) -> (forall a c, red RId a c = c) -> (forall a, red RAdd a zero = a) ->
  forall n ps outs, srun zero red to_idx truth (repeat None n) ps = Some outs -> steady (fun _ => None) ps -> apart ps ->
  exists st, run veq zero red to_idx truth llvm sh own (init zero n) ps = Ok (st, outs).
Proof.
  intros V veq zero red to_idx truth llvm sh own H1 H2 H3 H4 H5 n ps outs S1 S2 S3.
  apply (@run_ok V veq zero red to_idx truth llvm sh own H1 H2 H3 H4 H5) with (sl := repeat None n) (tr := fun _ => None); auto.
  apply (@init_ok V veq zero red to_idx truth sh own); auto.
Qed.
Print Assumptions C64_functional_partial.

(** ** Numbers *)
Definition nred (o : rop) (a c : nat) : nat := match o with RId => c | RAdd => a + c | RMin => Nat.min a c | RMax => Nat.max a c end.
Definition ntruth (a : nat) : bool := negb (Nat.eqb a 0).
Definition spec (ps : list (@op nat)) : option (list (list nat)) := srun 0 nred id ntruth (repeat None 8) ps.
Definition result (r : res (@mst nat * list (list nat))) : res (list (list nat)) :=
  match r with Ok (_, o) => Ok o | Raise => Raise | Abort => Abort | Race => Race end.
Definition exec (llvm : bool) (sh : nat -> list (@upd nat) -> list (@upd nat)) (own : nat -> @upd nat -> bool) (ps : list (@op nat)) : res (list (list nat)) :=
  result (run Nat.eqb 0 nred id ntruth llvm sh own (init 0 8) ps).
Definition inorder : nat -> list (@upd nat) -> list (@upd nat) := fun _ l => l.
Definition backward : nat -> list (@upd nat) -> list (@upd nat) := fun _ l => rev l.
Definition nobody : nat -> @upd nat -> bool := fun _ _ => false.

Theorem C64_numbers_partial : forall llvm sh own ps outs, (forall e l, Permutation (sh e l) l) ->
  spec ps = Some outs -> steady (fun _ => None) ps -> apart ps -> exec llvm sh own ps = Ok outs.
Proof.
  intros llvm sh own ps outs P S1 S2 S3. unfold exec.
  destruct (C64_functional_partial nat Nat.eqb 0 nred id ntruth llvm sh own P) with (n := 8) (ps := ps) (outs := outs) as [st ->]; auto.
  - intros [] H a x y; cbn; try lia; congruence.
  - intros a b H. apply Nat.eqb_eq in H. auto.
Qed.
Print Assumptions C64_numbers_partial.

(** A histogram whose old value is used afterwards, scatters with a gathered operand, a
    shared target *)
Definition demo : list (@op nat) :=
  [ OLit 0 4 0; OMem 1 6 (fun k => Nat.modulo k 4); OLit 2 1 1; OLit 3 1 1;
    OScatter 0 2 1 3 RAdd true false; OCopy 4 0; OScatter 0 2 1 3 RAdd true false;
    OGather 5 0 1 3; ORead 0; ORead 4; OEval;
    OScatter 4 5 1 2 RMax false false; ONode 6 (fun l => list_sum l) [4; 4]; OScatter 4 2 2 2 RId false false; ORead 6; ORead 4 ].
Example C64_ex : spec demo = Some [[4; 4; 2; 2]; [2; 2; 1; 1]; [8; 8; 4; 4]; [4; 1; 2; 2]]
  /\ exec true backward nobody demo = Ok [[4; 4; 2; 2]; [2; 2; 1; 1]; [8; 8; 4; 4]; [4; 1; 2; 2]]
  /\ exec false inorder nobody demo = Ok [[4; 4; 2; 2]; [2; 2; 1; 1]; [8; 8; 4; 4]; [4; 1; 2; 2]].
Proof. vm_compute. auto. Qed.
Example C64_ex_steady : steady (fun _ => None) demo /\ apart demo.
Proof. unfold apart, demo. cbn. split; [intuition congruence|]. repeat constructor; lia. Qed.

(** The restrictions are needed. *)
(** A plain scatter followed by a reduction that threads perform on copies (the default on the
    LLVM backend): the copies are made without the pending scatter, which is then dropped *)
Definition set_add : list (@op nat) :=
  [ OMem 0 2 (fun _ => 0); OLit 1 1 5; OLit 2 1 0; OLit 3 1 1; OScatter 0 1 2 3 RId false false; OScatter 0 3 3 3 RAdd true false; ORead 0 ].
Theorem C64_set_then_expand_refuted : exists ps outs, spec ps = Some outs /\ apart ps /\ exec true inorder nobody ps <> Ok outs.
Proof. exists set_add, [[5; 1]]. split; [reflexivity|]. split; [repeat constructor; lia|]. vm_compute. congruence. Qed.
Print Assumptions C64_set_then_expand_refuted.
Example C64_ex_set_then_expand : exec true inorder nobody set_add = Ok [[0; 1]].
Proof. reflexivity. Qed.
(** Also a reduction followed by the same reduction with copies *)
Definition add_add : list (@op nat) :=
  [ OMem 0 2 (fun _ => 0); OLit 1 1 5; OLit 2 1 0; OLit 3 1 1; OScatter 0 1 2 3 RAdd false false; OScatter 0 3 3 3 RAdd true false; ORead 0 ].
Theorem C64_direct_then_expand_refuted : exists ps outs, spec ps = Some outs /\ apart ps /\ exec true inorder nobody ps <> Ok outs.
Proof. exists add_add, [[5; 1]]. split; [reflexivity|]. split; [repeat constructor; lia|]. vm_compute. congruence. Qed.
Print Assumptions C64_direct_then_expand_refuted.
(** Without copies both become part of one evaluation, whose memory operations are not ordered
    (kernels with more lanes come first) *)
Definition set_many : list (@op nat) :=
  [ OMem 0 2 (fun _ => 0); OLit 1 1 5; OLit 2 1 0; OLit 3 1 1; OScatter 0 1 2 3 RId false false; OLit 4 3 0; OScatter 0 3 4 3 RAdd false false; ORead 0 ].
Theorem C64_set_then_add_refuted : exists ps outs sh, spec ps = Some outs /\ apart ps /\ (forall e l, Permutation (sh e l) l) /\ exec false sh nobody ps <> Ok outs.
Proof.
  exists set_many, [[8; 0]], backward. split; [reflexivity|]. split; [repeat constructor; lia|].
  split; [intros e l; symmetry; apply Permutation_rev|]. vm_compute. congruence.
Qed.
Print Assumptions C64_set_then_add_refuted.
Definition add_max : list (@op nat) :=
  [ OMem 0 2 (fun _ => 0); OLit 1 1 5; OLit 2 1 0; OLit 3 1 1; OScatter 0 1 2 3 RAdd false false; OLit 4 3 0; OLit 5 1 7; OScatter 0 5 4 3 RMax false false; ORead 0 ].
Theorem C64_add_then_max_refuted : exists ps outs sh, spec ps = Some outs /\ apart ps /\ (forall e l, Permutation (sh e l) l) /\ exec false sh nobody ps <> Ok outs.
Proof.
  exists add_max, [[7; 0]], backward. split; [reflexivity|]. split; [repeat constructor; lia|].
  split; [intros e l; symmetry; apply Permutation_rev|]. vm_compute. congruence.
Qed.
Print Assumptions C64_add_then_max_refuted.
(** Two reductions of the same kind with copies; an operand of the second one has a pending
    scatter.  The evaluation of the operand combines the copies of the target, the second
    reduction still writes to the copies, and nothing combines them again. *)
Definition late_operand : list (@op nat) :=
  [ OMem 0 2 (fun _ => 0); OMem 4 1 (fun _ => 0); OLit 1 1 5; OLit 2 1 0; OLit 3 1 1;
    OScatter 0 1 2 3 RAdd true false; OScatter 4 1 2 3 RAdd true false; OScatter 0 4 3 3 RAdd true false; ORead 0 ].
Theorem C64_dirty_operand_refuted : exists ps outs, spec ps = Some outs /\ apart ps /\ exec true inorder nobody ps <> Ok outs.
Proof. exists late_operand, [[5; 5]]. split; [reflexivity|]. split; [repeat constructor; lia|]. vm_compute. congruence. Qed.
Print Assumptions C64_dirty_operand_refuted.
Example C64_ex_dirty_operand : exec true inorder nobody late_operand = Ok [[5; 0]].
Proof. reflexivity. Qed.
(** The target is also the value: an error, although it works with another reference to the
    same array *)
Definition self_value (y : nat) : list (@op nat) :=
  [ OMem 0 2 (fun k => k + 1); OCopy 4 0; (if Nat.eqb y 0 then ODrop 4 else OEval); OMem 2 2 (fun k => 1 - k); OLit 3 1 1;
    OScatter 0 y 2 3 RId false false; ORead 0 ].
Theorem C64_value_is_target_refuted : exists ps outs, spec ps = Some outs /\ steady (fun _ => None) ps /\ exec true inorder nobody ps = Raise.
Proof. exists (self_value 0), [[2; 1]]. split; [reflexivity|]. split; [cbn; intuition|reflexivity]. Qed.
Print Assumptions C64_value_is_target_refuted.
Example C64_ex_value : exec true inorder nobody (self_value 4) = Ok [[2; 1]].
Proof. reflexivity. Qed.
(** The target is also the mask: an error on the LLVM backend.  On other backends the scatter
    is accepted, and the next evaluation terminates the process *)
Definition self_mask : list (@op nat) :=
  [ OMem 0 2 (fun k => k); OLit 1 1 1; OMem 2 2 (fun k => 1 - k); OScatter 0 1 2 0 RId false false; ORead 0 ].
Theorem C64_mask_is_target_refuted : exists ps outs, spec ps = Some outs /\ steady (fun _ => None) ps
  /\ exec true inorder nobody ps = Raise /\ exec false inorder nobody ps = Abort.
Proof. exists self_mask, [[1; 1]]. split; [reflexivity|]. split; [cbn; intuition|]. split; reflexivity. Qed.
Print Assumptions C64_mask_is_target_refuted.
