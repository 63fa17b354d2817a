(** C74: the mask stack *)
From Verif Require Import Base Msk_Model Msk_Spec Msk_Proofs.

(** As long as the calls are legal, all masks keep their meaning: results of
    jit_var_mask_apply are active exactly where the argument and the top of the stack are
    and, on LLVM, off behind the end of the range; the stack is last in, first out. *)
Theorem C74_histories be cp l : served be cp initial start l.
Proof. exact (served_ok be cp l initial start (CI_initial be)). Qed.

(** GPUs: without a mask on the stack, a constant of any size gets that of the operation. *)
Theorem C74_constant cp s i k b n sole : get s i = Some {| x_size := k; x_kind := KLit b |} -> stack s = [] ->
  exists s' j, step GPU cp s (Apply i n sole) = Some (s', RVar j) /\ get s' j = Some {| x_size := n; x_kind := KLit b |} /\
    (forall i' v, get s i' = Some v -> get s' i' = Some v).
Proof. exact (constant_ok cp s i k b n sole). Qed.

(** A scalar result of jit_var_mask_apply that was evaluated and pushed: a mask for a range
    of 3 lanes is active in lane 3, behind the end. *)
Theorem C74_scalar_refuted :
  exists l s rs j, run LLVM true initial l = Some (s, rs) /\ last rs RNone = RVar j /\ last l Pop = Apply 3 3 false /\
    In (Push 2) l /\ nth_error rs 1 = Some (RVar 2) /\ nth_error l 1 = Some (Apply 0 1 false) /\ val s j 3 3 = true.
Proof.
  exists [Cond 1 (fun _ => true) (fun _ => true); Apply 0 1 false; Eval 2; Push 2; Lit true 1; Apply 3 3 false].
  eexists _, _, 2. split; [reflexivity|]. repeat split; cbn; auto.
Qed.

(** A condition that was pushed without jit_var_mask_apply: the default mask is not added. *)
Theorem C74_user_refuted :
  exists l s rs j, run LLVM true initial l = Some (s, rs) /\ last rs RNone = RVar j /\ last l Pop = Apply 1 3 false /\
    val s j 3 3 = true.
Proof.
  exists [Cond 3 (fun _ => true) (fun _ => true); Push 0; Lit true 1; Apply 1 3 false].
  eexists _, _, 0. split; [reflexivity|]. repeat split.
Qed.

(** A constant mask on the stack and an argument without other references: the call resizes
    the variable of its caller. *)
Theorem C74_size_refuted : forall be,
  exists l s s' rs v v' i, run be true initial l = Some (s, rs) /\ get s i = Some v /\
    step be true s (Apply i 3 true) = Some (s', RVar i) /\ get s' i = Some v' /\ x_size v = 1 /\ x_size v' = 3.
Proof.
  intros be. exists [Lit true 3; Push 0; Cond 1 (fun _ => false) (fun _ => false)].
  destruct be; (eexists _, _, _, _, _, 1; split; [reflexivity|]; repeat split).
Qed.

Print Assumptions C74_histories.
Print Assumptions C74_constant.
Print Assumptions C74_scalar_refuted.
Print Assumptions C74_user_refuted.
Print Assumptions C74_size_refuted.

(** Nested conditions on 4 lanes; what is computed behind the end does not matter *)
Definition outer : op := Cond 4 (fun l => Nat.ltb l 3) (fun _ => true).
Definition inner : op := Cond 4 Nat.even (fun _ => true).
Definition nested : list op := [outer; Apply 0 4 false; Push 2; inner; Apply 3 4 false].
Definition lanes6 (o : option (state * list res)) (n : nat) : list bool :=
  match o with
  | Some (s, rs) => match last rs RNone with RVar j => map (val s j n) (seq 0 6) | _ => [] end
  | None => []
  end.
Example nested_llvm : lanes6 (run LLVM true initial nested) 4 = [true; false; true; false; false; false].
Proof. reflexivity. Qed.
Example nested_gpu :
  lanes6 (run GPU true initial [outer; Apply 0 4 false; Push 0; inner; Apply 1 4 false]) 4 = [true; false; true; false; true; true].
Proof. reflexivity. Qed.
(** The mask of the outer condition has the wrong size for a range of 5 lanes *)
Example other_size :
  lanes6 (run LLVM true initial (nested ++ [Lit true 1; Apply 6 5 false])) 5 = [true; true; true; true; true; false].
Proof. reflexivity. Qed.
Example stack_order :
  option_map snd (run LLVM true initial [Default 4; Default 2; Push 0; Push 1; Peek; Pop; Peek; Pop; Peek; Pop]) =
  Some [RVar 0; RVar 1; RNone; RNone; RVar 1; RNone; RVar 0; RNone; RZero; RErr].
Proof. reflexivity. Qed.
(** Evaluated masks on the stack *)
Example evaluated_one :
  lanes6 (run LLVM true initial [outer; Apply 0 4 false; Eval 2; Push 2; Lit true 1; Apply 3 1 false]) 4 = [true; true; true; false; false; false].
Proof. reflexivity. Qed.
Example evaluated_ok :
  lanes6 (run LLVM true initial [outer; Apply 0 4 false; Eval 2; Push 2; inner; Apply 3 4 false]) 4 = [true; false; true; false; false; false].
Proof. reflexivity. Qed.
(** The calls are legal *)
Example legal_apply :
  legal LLVM (add start 0 {| m_size := 4; m_act := fun l => Nat.ltb l 3; m_off := false; m_mem := false; m_lit := false |}) (Apply 0 4 false).
Proof.
  split; [discriminate|]. eexists. split; [reflexivity|]. repeat split; auto; cbn; intros; discriminate.
Qed.
Example legal_nested :
  let m := {| m_size := 4; m_act := fun l => Nat.ltb l 3; m_off := false; m_mem := false; m_lit := false |} in
  let t := {| m_size := 4; m_act := fun l => Nat.ltb l 3; m_off := true; m_mem := false; m_lit := false |} in
  legal LLVM {| c_mask := fun i => match i with 2 => Some t | 3 => Some m | _ => None end; c_stack := [2] |} (Apply 3 4 false).
Proof.
  split; [discriminate|]. eexists. split; [reflexivity|]. cbn. repeat split; auto; intros; try discriminate;
  match goal with H : Some _ = Some _ |- _ => injection H as <- end; auto.
Qed.
