(** C48 (half precision conversions), C57 (half precision arithmetic and doubles). *)
From Verif Require Import Base Half_Model Half_Spec Half_Proofs Half_Float Half_Mul.
Local Open Scope N_scope.

(** [s]: sign bit, [x]/[h]: remaining bits; [qnan]: what the hardware returns for a NaN
    operand. *)
Theorem C48_float_to_half : forall qnan s x, s <= 1 -> x < 0x7f800000 ->
  exists r, float_to_half qnan (s * 2 ^ 31 + x) = s * 2 ^ 15 + r /\ nearest_even (float_value x) r.
Proof.
  intros. exists (core x). split; [apply float_to_half_eq; [assumption|lia]|apply core_nearest; assumption].
Qed.
Theorem C48_special : forall qnan s x, s <= 1 -> 0x7f800000 <= x < 2 ^ 31 ->
  (x = 0x7f800000 -> float_to_half qnan (s * 2 ^ 31 + x) = s * 2 ^ 15 + 0x7c00) /\
  (0x7f800000 < x -> exists h, 0x7c00 < h < 2 ^ 15 /\ float_to_half qnan (s * 2 ^ 31 + x) = s * 2 ^ 15 + h).
Proof.
  intros qnan s x S X. rewrite float_to_half_eq by lia. split; intros H.
  - subst x. reflexivity.
  - exists 0x7e00. split; [lia|]. unfold core. change inf_f with 0x7f800000. apply N.ltb_lt in H. rewrite H. reflexivity.
Qed.
Theorem C48_half_to_float : forall qnan s h, s <= 1 -> h < 2 ^ 15 ->
  exists x, x < 2 ^ 31 /\ half_to_float qnan (s * 2 ^ 15 + h) = s * 2 ^ 31 + x /\
  (h < 0x7c00 -> x < 0x7f800000 /\ float_value x = half_value h) /\
  (h = 0x7c00 -> x = 0x7f800000) /\
  (0x7c00 < h -> 0x7f800000 < x).
Proof.
  intros qnan s h S H. exists (widen h). split; [apply widen_lt; exact H|]. split; [apply half_to_float_eq; assumption|].
  split; [|split].
  - intros L. destruct (widen_fin h L). auto.
  - intros ->. reflexivity.
  - intros L. unfold widen. change inf_h with 0x7c00. change inf_f with 0x7f800000. destruct (N.ltb_spec h 0x7c00); lia.
Qed.
Theorem C48_round_trip : forall qnan s h, s <= 1 -> h <= 0x7c00 ->
  float_to_half qnan (half_to_float qnan (s * 2 ^ 15 + h)) = s * 2 ^ 15 + h.
Proof. intros. apply round_trip; assumption. Qed.

Theorem C57_product : forall qnan s t a b, s <= 1 -> t <= 1 -> a < 0x7c00 -> b < 0x7c00 ->
  exists x, x * 2 ^ 149 = half_value a * half_value b /\
  exists r, half_mul qnan (s * 2 ^ 15 + a) (t * 2 ^ 15 + b) = (if s =? t then 0 else 2 ^ 15) + r /\ nearest_even x r.
Proof. exact half_mul_eq. Qed.
(** 1 + 2^-11 + 2^-40 lies above the midpoint between 1 and its successor, but becomes 1. *)
Theorem C57_double_refuted : exists d x,
  units 52 d = x * 2 ^ 925 /\ forall qnan, ~ nearest_even x (half_of_double qnan d).
Proof.
  exists 0x3ff0020000001000, (2 ^ 149 + 2 ^ 138 + 2 ^ 109). split; [vm_compute; reflexivity|].
  intros qnan [_ H]. assert (E : half_of_double qnan 0x3ff0020000001000 = 0x3c00) by (vm_compute; reflexivity). rewrite E in H.
  assert (L : dist (2 ^ 149 + 2 ^ 138 + 2 ^ 109) (half_value 0x3c01) < dist (2 ^ 149 + 2 ^ 138 + 2 ^ 109) (half_value 0x3c00)) by (vm_compute; reflexivity).
  specialize (H 0x3c01 ltac:(lia) ltac:(discriminate)). revert H L.
  generalize (dist (2 ^ 149 + 2 ^ 138 + 2 ^ 109) (half_value 0x3c01)) (dist (2 ^ 149 + 2 ^ 138 + 2 ^ 109) (half_value 0x3c00)). clear. intros. lia.
Qed.

(** ** Examples *)
(** 1/3, the largest half, ties, overflow, underflow *)
Example C48_ex_values :
  float_to_half (fun b => b) 0x3eaaaaab = 0x3555 /\
  float_to_half (fun b => b) 0x477fe000 = 0x7bff /\
  float_to_half (fun b => b) 0x477fefff = 0x7bff /\ float_to_half (fun b => b) 0x477ff000 = 0x7c00 /\
  float_to_half (fun b => b) 0x3f801000 = 0x3c00 /\ float_to_half (fun b => b) 0x3f803000 = 0x3c02 /\
  float_to_half (fun b => b) 0x33000000 = 0 /\ float_to_half (fun b => b) 0x33000001 = 1 /\
  float_to_half (fun b => b) 0xb3c00000 = 0x8002 /\ float_to_half (fun b => b) 0x80000000 = 0x8000.
Proof. vm_compute. repeat split. Qed.
Example C48_ex_back :
  half_to_float (fun b => b) 0x3555 = 0x3eaaa000 /\ half_to_float (fun b => b) 0x8001 = 0xb3800000 /\
  half_to_float (fun b => b) 0xfc00 = 0xff800000 /\ half_to_float (fun b => b) 0x7e01 = 0x7fc02000.
Proof. vm_compute. repeat split. Qed.
(** -1.5 * 1.001 = -1.501 *)
Example C57_ex : half_mul (fun b => b) 0xbe00 0x3c01 = 0xbe02 /\ half_mul (fun b => b) 0x0001 0x3800 = 0 /\ half_mul (fun b => b) 0x0003 0x3800 = 2.
Proof. vm_compute. repeat split. Qed.

Print Assumptions C48_float_to_half. Print Assumptions C48_special. Print Assumptions C48_half_to_float.
Print Assumptions C48_round_trip. Print Assumptions C57_product. Print Assumptions C57_double_refuted.
