(** C25 (invariant divisor), C51 (GPU launch configuration), C54 (size helpers). *)
From Verif Require Import Base Arith_Model Arith_Proofs.
Local Open Scope N_scope.

(** C25: for all 32-bit numerators and all nonzero 32-bit divisors the
    constructor terminates and the multiply/shift division is exact. *)
Theorem C25_divisor_exact :
  forall v x, 0 < v < 2 ^ 32 -> x < 2 ^ 32 ->
  exists d, dv_make v = Some d /\ dv_div_rem d x = (x / v, x mod v).
Proof.
  exact (fun v x Hv Hx =>
    match dv_make_total v Hv with
    | ex_intro _ d Hd => ex_intro _ d (conj Hd (dv_correct v x d Hv Hx Hd))
    end).
Qed.
Print Assumptions C25_divisor_exact.

Example C25_example :
  0 < 4294967295 < 2 ^ 32 /\
  option_map (fun d => dv_div_rem d 4294967294) (dv_make 4294967295) = Some (0, 4294967294).
Proof. split; [lia|vm_compute; reflexivity]. Qed.

(** C51: for every size up to 2^32-32 and realistic device limits the
    configuration is computed without abort or division by zero, the thread
    count is a whole number of warps within the limit, and blocks*threads
    covers the size unless the caller bounded the number of blocks, in which
    case the bound is respected. *)
Theorem C51_launch_config_covers_partial :
  forall sm size max_threads max_blocks_per_sm,
  0 < sm < 2 ^ 20 -> size <= 2 ^ 32 - 32 ->
  32 <= max_threads <= 2 ^ 16 -> max_threads mod 32 = 0 -> max_blocks_per_sm < 2 ^ 12 ->
  exists blocks threads,
    get_launch_config sm size max_threads max_blocks_per_sm = LcOk blocks threads /\
    threads mod 32 = 0 /\ threads <= max_threads /\
    (max_blocks_per_sm = 0 -> size <= blocks * threads) /\
    (max_blocks_per_sm <> 0 -> blocks <= max_blocks_per_sm * sm).
Proof. exact launch_config_ok. Qed.
Print Assumptions C51_launch_config_covers_partial.

Example C51_example :
  get_launch_config 80 1000001 1024 0 = LcOk 977 1024 /\ 1000001 <= 977 * 1024.
Proof. split; [vm_compute; reflexivity|lia]. Qed.

(** The bound on the size is needed: for the last 31 sizes the warp count wraps
    to 0 and the kernel is launched with 0 blocks, without an error. *)
Theorem C51_launch_config_covers_refuted :
  exists sm size mt, 0 < sm < 2 ^ 20 /\ 0 < size < 2 ^ 32 /\
    get_launch_config sm size mt 0 = LcOk 0 32.
Proof. exists 80, (2 ^ 32 - 1), 1024. repeat split; try lia. Qed.
Print Assumptions C51_launch_config_covers_refuted.

(** C54: exact behaviour of the rounding helpers on every 32-bit input. [q] is
    the ceiling of a/b: the least number with a <= q*b. *)
Theorem C54_ceil_div_partial :
  forall a b, 0 < b -> a + b - 1 < 2 ^ 32 ->
  exists q, ceil_div a b = Some q /\ (forall k, q <= k <-> a <= k * b).
Proof.
  exact (fun a b Hb H => ex_intro _ _ (conj (ceil_div_small a b Hb H)
                                            (fun k => cdiv_le_iff a b k Hb))).
Qed.
Print Assumptions C54_ceil_div_partial.

(** Where the sum does not fit, the result is always 0 although the ceiling is
    positive: the property fails for exactly these arguments. *)
Theorem C54_ceil_div_wraps_refuted :
  forall a b, 0 < a < 2 ^ 32 -> 0 < b < 2 ^ 32 -> 2 ^ 32 <= a + b - 1 ->
  ceil_div a b = Some 0 /\ ~ (a <= 0 * b).
Proof.
  intros a b Ha Hb H. rewrite ceil_div_exact by lia.
  destruct (N.ltb_spec (a + b - 1) (2 ^ 32)); [lia|]. split; [reflexivity|lia].
Qed.
Print Assumptions C54_ceil_div_wraps_refuted.

Example C54_wrap_example : ceil_div 4294967295 4294967295 = Some 0.
Proof. vm_compute. reflexivity. Qed.
Example C54_ceil_example : ceil_div 10 4 = Some 3 /\ 10 + 4 - 1 < 2 ^ 32.
Proof. split; [vm_compute; reflexivity|lia]. Qed.

(** [align_up x a] is the least multiple of [a] that is at least [x]. *)
Theorem C54_align_up_partial :
  forall x a, 0 < a -> x + a - 1 < 2 ^ 32 ->
  exists y, align_up x a = Some y /\ y mod a = 0 /\ x <= y /\ y < x + a.
Proof.
  intros x a Ha H. exists (cdiv x a * a). split; [now apply align_up_small|].
  pose proof (cdiv_ge x a Ha). pose proof (cdiv_upper x a Ha).
  split; [apply N.mod_mul; lia|]. lia.
Qed.
Print Assumptions C54_align_up_partial.

Theorem C54_align_up_wraps_refuted :
  exists x a, 0 < x < 2 ^ 32 /\ 0 < a < 2 ^ 32 /\ align_up x a = Some 0.
Proof. exists 4294967295, 16. repeat split; try lia. Qed.
Print Assumptions C54_align_up_wraps_refuted.

Example C54_align_example : align_up 13 8 = Some 16.
Proof. vm_compute. reflexivity. Qed.

(** [log2i_ceil x] is the least [k] with [x <= 2^k], for every 32-bit [x]. *)
Theorem C54_log2i_ceil :
  forall x k, x < 2 ^ 32 -> (log2i_ceil x <= k <-> x <= 2 ^ k).
Proof. exact log2i_ceil_spec. Qed.
Print Assumptions C54_log2i_ceil.

Example C54_log2_example : log2i_ceil 4294967295 = 32 /\ log2i_ceil 4096 = 12.
Proof. split; vm_compute; reflexivity. Qed.
