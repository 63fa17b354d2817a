From Verif Require Import Base Bits Half_Model Half_Spec Half_Proofs.
Local Open Scope N_scope.
#[local] Ltac Zify.zify_post_hook ::= idtac.

(** ** Exact results *)
Lemma round32_exact : forall m e, m <> 0 -> N.log2 m <= 23 -> (-149 <= Z.of_N (N.log2 m) + e - 23)%Z -> (Z.of_N (N.log2 m) + e < 128)%Z ->
  float_value (round32 m e) = m * 2 ^ Z.to_N (e + 149) /\ round32 m e < inf_f.
Proof.
  intros m e M L E H. unfold round32. destruct (N.eqb_spec m 0); [contradiction|].
  rewrite Z.max_l by lia. destruct (Z.leb_spec (Z.of_N (N.log2 m) + e - 23) e); [|lia].
  assert (EX : Z.to_N (e - (Z.of_N (N.log2 m) + e - 23)) = 23 - N.log2 m) by lia. rewrite EX.
  pose proof (N.log2_spec m ltac:(lia)) as [B1 B2]. set (g := N.log2 m) in *.
  assert (B3 : 2 ^ 23 <= m * 2 ^ (23 - g) < 2 ^ 24).
  { assert (P : 0 < 2 ^ (23 - g)) by (apply N.neq_0_lt_0, N.pow_nonzero; discriminate).
    replace (2 ^ 23) with (2 ^ g * 2 ^ (23 - g)) by (rewrite <- N.pow_add_r; f_equal; lia).
    replace (2 ^ 24) with (2 ^ N.succ g * 2 ^ (23 - g)) by (rewrite <- N.pow_add_r; f_equal; lia).
    split; [apply N.mul_le_mono_r; exact B1|apply N.mul_lt_mono_pos_r; assumption]. }
  set (q := m * 2 ^ (23 - g)) in *. set (k := Z.to_N (Z.of_N g + e - 23 + 149)).
  assert (K : k <= 253) by lia. rewrite N.min_l by (unfold inf_f; lia). split; [|unfold inf_f; lia].
  unfold float_value, units. destruct (N.ltb_spec (k * 2 ^ 23 + q) (2 ^ 23)); [lia|].
  assert (D : (k * 2 ^ 23 + q) / 2 ^ 23 = k + 1) by (symmetry; apply (N.div_unique _ _ _ (q - 2 ^ 23)); lia).
  assert (R : (k * 2 ^ 23 + q) mod 2 ^ 23 = q - 2 ^ 23) by (symmetry; apply (N.mod_unique _ _ (k + 1)); lia).
  rewrite D, R. replace (2 ^ 23 + (q - 2 ^ 23)) with q by lia. replace (k + 1 - 1) with k by lia. unfold q.
  rewrite <- N.mul_assoc, <- N.pow_add_r. do 2 f_equal. unfold k. lia.
Qed.
Lemma round32_le : forall m e, round32 m e <= inf_f.
Proof. intros. unfold round32. destruct (m =? 0); [discriminate|]. cbv zeta. apply N.le_min_r. Qed.

Lemma units_shift : forall h, float_value (h * 2 ^ 13) = units 10 h * 2 ^ 13.
Proof.
  intros h. unfold float_value, units. replace (2 ^ 23) with (2 ^ 10 * 2 ^ 13) by reflexivity.
  rewrite N.div_mul_cancel_r, N.mul_mod_distr_r by discriminate.
  destruct (N.ltb_spec h (2 ^ 10)), (N.ltb_spec (h * 2 ^ 13) (2 ^ 10 * 2 ^ 13)); lia.
Qed.

Definition widen (h : N) : N := if h <? inf_h then round32 (mant (h * 2 ^ 13)) (expo (h * 2 ^ 13) + 112) else inf_f + (h - inf_h) * 2 ^ 13.

Lemma widen_fin : forall h, h < inf_h -> float_value (widen h) = half_value h /\ widen h < inf_f.
Proof.
  intros h H. unfold widen. destruct (N.ltb_spec h inf_h) as [_|]; [|lia].
  assert (B : h * 2 ^ 13 < 31 * 2 ^ 23) by (unfold inf_h in H; lia).
  destruct (N.eq_dec h 0) as [->|NZ]; [split; reflexivity|].
  destruct (mant_units (h * 2 ^ 13)) as [E V]. rewrite units_shift in V.
  assert (J : h * 2 ^ 13 / 2 ^ 23 < 31) by (apply N.div_lt_upper_bound; [discriminate|lia]).
  assert (LG : N.log2 (mant (h * 2 ^ 13)) <= 23).
  { pose proof (mant_lt (h * 2 ^ 13)). destruct (N.eq_dec (mant (h * 2 ^ 13)) 0) as [->|]; [cbn; lia|]. apply N.lt_succ_r, N.log2_lt_pow2; [lia|assumption]. }
  set (m := mant (h * 2 ^ 13)) in *. set (j := h * 2 ^ 13 / 2 ^ 23 - 1) in *.
  assert (M : m <> 0).
  { intros Z. rewrite Z, N.mul_0_l in V. assert (units 10 h <> 0); [|lia]. pose proof (units_lt 10 0 h ltac:(lia)). lia. }
  destruct (round32_exact m (expo (h * 2 ^ 13) + 112) M LG) as [A C]; [lia|lia|]. split; [|exact C].
  rewrite A. replace (Z.to_N (expo (h * 2 ^ 13) + 112 + 149)) with (j + 112) by lia. unfold half_value.
  rewrite N.pow_add_r, N.mul_assoc, <- V. replace (2 ^ 125) with (2 ^ 13 * 2 ^ 112) by reflexivity. symmetry. apply N.mul_assoc.
Qed.
Lemma widen_lt : forall h, h < 2 ^ 15 -> widen h < 2 ^ 31.
Proof.
  intros h H. unfold widen. destruct (N.ltb_spec h inf_h).
  - pose proof (round32_le (mant (h * 2 ^ 13)) (expo (h * 2 ^ 13) + 112)). unfold inf_f in *. lia.
  - unfold inf_f, inf_h in *. lia.
Qed.

Section F.
Variable qnan : N -> N.
Lemma fmul_s_eq : forall s x k, s <= 1 -> x < inf_f -> fmul_s qnan (s * 2 ^ 31 + x) k = s * 2 ^ 31 + round32 (mant x) (expo x + k).
Proof.
  intros s x k S X. unfold fmul_s. change 0x80000000 with (2 ^ 31). change 0x7fffffff with (N.ones 31).
  assert (X31 : x < 2 ^ 31) by (unfold inf_f in X; lia).
  rewrite (proj1 (sign_split 31 s x S X31)), N.land_ones. rewrite N.add_comm, N.mod_add by discriminate. rewrite N.mod_small by exact X31.
  unfold fmul. destruct (N.ltb_spec inf_f x); [lia|]. destruct (N.eqb_spec x inf_f); [lia|].
  rewrite <- (lor_shiftl_add s _ 31); [rewrite N.shiftl_mul_pow2; reflexivity|]. pose proof (round32_le (mant x) (expo x + k)). unfold inf_f in *. lia.
Qed.

Lemma half_to_float_eq : forall s h, s <= 1 -> h < 2 ^ 15 -> half_to_float qnan (s * 2 ^ 15 + h) = s * 2 ^ 31 + widen h.
Proof.
  intros s h S H. unfold half_to_float. change 0x8000 with (2 ^ 15). destruct (sign_split 15 s h S H) as [-> ->].
  rewrite !N.shiftl_mul_pow2. replace (s * 2 ^ 15 * 2 ^ 16) with (s * 2 ^ 31) by lia.
  rewrite (u32_small (s * 2 ^ 31)) by lia. rewrite (u32_small (h * 2 ^ 13)) by lia.
  rewrite <- (N.shiftl_mul_pow2 s), lor_shiftl_add by lia. rewrite ?N.shiftl_mul_pow2. rewrite fmul_s_eq by (unfold inf_f; lia).
  unfold widen. destruct (N.ltb_spec h inf_h) as [|G]; [apply N.lor_0_r|].
  set (x := h * 2 ^ 13). unfold inf_h in G.
  assert (D : x / 2 ^ 23 = 31) by (symmetry; apply (N.div_unique _ _ _ ((h - 0x7c00) * 2 ^ 13)); lia).
  assert (M : x mod 2 ^ 23 = (h - 0x7c00) * 2 ^ 13) by (symmetry; apply (N.mod_unique _ _ 31); lia).
  unfold mant, expo. destruct (N.ltb_spec x (2 ^ 23)); [lia|]. rewrite D, M. set (r := (h - 0x7c00) * 2 ^ 13). assert (R : r < 2 ^ 23) by lia.
  rewrite round32_norm; [|lia|lia|change (Z.to_N (Z.of_N 31 - 150 + 112 + 149)) with 142; unfold inf_f; lia].
  change (Z.to_N (Z.of_N 31 - 150 + 112 + 149)) with 142.
  replace (s * 2 ^ 31 + (142 * 2 ^ 23 + (2 ^ 23 + r))) with ((s * 2 ^ 8 + 143) * 2 ^ 23 + r) by lia.
  rewrite <- (lor_shiftl_add (s * 2 ^ 8 + 143) r 23 R).
  rewrite <- N.lor_assoc, (N.lor_comm r), N.lor_assoc. change inf_f with (N.shiftl 255 23). rewrite <- N.shiftl_lor, lor_shiftl_add by exact R.
  replace (N.lor (s * 2 ^ 8 + 143) 255) with (s * 2 ^ 8 + 255); [change (N.shiftl 255 23) with (255 * 2 ^ 23); unfold r, inf_h; lia|].
  assert (s = 0 \/ s = 1) as [->| ->] by lia; reflexivity.
Qed.

(** ** Round trip *)
Lemma round_trip : forall s h, s <= 1 -> h <= inf_h -> float_to_half qnan (half_to_float qnan (s * 2 ^ 15 + h)) = s * 2 ^ 15 + h.
Proof.
  intros s h S H. rewrite half_to_float_eq by (unfold inf_h in H; lia). rewrite float_to_half_eq by (try apply widen_lt; unfold inf_h in *; lia).
  f_equal. destruct (N.eq_dec h inf_h) as [->|]; [reflexivity|]. destruct (widen_fin h ltac:(lia)) as [V L].
  apply nearest_unique; [exact H|]. rewrite <- V. apply core_nearest. exact L.
Qed.
End F.
