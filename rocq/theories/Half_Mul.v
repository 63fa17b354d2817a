From Verif Require Import Base Bits Half_Model Half_Spec Half_Proofs Half_Float.
Local Open Scope N_scope.
#[local] Ltac Zify.zify_post_hook ::= idtac.

Lemma pow_pos : forall k, 0 < 2 ^ k.
Proof. intros. apply N.neq_0_lt_0, N.pow_nonzero. discriminate. Qed.
Lemma rne_exact : forall m s, rne (m * 2 ^ s) s = m.
Proof.
  intros m s. pose proof (pow_pos s). unfold rne. rewrite N.div_mul, N.mod_mul by lia.
  destruct (N.ltb_spec (2 ^ s) (2 * 0)); [lia|]. destruct (N.eqb_spec (2 * 0) (2 ^ s)); [lia|]. reflexivity.
Qed.
(** rounding depends on the number only *)
Lemma round32_scale : forall m k e, round32 (m * 2 ^ k) e = round32 m (e + Z.of_N k).
Proof.
  intros m k e. unfold round32. pose proof (pow_pos k) as P.
  destruct (N.eqb_spec m 0) as [->|NZ]; [reflexivity|]. destruct (N.eqb_spec (m * 2 ^ k) 0); [exfalso; apply N.mul_eq_0 in e0; lia|].
  rewrite N.log2_mul_pow2 by lia. replace (Z.of_N (k + N.log2 m) + e - 23)%Z with (Z.of_N (N.log2 m) + (e + Z.of_N k) - 23)%Z by lia.
  set (E := Z.max _ _). cbv zeta. do 2 f_equal.
  destruct (Z.leb_spec E e), (Z.leb_spec E (e + Z.of_N k)); try lia.
  - rewrite <- N.mul_assoc, <- N.pow_add_r. do 2 f_equal. lia.
  - replace k with (k - Z.to_N (E - e) + Z.to_N (E - e)) at 1 by lia. rewrite N.pow_add_r, N.mul_assoc, rne_exact. do 2 f_equal. lia.
  - replace (Z.to_N (E - e)) with (Z.to_N (E - (e + Z.of_N k)) + k) by lia. apply rne_scale.
Qed.

Lemma units_sig : forall h, h < inf_h -> exists m j, m < 2 ^ 11 /\ j <= 29 /\ units 10 h = m * 2 ^ j.
Proof.
  intros h H. unfold units. destruct (N.ltb_spec h (2 ^ 10)).
  - exists h, 0. change (2 ^ 0) with 1. lia.
  - exists (2 ^ 10 + h mod 2 ^ 10), (h / 2 ^ 10 - 1). pose proof (N.mod_lt h (2 ^ 10) ltac:(discriminate)).
    assert (h / 2 ^ 10 < 31) by (apply N.div_lt_upper_bound; [discriminate|unfold inf_h in H; lia]). split; [lia|]. split; [lia|reflexivity].
Qed.

Lemma mul_value : forall a b, a < inf_h -> b < inf_h ->
  let p := round32 (mant (widen a) * mant (widen b)) (expo (widen a) + expo (widen b)) in
  float_value p = units 10 a * units 10 b * 2 ^ 101 /\ p < inf_f.
Proof.
  intros a b A B p.
  destruct (mant_units (widen a)) as [EA VA]. destruct (mant_units (widen b)) as [EB VB].
  rewrite (proj1 (widen_fin a A)) in VA. rewrite (proj1 (widen_fin b B)) in VB. unfold half_value in VA, VB.
  set (ja := widen a / 2 ^ 23 - 1) in *. set (jb := widen b / 2 ^ 23 - 1) in *.
  assert (P : p = round32 (units 10 a * units 10 b) (-48)).
  { unfold p. replace (expo (widen a) + expo (widen b))%Z with (-298 + Z.of_N (ja + jb))%Z by lia. rewrite <- round32_scale, N.pow_add_r.
    replace (mant (widen a) * mant (widen b) * (2 ^ ja * 2 ^ jb)) with ((mant (widen a) * 2 ^ ja) * (mant (widen b) * 2 ^ jb))
      by (clear; generalize (2 ^ ja) (2 ^ jb) (mant (widen a)) (mant (widen b)); intros; lia).
    rewrite <- VA, <- VB.
    replace (units 10 a * 2 ^ 125 * (units 10 b * 2 ^ 125)) with (units 10 a * units 10 b * 2 ^ 250)
      by (clear; replace (2 ^ 250) with (2 ^ 125 * 2 ^ 125) by reflexivity; generalize (2 ^ 125) (units 10 a) (units 10 b); intros; lia).
    apply round32_scale. }
  destruct (units_sig a A) as (ma & ka & MA & KA & UA). destruct (units_sig b B) as (mb & kb & MB & KB & UB).
  assert (UU : units 10 a * units 10 b = (ma * mb) * 2 ^ (ka + kb)).
  { rewrite UA, UB, N.pow_add_r. clear. generalize (2 ^ ka) (2 ^ kb). intros. lia. }
  rewrite P, UU, round32_scale. destruct (N.eq_dec (ma * mb) 0) as [Z|NZ].
  - rewrite Z, !N.mul_0_l. split; reflexivity.
  - assert (LT : ma * mb < 2 ^ 22).
    { replace (2 ^ 22) with (2 ^ 11 * 2 ^ 11) by reflexivity. apply N.mul_lt_mono_nonneg; try apply N.le_0_l; assumption. }
    assert (LG : N.log2 (ma * mb) < 22) by (apply N.log2_lt_pow2; [lia|exact LT]).
    destruct (round32_exact (ma * mb) (-48 + Z.of_N (ka + kb)) NZ) as [V L]; [lia|lia|lia|]. split; [|exact L].
    rewrite V. replace (Z.to_N (-48 + Z.of_N (ka + kb) + 149)) with (ka + kb + 101) by lia. rewrite (N.pow_add_r 2 (ka + kb) 101).
    apply N.mul_assoc.
Qed.

Section F.
Variable qnan : N -> N.
Lemma half_mul_eq : forall s t a b, s <= 1 -> t <= 1 -> a < inf_h -> b < inf_h ->
  exists x, x * 2 ^ 149 = half_value a * half_value b /\
  exists r, half_mul qnan (s * 2 ^ 15 + a) (t * 2 ^ 15 + b) = (if s =? t then 0 else 2 ^ 15) + r /\ nearest_even x r.
Proof.
  intros s t a b S T A B. exists (units 10 a * units 10 b * 2 ^ 101). split.
  { unfold half_value. replace (2 ^ 125) with (2 ^ 101 * 2 ^ 24) by reflexivity. replace (2 ^ 149) with (2 ^ 125 * 2 ^ 24) by reflexivity.
    replace (2 ^ 125) with (2 ^ 101 * 2 ^ 24) by reflexivity. generalize (2 ^ 101) (2 ^ 24) (units 10 a) (units 10 b). intros. lia. }
  destruct (mul_value a b A B) as [V L]. cbv zeta in V, L. set (p := round32 _ _) in *.
  exists (core p). split; [|rewrite <- V; apply core_nearest; exact L].
  unfold half_mul. rewrite !half_to_float_eq by (unfold inf_h in *; lia). unfold float_mul. change 0x7fffffff with (N.ones 31).
  pose proof (proj2 (widen_fin a A)) as WA. pose proof (proj2 (widen_fin b B)) as WB.
  assert (MS : forall u w, w < inf_f -> N.land (u * 2 ^ 31 + w) (N.ones 31) = w).
  { intros u w W. rewrite N.land_ones, N.add_comm, N.mod_add by discriminate. apply N.mod_small. unfold inf_f in W. lia. }
  rewrite !MS by assumption. unfold mag_mul. destruct (N.ltb_spec inf_f (widen a)); [lia|]. destruct (N.ltb_spec inf_f (widen b)); [lia|].
  destruct (N.eqb_spec (widen a) inf_f); [lia|]. destruct (N.eqb_spec (widen b) inf_f); [lia|]. fold p.
  assert (SG : N.land (N.lxor (s * 2 ^ 31 + widen a) (t * 2 ^ 31 + widen b)) 0x80000000 = N.shiftl (if s =? t then 0 else 1) 31).
  { change 0x80000000 with (2 ^ 31). apply N.bits_inj. intros k. rewrite N.land_spec, top_bit, N.lxor_spec.
    destruct (N.eqb_spec 31 k) as [<-|NE].
    - rewrite N.shiftl_spec_high' by lia. rewrite andb_true_r.
      assert (TB : forall u w, u <= 1 -> w < inf_f -> N.testbit (u * 2 ^ 31 + w) 31 = (u =? 1)).
      { intros u w U W. rewrite <- (lor_shiftl_add u w 31) by (unfold inf_f in W; lia). rewrite N.lor_spec, N.shiftl_spec_high' by lia.
        rewrite (testbit_high w 31 31) by (unfold inf_f in W; lia). rewrite orb_false_r. assert (u = 0 \/ u = 1) as [->| ->] by lia; reflexivity. }
      rewrite !TB by assumption. assert (s = 0 \/ s = 1) as [->| ->] by lia; assert (t = 0 \/ t = 1) as [->| ->] by lia; reflexivity.
    - rewrite andb_false_r. destruct (s =? t); [rewrite N.shiftl_0_l; symmetry; apply N.bits_0|]. rewrite N.shiftl_1_l, top_bit. symmetry. apply N.eqb_neq. exact NE. }
  rewrite SG, lor_shiftl_add by (unfold inf_f in L; lia). rewrite float_to_half_eq; [destruct (s =? t); lia|destruct (s =? t); lia|unfold inf_f in L; lia].
Qed.
End F.
