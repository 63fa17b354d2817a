From Verif Require Import Base Bits Half_Model Half_Spec.
Local Open Scope N_scope.
#[local] Ltac Zify.zify_post_hook ::= idtac.

(** ** Bits *)
Lemma blend : forall a b c, a < 2 ^ 32 -> b < 2 ^ 32 -> N.lxor a (N.land (mask c) (N.lxor b a)) = if c then b else a.
Proof.
  intros a b c A B. unfold mask. destruct c.
  - replace (2 ^ 32 - 1) with (N.ones 32) by reflexivity. rewrite N.land_comm, N.land_ones, N.mod_small.
    + rewrite (N.lxor_comm b a), <- N.lxor_assoc, N.lxor_nilpotent, N.lxor_0_l. reflexivity.
    + destruct (N.eq_dec (N.lxor b a) 0) as [->|NZ]; [reflexivity|].
      apply N.log2_lt_pow2; [lia|]. eapply N.le_lt_trans; [apply N.log2_lxor|].
      destruct (N.eq_dec a 0) as [->|], (N.eq_dec b 0) as [->|]; cbn [N.log2 N.max]; try lia;
      repeat match goal with H : ?x < 2 ^ 32 |- _ => apply N.log2_lt_pow2 in H; [|lia] end; try (apply N.max_lub_lt; lia); cbn; lia.
  - rewrite N.land_0_l, N.lxor_0_r. reflexivity.
Qed.

(** ** Rounding *)
Lemma rne_cases : forall m s, 0 < s ->
  let q := m / 2 ^ s in let t := m mod 2 ^ s in
  (rne m s = q /\ (2 * t < 2 ^ s \/ (2 * t = 2 ^ s /\ N.even q = true))) \/
  (rne m s = q + 1 /\ (2 ^ s < 2 * t \/ (2 * t = 2 ^ s /\ N.even (q + 1) = true))).
Proof.
  intros m s S q t. unfold rne. fold q t. rewrite N.even_add. rewrite <- N.negb_odd.
  destruct (N.ltb_spec (2 ^ s) (2 * t)); cbn [orb]; [right; auto|]. destruct (N.eqb_spec (2 * t) (2 ^ s)); cbn [andb].
  - destruct (N.odd q); [right|left]; auto.
  - left. split; [reflexivity|]. left. lia.
Qed.

Lemma round32_exact_sub : forall m e, (0 <= e + 149)%Z -> m * 2 ^ Z.to_N (e + 149) < 2 ^ 24 -> round32 m e = m * 2 ^ Z.to_N (e + 149).
Proof.
  intros m e E H. unfold round32. destruct (N.eqb_spec m 0) as [->|NZ]; [reflexivity|].
  assert (P : 0 < 2 ^ Z.to_N (e + 149)) by (apply N.neq_0_lt_0, N.pow_nonzero; discriminate).
  assert (L : N.log2 (m * 2 ^ Z.to_N (e + 149)) = Z.to_N (e + 149) + N.log2 m) by (apply N.log2_mul_pow2; lia).
  assert (LT : N.log2 (m * 2 ^ Z.to_N (e + 149)) < 24) by (apply N.log2_lt_pow2; [apply N.mul_pos_pos; lia|exact H]).
  assert (EE : Z.max (Z.of_N (N.log2 m) + e - 23) (-149) = (-149)%Z) by lia. rewrite EE.
  destruct (Z.leb_spec (-149) e); [|lia]. replace (e - -149)%Z with (e + 149)%Z by lia. cbn [Z.add Z.to_N].
  replace (0 * 2 ^ 23 + m * 2 ^ Z.to_N (e + 149)) with (m * 2 ^ Z.to_N (e + 149)) by lia. apply N.min_l. unfold inf_f. lia.
Qed.

Lemma round32_norm : forall m e, 2 ^ 23 <= m < 2 ^ 24 -> (-149 <= e)%Z -> Z.to_N (e + 149) * 2 ^ 23 + m < inf_f ->
  round32 m e = Z.to_N (e + 149) * 2 ^ 23 + m.
Proof.
  intros m e M E H. unfold round32. destruct (N.eqb_spec m 0) as [->|NZ]; [lia|].
  assert (L : N.log2 m = 23) by (apply N.log2_unique; [lia|change (N.succ 23) with 24; exact M]). rewrite L.
  replace (Z.max (Z.of_N 23 + e - 23) (-149)) with e by lia. rewrite Z.leb_refl, Z.sub_diag. cbn [Z.to_N N.pow]. rewrite N.mul_1_r.
  apply N.min_l. lia.
Qed.

(** rounding to the subnormal grid *)
Lemma round32_sub : forall m e, (e < -149)%Z -> (Z.of_N (N.log2 m) + e - 23 <= -149)%Z -> rne m (Z.to_N (-149 - e)) <= inf_f ->
  round32 m e = rne m (Z.to_N (-149 - e)).
Proof.
  intros m e E L H. unfold round32. destruct (N.eqb_spec m 0) as [->|NZ].
  - unfold rne. rewrite N.div_0_l, N.mod_0_l by (apply N.pow_nonzero; discriminate). rewrite N.mul_0_r. cbn [N.odd].
    destruct (N.ltb_spec (2 ^ Z.to_N (-149 - e)) 0) as [X|_]; [exfalso; revert X; apply N.nlt_0_r|]. rewrite andb_false_r. reflexivity.
  - replace (Z.max (Z.of_N (N.log2 m) + e - 23) (-149)) with (-149)%Z by lia. destruct (Z.leb_spec (-149) e); [lia|].
    cbn [Z.add Z.to_N]. apply N.min_l. lia.
Qed.

(** ** Values *)
Lemma mant_units : forall b, (expo b + 149 = Z.of_N (b / 2 ^ 23 - 1))%Z /\ float_value b = mant b * 2 ^ (b / 2 ^ 23 - 1).
Proof.
  intros b. unfold expo, mant, float_value, units. destruct (N.ltb_spec b (2 ^ 23)).
  - rewrite N.div_small by exact H. change (0 - 1) with 0. rewrite N.pow_0_r, N.mul_1_r. split; reflexivity.
  - assert (1 <= b / 2 ^ 23) by (apply N.div_le_lower_bound; lia). split; [lia|reflexivity].
Qed.

Lemma units_step : forall p b, units p (b + 1) = units p b + 2 ^ (b / 2 ^ p - 1).
Proof.
  intros p b. assert (P : 0 < 2 ^ p) by (apply N.neq_0_lt_0, N.pow_nonzero; discriminate).
  unfold units. destruct (N.ltb_spec b (2 ^ p)) as [L|L].
  - rewrite (N.div_small b) by exact L. change (2 ^ (0 - 1)) with 1. destruct (N.ltb_spec (b + 1) (2 ^ p)); [reflexivity|].
    assert (b + 1 = 2 ^ p) as -> by lia. rewrite N.mod_same, N.div_same by lia. change (2 ^ (1 - 1)) with 1. lia.
  - destruct (N.ltb_spec (b + 1) (2 ^ p)); [lia|].
    assert (Q : 1 <= b / 2 ^ p) by (apply N.div_le_lower_bound; lia).
    pose proof (N.div_mod b (2 ^ p) ltac:(lia)) as DM. pose proof (N.mod_lt b (2 ^ p) ltac:(lia)) as ML.
    set (q := b / 2 ^ p) in *. set (r := b mod 2 ^ p) in *. destruct (N.eq_dec (r + 1) (2 ^ p)) as [C|C].
    + assert (D : (b + 1) / 2 ^ p = q + 1) by (symmetry; apply (N.div_unique _ _ _ 0); lia).
      assert (M : (b + 1) mod 2 ^ p = 0) by (symmetry; apply (N.mod_unique _ _ (q + 1)); lia). rewrite D, M.
      replace (q + 1 - 1) with (q - 1 + 1) by lia. rewrite (N.pow_add_r 2 (q - 1) 1). change (2 ^ 1) with 2.
      replace r with (2 ^ p - 1) by lia. set (w := 2 ^ (q - 1)).
      replace (2 ^ p + (2 ^ p - 1)) with (2 * 2 ^ p - 1) by lia. rewrite N.mul_sub_distr_r.
      assert (w <= 2 * 2 ^ p * w) by (apply N.le_trans with (1 * w); [lia|apply N.mul_le_mono_r; lia]). lia.
    + assert (D : (b + 1) / 2 ^ p = q) by (symmetry; apply (N.div_unique _ _ _ (r + 1)); lia).
      assert (M : (b + 1) mod 2 ^ p = r + 1) by (symmetry; apply (N.mod_unique _ _ q); lia). rewrite D, M.
      rewrite N.add_assoc, (N.mul_add_distr_r _ 1), N.mul_1_l. reflexivity.
Qed.
Lemma units_lt : forall p a b, a < b -> units p a < units p b.
Proof.
  intros p a b H. assert (exists d, b = a + 1 + d) as [d ->] by (exists (b - a - 1); lia). clear H.
  induction d as [|d IH] using N.peano_ind.
  - rewrite N.add_0_r, units_step. pose proof (N.pow_nonzero 2 (a / 2 ^ p - 1) ltac:(discriminate)). lia.
  - replace (a + 1 + N.succ d) with (a + 1 + d + 1) by lia. rewrite units_step. lia.
Qed.
Lemma hv_lt : forall a b, a < b -> half_value a < half_value b.
Proof. intros a b H. unfold half_value. apply N.mul_lt_mono_pos_r; [reflexivity|apply units_lt; exact H]. Qed.
Lemma hv_le : forall a b, a <= b -> half_value a <= half_value b.
Proof. intros a b H. destruct (N.eq_dec a b) as [->|]; [reflexivity|]. apply N.lt_le_incl, hv_lt. lia. Qed.

(** ** Nearest *)
Lemma nearest_mid : forall x r, r <= 0x7c00 ->
  (r = 0 \/ half_value (r - 1) + half_value r < 2 * x \/ (half_value (r - 1) + half_value r = 2 * x /\ N.even r = true)) ->
  (r = 0x7c00 \/ 2 * x < half_value r + half_value (r + 1) \/ (2 * x = half_value r + half_value (r + 1) /\ N.even r = true)) ->
  nearest_even x r.
Proof.
  intros x r R LO HI. split; [exact R|]. intros h HH NE. unfold dist.
  destruct (N.lt_ge_cases h r) as [L|G].
  - assert (A : half_value h <= half_value (r - 1)) by (apply hv_le; lia). assert (B : half_value (r - 1) < half_value r) by (apply hv_lt; lia).
    destruct LO as [->|[LO|[LO EV]]]; [lia| |].
    + left. destruct (N.leb_spec x (half_value r)), (N.leb_spec x (half_value h)); lia.
    + destruct (N.leb_spec x (half_value r)), (N.leb_spec x (half_value h)); try lia.
      destruct (N.eq_dec (half_value h) (half_value (r - 1))); [right; split; [lia|exact EV]|left; lia].
  - assert (A : half_value (r + 1) <= half_value h) by (apply hv_le; lia). assert (B : half_value r < half_value (r + 1)) by (apply hv_lt; lia).
    destruct HI as [->|[HI|[HI EV]]]; [lia| |].
    + left. destruct (N.leb_spec x (half_value r)), (N.leb_spec x (half_value h)); lia.
    + destruct (N.leb_spec x (half_value r)), (N.leb_spec x (half_value h)); try lia.
      destruct (N.eq_dec (half_value h) (half_value (r + 1))); [right; split; [lia|exact EV]|left; lia].
Qed.
(** between two neighbours *)
Lemma nearest_between : forall x q r, q < 0x7c00 -> half_value q <= x -> x <= half_value (q + 1) ->
  ((r = q /\ (2 * x < half_value q + half_value (q + 1) \/ (2 * x = half_value q + half_value (q + 1) /\ N.even q = true))) \/
   (r = q + 1 /\ (half_value q + half_value (q + 1) < 2 * x \/ (2 * x = half_value q + half_value (q + 1) /\ N.even (q + 1) = true)))) ->
  nearest_even x r.
Proof.
  intros x q r Q A B [[-> H]|[-> H]]; apply nearest_mid; try lia.
  - destruct (N.eq_dec q 0); [auto|]. right. left. pose proof (hv_lt (q - 1) q ltac:(lia)). lia.
  - right. destruct H as [H|[H E]]; [left; lia|right; split; [lia|exact E]].
  - replace (q + 1 - 1) with q by lia. right. destruct H as [H|[H E]]; [left; lia|right; split; [lia|exact E]].
  - right. left. pose proof (hv_lt (q + 1) (q + 1 + 1) ltac:(lia)). lia.
Qed.
Lemma nearest_unique : forall h r, h <= 0x7c00 -> nearest_even (half_value h) r -> r = h.
Proof.
  intros h r H [R N]. destruct (N.eq_dec h r) as [|NE]; [auto|]. specialize (N h H NE). unfold dist in N.
  rewrite N.leb_refl in N. assert (half_value h <> half_value r).
  { destruct (N.lt_trichotomy h r) as [L|[L|L]]; [| contradiction |]; apply hv_lt in L; lia. }
  destruct (N.leb_spec (half_value h) (half_value r)); lia.
Qed.
Lemma rne_scale : forall m j s, rne (m * 2 ^ j) (s + j) = rne m s.
Proof.
  intros m j s. unfold rne. rewrite N.pow_add_r.
  assert (P : 0 < 2 ^ j) by (apply N.neq_0_lt_0, N.pow_nonzero; discriminate).
  assert (Q : 2 ^ s <> 0) by (apply N.pow_nonzero; discriminate).
  rewrite N.div_mul_cancel_r by lia. rewrite N.mul_mod_distr_r by lia.
  replace (2 ^ s * 2 ^ j <? 2 * (m mod 2 ^ s * 2 ^ j)) with (2 ^ s <? 2 * (m mod 2 ^ s)).
  2:{ rewrite N.mul_assoc. apply eq_true_iff_eq. rewrite !N.ltb_lt. apply N.mul_lt_mono_pos_r. exact P. }
  replace (2 * (m mod 2 ^ s * 2 ^ j) =? 2 ^ s * 2 ^ j) with (2 * (m mod 2 ^ s) =? 2 ^ s); [reflexivity|].
  rewrite N.mul_assoc. apply eq_true_iff_eq. rewrite !N.eqb_eq. symmetry. apply N.mul_cancel_r. lia.
Qed.
Lemma units_small : forall p b, b <= 2 ^ p -> units p b = b.
Proof.
  intros p b H. unfold units. destruct (N.ltb_spec b (2 ^ p)); [reflexivity|]. assert (b = 2 ^ p) as -> by lia.
  assert (2 ^ p <> 0) by (apply N.pow_nonzero; discriminate). rewrite N.mod_same, N.div_same by assumption. change (2 ^ (1 - 1)) with 1. lia.
Qed.

(** ** Single to half precision *)
Lemma mant_lt : forall b, mant b < 2 ^ 24.
Proof. intros b. unfold mant. destruct (N.ltb_spec b (2 ^ 23)); [lia|]. pose proof (N.mod_lt b (2 ^ 23) ltac:(lia)). lia. Qed.

Section Q.
Variable qnan : N -> N.

Lemma sub_core : forall x, x < 0x38800000 ->
  fmul qnan (fmul qnan x (-125)) 13 = rne (float_value x) 125 * 2 ^ 13 /\ rne (float_value x) 125 <= 2 ^ 10.
Proof.
  intros x H. destruct (mant_units x) as [E V]. pose proof (mant_lt x) as ML.
  set (j := x / 2 ^ 23 - 1) in *. assert (J : j <= 111).
  { assert (x / 2 ^ 23 < 113) by (apply N.div_lt_upper_bound; lia). lia. }
  assert (R : rne (float_value x) 125 = rne (mant x) (125 - j)).
  { rewrite V. replace 125 with (125 - j + j) at 1 by lia. apply rne_scale. }
  assert (K : rne (float_value x) 125 <= 2 ^ 10).
  { assert (FV : float_value x < 2 ^ 10 * 2 ^ 125).
    { rewrite V. replace (2 ^ 10 * 2 ^ 125) with (2 ^ 24 * 2 ^ 111) by reflexivity. apply N.lt_le_trans with (2 ^ 24 * 2 ^ j).
      - apply N.mul_lt_mono_pos_r; [apply N.neq_0_lt_0, N.pow_nonzero; discriminate|exact ML].
      - apply N.mul_le_mono_l, N.pow_le_mono_r; lia. }
    assert (float_value x / 2 ^ 125 < 2 ^ 10) by (apply N.div_lt_upper_bound; [discriminate|rewrite N.mul_comm; exact FV]).
    destruct (rne_cases (float_value x) 125 ltac:(lia)) as [[-> _]|[-> _]]; lia. }
  split; [|exact K].
  assert (A : fmul qnan x (-125) = rne (float_value x) 125).
  { unfold fmul. destruct (N.ltb_spec inf_f x) as [C|_]; [unfold inf_f in C; lia|].
    destruct (N.eqb_spec x inf_f) as [C|_]; [unfold inf_f in C; lia|].
    rewrite R in K |- *. replace (125 - j) with (Z.to_N (-149 - (expo x + -125))) in * by lia. apply round32_sub; [lia| |unfold inf_f; lia].
    assert (N.log2 (mant x) <= 23).
    { destruct (N.eq_dec (mant x) 0) as [->|NZ]; [cbn; lia|]. apply N.lt_succ_r. apply N.log2_lt_pow2; [lia|exact ML]. }
    lia. }
  rewrite A. set (k := rne (float_value x) 125) in *. unfold fmul.
  destruct (N.ltb_spec inf_f k) as [C|_]; [unfold inf_f in C; lia|].
  destruct (N.eqb_spec k inf_f) as [C|_]; [unfold inf_f in C; lia|].
  unfold mant, expo. destruct (N.ltb_spec k (2 ^ 23)); [|lia].
  rewrite round32_exact_sub; [reflexivity|lia|]. change (Z.to_N (-149 + 13 + 149)) with 13. lia.
Qed.

Lemma norm_core : forall x, 0x38800000 <= x < inf_f -> fmul qnan x (-112) = x - 112 * 2 ^ 23.
Proof.
  intros x H. unfold fmul. destruct (N.ltb_spec inf_f x) as [C|_]; [lia|]. destruct (N.eqb_spec x inf_f) as [C|_]; [lia|].
  pose proof (N.div_mod x (2 ^ 23) ltac:(lia)) as DM. pose proof (N.mod_lt x (2 ^ 23) ltac:(lia)) as ML.
  assert (113 <= x / 2 ^ 23) by (apply N.div_le_lower_bound; lia). assert (x / 2 ^ 23 < 255) by (apply N.div_lt_upper_bound; [lia|unfold inf_f in H; lia]).
  unfold mant, expo. destruct (N.ltb_spec x (2 ^ 23)); [lia|]. set (q := x / 2 ^ 23) in *. set (r := x mod 2 ^ 23) in *.
  rewrite round32_norm; unfold inf_f; lia.
Qed.
End Q.
Lemma round_bits : forall y, y < 2 ^ 32 - 2 ^ 13 ->
  N.shiftr (u32 (u32 (y + N.land (N.shiftr y 13) 1) + (N.shiftl 1 12 - 1))) 13 = rne y 13.
Proof.
  intros y H. change (N.shiftl 1 12 - 1) with 4095. change 1 with (N.ones 1). rewrite N.land_ones, !N.shiftr_div_pow2.
  change (2 ^ 1) with 2. unfold rne. pose proof (N.div_mod y (2 ^ 13) ltac:(lia)) as DM. pose proof (N.mod_lt y (2 ^ 13) ltac:(lia)) as ML.
  set (q := y / 2 ^ 13) in *. set (t := y mod 2 ^ 13) in *. pose proof (N.mod_lt q 2 ltac:(lia)) as QM.
  rewrite (u32_small (y + _)) by lia. rewrite u32_small by lia.
  assert (OD : N.odd q = (q mod 2 =? 1)).
  { rewrite <- N.bit0_odd, N.bit0_eqb. reflexivity. }
  rewrite OD. set (b := q mod 2) in *.
  destruct (N.ltb_spec (2 ^ 13) (2 * t)); cbn [orb]; [|destruct (N.eqb_spec (2 * t) (2 ^ 13)); cbn [andb]; [destruct (N.eqb_spec b 1)|]].
  - symmetry. apply (N.div_unique _ _ _ (t + b + 4095 - 2 ^ 13)); lia.
  - symmetry. apply (N.div_unique _ _ _ (t + b + 4095 - 2 ^ 13)); lia.
  - symmetry. apply (N.div_unique _ _ _ (t + b + 4095)); lia.
  - symmetry. apply (N.div_unique _ _ _ (t + b + 4095)); lia.
Qed.
(** ** Sign *)
Lemma top_bit : forall k n, N.testbit (2 ^ k) n = (k =? n).
Proof. intros. apply N.pow2_bits_eqb. Qed.
Lemma sign_split : forall k s x, s <= 1 -> x < 2 ^ k ->
  N.land (s * 2 ^ k + x) (2 ^ k) = s * 2 ^ k /\ N.lxor (s * 2 ^ k + x) (s * 2 ^ k) = x.
Proof.
  intros k s x S X. assert (s = 0 \/ s = 1) as [->| ->] by lia.
  - rewrite N.mul_0_l, N.add_0_l, N.lxor_0_r. split; [|reflexivity]. apply N.bits_inj. intros n. rewrite N.land_spec, top_bit, N.bits_0.
    destruct (N.eqb_spec k n) as [->|]; [|apply andb_false_r]. rewrite (testbit_high x n n X) by lia. reflexivity.
  - rewrite N.mul_1_l. assert (A : 2 ^ k + x = N.lor (2 ^ k) x).
    { pose proof (lor_shiftl_add 1 x k X) as L. rewrite N.shiftl_1_l, N.mul_1_l in L. symmetry. exact L. }
    rewrite A. split; apply N.bits_inj; intros n; rewrite ?N.land_spec, ?N.lxor_spec, N.lor_spec, top_bit.
    + destruct (N.eqb_spec k n); cbn; [reflexivity|apply andb_false_r].
    + destruct (N.eqb_spec k n) as [->|]; cbn; [rewrite (testbit_high x n n X) by lia; reflexivity|apply xorb_false_r].
Qed.

Definition core (x : N) : N :=
  if inf_f <? x then 0x7e00 else if x <? 0x38800000 then rne (float_value x) 125
  else if x =? inf_f then inf_h else N.min (rne (x - 112 * 2 ^ 23) 13) inf_h.
Lemma core_lt : forall x, core x < 2 ^ 15.
Proof.
  intros x. unfold core. destruct (inf_f <? x); [reflexivity|]. destruct (N.ltb_spec x 0x38800000).
  - pose proof (proj2 (sub_core (fun b => b) x H)). lia.
  - destruct (x =? inf_f); [reflexivity|]. unfold inf_h. lia.
Qed.
Lemma rne_le : forall m s c, m < c * 2 ^ s -> rne m s <= c.
Proof.
  intros m s c H. assert (P : 2 ^ s <> 0) by (apply N.pow_nonzero; discriminate).
  assert (m / 2 ^ s < c) by (apply N.div_lt_upper_bound; [exact P|lia]). unfold rne.
  destruct ((2 ^ s <? 2 * (m mod 2 ^ s)) || _); lia.
Qed.

Lemma shiftr_lt : forall a, a < 2 ^ 32 -> N.shiftr a 13 < 2 ^ 32.
Proof. intros a H. rewrite N.shiftr_div_pow2. eapply N.le_lt_trans; [apply N.div_le_upper_bound with (q := a)|exact H]; lia. Qed.
Lemma u32_bound : forall a, u32 a < 2 ^ 32.
Proof. intros a. unfold u32. apply N.mod_lt. discriminate. Qed.
Lemma blend_le : forall a, a < 2 ^ 32 -> N.lxor a (N.land (mask (inf_h <? a)) (N.lxor inf_h a)) = N.min a inf_h.
Proof. intros a A. rewrite blend by (unfold inf_h; lia). destruct (N.ltb_spec inf_h a); lia. Qed.

Section F.
Variable qnan : N -> N.
Lemma blend_f : forall a b, N.lxor a (N.land (mask false) (N.lxor b a)) = a.
Proof. intros. unfold mask. rewrite N.land_0_l. apply N.lxor_0_r. Qed.

Definition inner (bits : N) : N :=
  let is_nan := inf_f <? bits in
  let is_sub := bits <? 0x38800000 in
  let norm := bits in
  let subn := fmul qnan (fmul qnan norm (-125)) 13 in
  let norm := fmul qnan norm (-112) in
  let bits := norm in
  let bits := u32 (bits + N.land (N.shiftr bits 13) 1) in
  let bits := u32 (bits + (N.shiftl 1 12 - 1)) in
  let bits := N.lxor bits (N.land (mask is_sub) (N.lxor subn bits)) in
  let bits := N.shiftr bits 13 in
  let bits := N.lxor bits (N.land (mask (inf_h <? bits)) (N.lxor inf_h bits)) in
  N.lxor bits (N.land (mask is_nan) (N.lxor 0x7e00 bits)).
Lemma float_to_half_inner : forall v, float_to_half qnan v =
  N.lor (inner (N.lxor v (N.land v 0x80000000))) (N.shiftr (N.land v 0x80000000) 16) mod 2 ^ 16.
Proof. reflexivity. Qed.
Lemma inner_eq : forall x, x < 2 ^ 31 -> inner x = core x.
Proof.
  intros x X. unfold inner, core. destruct (N.ltb_spec inf_f x) as [NA|NN].
  - (* NaN *)
    assert (SUB : (x <? 0x38800000) = false) by (apply N.ltb_ge; unfold inf_f in NA; lia). rewrite SUB, blend_f.
    set (w := N.shiftr (u32 _) 13). assert (W : w < 2 ^ 32) by (apply shiftr_lt, u32_bound).
    rewrite blend_le by exact W. apply blend; unfold inf_h; lia.
  - rewrite blend_f. destruct (N.ltb_spec x 0x38800000) as [SU|NO].
    + destruct (sub_core qnan x SU) as [A B]. rewrite A. rewrite (blend _ _ true); [|apply u32_bound|lia].
      rewrite N.shiftr_div_pow2, N.div_mul by discriminate. rewrite blend_le by lia. unfold inf_h. lia.
    + rewrite blend_f. destruct (N.eqb_spec x inf_f) as [->|NI].
      * replace (fmul qnan inf_f (-112)) with inf_f by reflexivity. rewrite blend_le by apply shiftr_lt, u32_bound. rewrite (round_bits inf_f) by (vm_compute; reflexivity). reflexivity.
      * rewrite blend_le by apply shiftr_lt, u32_bound. rewrite norm_core by lia. rewrite round_bits by lia. reflexivity.
Qed.

Lemma float_to_half_eq : forall s x, s <= 1 -> x < 2 ^ 31 -> float_to_half qnan (s * 2 ^ 31 + x) = s * 2 ^ 15 + core x.
Proof.
  intros s x S X. destruct (sign_split 31 s x S X) as [L1 L2]. rewrite float_to_half_inner.
  change 0x80000000 with (2 ^ 31). rewrite L1, L2, inner_eq by exact X. clear L1 L2. pose proof (core_lt x) as C.
  rewrite N.lor_comm. replace (N.shiftr (s * 2 ^ 31) 16) with (N.shiftl s 15).
  - rewrite lor_shiftl_add by exact C. apply N.mod_small. lia.
  - rewrite N.shiftr_div_pow2, N.shiftl_mul_pow2. replace (2 ^ 31) with (2 ^ 15 * 2 ^ 16) by reflexivity. rewrite N.mul_assoc. symmetry. apply N.div_mul. discriminate.
Qed.
End F.


(** the number at [q + t / 2^13] for the half precision pattern [q] of exponent field [f] *)
Lemma hv_step : forall q, half_value (q + 1) = half_value q + 2 ^ (q / 2 ^ 10 - 1) * 2 ^ 125.
Proof. intros q. unfold half_value. rewrite units_step. apply N.mul_add_distr_r. Qed.
Lemma hv_norm : forall x, 0x38800000 <= x -> let y := x - 112 * 2 ^ 23 in let q := y / 2 ^ 13 in
  1 <= q / 2 ^ 10 /\ float_value x = half_value q + (y mod 2 ^ 13) * (2 ^ (q / 2 ^ 10 - 1) * 2 ^ 112).
Proof.
  intros x X y q. assert (Y : 2 ^ 23 <= y) by lia.
  assert (QF : q / 2 ^ 10 = y / 2 ^ 23) by (unfold q; rewrite N.div_div by discriminate; reflexivity).
  assert (F1 : 1 <= y / 2 ^ 23) by (apply N.div_le_lower_bound; lia). split; [lia|].
  assert (XD : x / 2 ^ 23 = y / 2 ^ 23 + 112).
  { unfold y. replace x with (x - 112 * 2 ^ 23 + 112 * 2 ^ 23) at 1 by lia. apply N.div_add. discriminate. }
  assert (XM : x mod 2 ^ 23 = y mod 2 ^ 23).
  { unfold y. replace x with (x - 112 * 2 ^ 23 + 112 * 2 ^ 23) at 1 by lia. apply N.mod_add. discriminate. }
  unfold float_value, half_value, units. destruct (N.ltb_spec x (2 ^ 23)); [lia|].
  assert (QB : 2 ^ 10 <= q) by (apply N.div_le_lower_bound; [discriminate|]; lia).
  destruct (N.ltb_spec q (2 ^ 10)); [lia|]. rewrite QF, XD, XM.
  replace (y / 2 ^ 23 + 112 - 1) with (y / 2 ^ 23 - 1 + 112) by lia. rewrite N.pow_add_r. set (w := 2 ^ (y / 2 ^ 23 - 1)).
  assert (M : y mod 2 ^ 23 = (q mod 2 ^ 10) * 2 ^ 13 + y mod 2 ^ 13).
  { replace (2 ^ 23) with (2 ^ 13 * 2 ^ 10) by reflexivity. rewrite N.mod_mul_r by discriminate. fold q. lia. }
  rewrite M. replace (2 ^ 125) with (2 ^ 13 * 2 ^ 112) by reflexivity. replace (2 ^ 23) with (2 ^ 10 * 2 ^ 13) by reflexivity.
  generalize (q mod 2 ^ 10) (y mod 2 ^ 13) (2 ^ 112) (2 ^ 13) (2 ^ 10). intros. lia.
Qed.

Lemma core_nearest : forall x, x < inf_f -> nearest_even (float_value x) (core x).
Proof.
  intros x X. unfold core. destruct (N.ltb_spec inf_f x) as [|_]; [lia|]. destruct (N.ltb_spec x 0x38800000) as [SU|NO].
  - set (v := float_value x). assert (V : v < 2 ^ 10 * 2 ^ 125).
    { unfold v. assert (x < 0x38800000) by lia. replace (2 ^ 10 * 2 ^ 125) with (float_value 0x38800000) by reflexivity. apply units_lt. exact SU. }
    assert (Q : v / 2 ^ 125 < 2 ^ 10) by (apply N.div_lt_upper_bound; [discriminate|lia]).
    pose proof (N.div_mod v (2 ^ 125) ltac:(discriminate)) as DM. pose proof (N.mod_lt v (2 ^ 125) ltac:(discriminate)) as ML.
    assert (H0 : half_value (v / 2 ^ 125) = v / 2 ^ 125 * 2 ^ 125) by (unfold half_value; rewrite units_small by lia; reflexivity).
    assert (H1 : half_value (v / 2 ^ 125 + 1) = (v / 2 ^ 125 + 1) * 2 ^ 125) by (unfold half_value; rewrite units_small by lia; reflexivity).
    pose proof (rne_cases v 125 ltac:(lia)) as RC. cbv zeta in RC.
    set (q := v / 2 ^ 125) in *. set (t := v mod 2 ^ 125) in *.
    apply (nearest_between v q); [lia|lia|lia|]. rewrite H0, H1.
    destruct RC as [[-> [C|[C E]]]|[-> [C|[C E]]]]; [left|left|right|right]; (split; [reflexivity|]); [left|right|left|right]; try (split; [|exact E]); lia.
  - destruct (N.eqb_spec x inf_f); [lia|]. destruct (hv_norm x NO) as [F V]. cbv zeta in V. set (y := x - 112 * 2 ^ 23) in *.
    pose proof (N.div_mod y (2 ^ 13) ltac:(lia)) as DM. pose proof (N.mod_lt y (2 ^ 13) ltac:(lia)) as ML.
    pose proof (rne_cases y 13 ltac:(lia)) as RC. cbv zeta in RC. set (q := y / 2 ^ 13) in *. set (t := y mod 2 ^ 13) in *.
    pose proof (hv_step q) as HS. set (w := 2 ^ (q / 2 ^ 10 - 1)) in *. replace (2 ^ 125) with (2 ^ 13 * 2 ^ 112) in HS by reflexivity.
    assert (W : 0 < w * 2 ^ 112) by (apply N.mul_pos_pos; [apply N.neq_0_lt_0, N.pow_nonzero; discriminate|reflexivity]).
    replace (w * (2 ^ 13 * 2 ^ 112)) with (2 ^ 13 * (w * 2 ^ 112)) in HS by (clear; lia). set (u := w * 2 ^ 112) in *.
    destruct (N.lt_ge_cases q inf_h) as [QL|QG].
    + assert (M : N.min (rne y 13) inf_h = rne y 13) by (destruct RC as [[-> _]|[-> _]]; lia). rewrite M.
      apply (nearest_between (float_value x) q); [exact QL| | |].
      * rewrite V. lia.
      * rewrite V, HS. apply N.add_le_mono_l, N.mul_le_mono_r. lia.
      * assert (LTu : forall a b, a < b -> a * u < b * u) by (intros; apply N.mul_lt_mono_pos_r; assumption).
        rewrite HS, V. clear - RC LTu.
        destruct RC as [[-> [C|[C E]]]|[-> [C|[C E]]]]; [left|left|right|right]; (split; [reflexivity|]); [left|right|left|right]; try (split; [|exact E]);
        try (apply LTu in C); try (apply (f_equal (fun a => a * u)) in C); lia.
    + assert (M : N.min (rne y 13) inf_h = inf_h) by (destruct RC as [[-> _]|[-> _]]; lia). rewrite M.
      apply nearest_mid; [reflexivity| |left; reflexivity]. right. left.
      pose proof (hv_le inf_h q QG). pose proof (hv_lt (inf_h - 1) inf_h ltac:(reflexivity)). lia.
Qed.
