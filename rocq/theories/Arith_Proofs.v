From Verif Require Import Base Arith_Model.
Local Open Scope N_scope.

(** Mathematical ceiling division and its characterisation. *)
Definition cdiv (a b : N) : N := (a + b - 1) / b.

Lemma cdiv_le_iff a b k : 0 < b -> (cdiv a b <= k <-> a <= k * b).
Proof.
  intros Hb. unfold cdiv. split; intros H.
  - destruct (N.eq_dec a 0) as [->|Ha]; [lia|].
    pose proof (N.div_mod (a + b - 1) b ltac:(lia)).
    pose proof (N.mod_lt (a + b - 1) b ltac:(lia)).
    assert ((a + b - 1) / b * b <= k * b) by (apply N.mul_le_mono_r; lia). lia.
  - enough ((a + b - 1) / b < k + 1) by lia.
    apply N.div_lt_upper_bound; lia.
Qed.

Lemma cdiv_ge a b : 0 < b -> a <= cdiv a b * b.
Proof. intros Hb. apply cdiv_le_iff; auto. lia. Qed.

Lemma cdiv_upper a b : 0 < b -> cdiv a b * b <= a + b - 1.
Proof. intros Hb. unfold cdiv. rewrite N.mul_comm. apply N.mul_div_le. lia. Qed.

Lemma cdiv_pos a b : 0 < b -> 0 < a -> 0 < cdiv a b.
Proof.
  intros Hb Ha. destruct (N.eq_dec (cdiv a b) 0) as [E|]; [|lia].
  pose proof (cdiv_ge a b Hb). rewrite E in *. lia.
Qed.

Lemma cdiv_le_self a b : 0 < b -> cdiv a b <= a.
Proof. intros Hb. apply cdiv_le_iff; auto. nia. Qed.

Lemma sub32_ge a b : a < 2 ^ 32 -> b <= a -> sub32 a b = a - b.
Proof.
  intros Ha Hb. unfold sub32, u32.
  replace (a + 2 ^ 32 - b) with ((a - b) + 1 * 2 ^ 32) by lia.
  rewrite N.mod_add by lia. apply N.mod_small. lia.
Qed.

(** Exact behaviour of [ceil_div] on all 32-bit arguments: the ceiling when the
    intermediate sum fits, and 0 when it does not. *)
Lemma ceil_div_exact a b :
  a < 2 ^ 32 -> 0 < b < 2 ^ 32 ->
  ceil_div a b = Some (if a + b - 1 <? 2 ^ 32 then cdiv a b else 0).
Proof.
  intros Ha [Hb0 Hb]. unfold ceil_div, udiv.
  destruct (N.eqb_spec b 0); [lia|]. f_equal.
  destruct (N.ltb_spec (a + b - 1) (2 ^ 32)).
  - unfold cdiv. f_equal.
    destruct (N.eq_dec (a + b) (2 ^ 32)) as [E|E].
    + rewrite E. reflexivity.
    + rewrite u32_small by lia. apply sub32_ge; lia.
  - apply N.div_small. unfold sub32.
    replace (u32 (a + b)) with (a + b - 2 ^ 32).
    + unfold u32. lia.
    + unfold u32. lia.
Qed.

Lemma ceil_div_small a b :
  0 < b -> a + b - 1 < 2 ^ 32 -> ceil_div a b = Some (cdiv a b).
Proof.
  intros Hb H. unfold ceil_div, udiv.
  destruct (N.eqb_spec b 0); [lia|]. f_equal. unfold cdiv. f_equal.
  destruct (N.eq_dec (a + b) (2 ^ 32)) as [E|E].
  - rewrite E. reflexivity.
  - rewrite u32_small by lia. apply sub32_ge; lia.
Qed.

Lemma lc_ceil_small a b :
  0 < b -> a + b - 1 < 2 ^ 32 -> lc_ceil a b = Some (cdiv a b).
Proof. exact (ceil_div_small a b). Qed.

Lemma align_up_small x a :
  0 < a -> x + a - 1 < 2 ^ 32 -> align_up x a = Some (cdiv x a * a).
Proof.
  intros Ha H. unfold align_up. rewrite ceil_div_small by auto. cbn [bind].
  f_equal. apply u32_small. pose proof (cdiv_upper x a Ha). lia.
Qed.

Lemma align_up_wraps x a :
  x < 2 ^ 32 -> a < 2 ^ 32 -> 0 < a -> 2 ^ 32 <= x + a - 1 -> align_up x a = Some 0.
Proof.
  intros Hx Ha Ha0 H. unfold align_up. rewrite ceil_div_exact by lia.
  destruct (N.ltb_spec (x + a - 1) (2 ^ 32)); [lia|]. cbn [bind]. reflexivity.
Qed.

Lemma log2i_ceil_spec x k : x < 2 ^ 32 -> (log2i_ceil x <= k <-> x <= 2 ^ k).
Proof.
  intros Hx. unfold log2i_ceil.
  assert (H2 : 1 <= 2 ^ k).
  { change 1 with (2 ^ 0). apply N.pow_le_mono_r; lia. }
  destruct (N.leb_spec x 1) as [H1|H1]; [lia|].
  assert (Hs : N.size (x - 1) <= 32).
  { rewrite N.size_log2 by lia.
    assert (N.log2 (x - 1) < 32) by (apply N.log2_lt_pow2; lia). lia. }
  replace (32 - (32 - N.size (x - 1))) with (N.size (x - 1)) by lia.
  rewrite N.size_log2 by lia.
  split; intros H.
  - assert (x - 1 < 2 ^ k); [|lia]. apply N.log2_lt_pow2; lia.
  - assert (N.log2 (x - 1) < k); [|lia]. apply N.log2_lt_pow2; lia.
Qed.

(** ** The invariant divisor *)

Lemma dv_shift_loop_log2 fuel : forall tmp sh,
  0 < tmp -> tmp < 2 ^ N.of_nat fuel -> sh + N.log2 tmp < 2 ^ 32 ->
  dv_shift_loop fuel tmp sh = Some (sh + N.log2 tmp).
Proof.
  induction fuel as [|f IH]; intros tmp sh H0 Hf Hs.
  - exfalso. revert Hf. change (2 ^ N.of_nat 0) with 1. lia.
  - cbn [dv_shift_loop]. destruct (N.ltb_spec 1 tmp) as [H1|H1].
    + assert (Hd : N.shiftr tmp 1 = tmp / 2) by (rewrite N.shiftr_div_pow2; reflexivity).
      assert (Hl : N.log2 tmp = N.succ (N.log2 (tmp / 2))).
      { rewrite <- Hd. change 2 with (2 ^ 1).
        rewrite N.log2_shiftr. assert (1 <= N.log2 tmp); [|lia].
        apply N.log2_le_pow2; lia. }
      rewrite Hd, u32_small by lia. rewrite IH; try lia.
      * f_equal. lia.
      * replace (N.of_nat (S f)) with (N.succ (N.of_nat f)) in Hf by lia.
        rewrite N.pow_succ_r' in Hf. lia.
    + assert (tmp = 1) by lia. subst. change (N.log2 1) with 0. f_equal. lia.
Qed.

Lemma pow2_test v :
  0 < v -> (N.land v (v - 1) = 0 <-> v = 2 ^ N.log2 v).
Proof.
  intros Hv. set (s := N.log2 v).
  pose proof (N.log2_spec v Hv) as [Hl Hu]. fold s in Hl, Hu.
  split.
  - intros H0. destruct (N.eq_dec v (2 ^ s)) as [|Hne]; auto. exfalso.
    (* v and v-1 share the top bit *)
    assert (E : N.log2 (v - 1) = s).
    { apply N.log2_unique; try lia. }
    assert (N.testbit (N.land v (v - 1)) s = true).
    { rewrite N.land_spec.
      assert (N.testbit v s = true) by (apply N.bit_log2; lia).
      assert (N.testbit (v - 1) s = true).
      { rewrite <- E. apply N.bit_log2. assert (0 < 2 ^ s) by (apply N.neq_0_lt_0, N.pow_nonzero; lia). lia. }
      now rewrite H, H1. }
    rewrite H0, N.bits_0 in H. discriminate.
  - intros E. clearbody s. subst v. rewrite N.sub_1_r. rewrite <- N.ones_equiv.
    rewrite N.land_ones. apply N.mod_same. apply N.pow_nonzero. lia.
Qed.

(** The number-theoretic core: multiplying by [floor(P/v)+1] and dividing by
    [P] is an exact division as long as [x * v <= P]. *)
Lemma magic_div x v m P e :
  0 < v -> v * m = P + e -> x * e < P -> x * m / P = x / v.
Proof.
  intros Hv Hm He. set (q := x / v). set (t := x mod v).
  assert (Hx : x = v * q + t) by (apply N.div_mod; lia).
  assert (Ht : t < v) by (apply N.mod_lt; lia).
  symmetry. assert (HP : 0 < P) by lia.
  assert (Hge : P * q <= x * m).
  { apply (N.mul_le_mono_pos_l _ _ v); auto.
    replace (v * (x * m)) with (x * (v * m)) by lia. rewrite Hm. nia. }
  apply (N.div_unique _ _ _ (x * m - P * q)); [|lia].
  apply (N.mul_lt_mono_pos_l v); auto.
  rewrite N.mul_sub_distr_l.
  replace (v * (x * m)) with (x * (v * m)) by lia. rewrite Hm.
  assert (x * (P + e) = v * (P * q) + (P * t + x * e)) by nia.
  assert (P * t + P <= P * v) by nia. lia.
Qed.

Lemma dv_make_pow2 v s : v = 2 ^ s -> s < 32 -> dv_make v = Some (mkDiv 0 s v).
Proof.
  intros E Hs. unfold dv_make.
  assert (Hv : 0 < v) by (subst; apply N.neq_0_lt_0, N.pow_nonzero; lia).
  assert (Hv32 : v < 2 ^ 32) by (subst; apply N.pow_lt_mono_r; lia).
  assert (Hl : N.log2 v = s) by (subst; apply N.log2_pow2; lia).
  rewrite dv_shift_loop_log2; cycle 1; auto.
  { change (2 ^ N.of_nat 33) with (2 ^ 33). lia. }
  { lia. }
  cbn [bind]. rewrite sub32_ge by lia.
  replace (N.land v (v - 1)) with 0.
  - cbn. rewrite Hl. reflexivity.
  - symmetry. apply pow2_test; auto. now rewrite Hl.
Qed.

Lemma dv_make_other v :
  0 < v < 2 ^ 32 -> v <> 2 ^ N.log2 v ->
  exists m e, dv_make v = Some (mkDiv (m - 2 ^ 32) (N.log2 v) v) /\
    2 ^ 32 < m < 2 ^ 33 /\ v * m = 2 ^ (33 + N.log2 v) + e /\ e <= v /\ N.log2 v < 32 /\
    0 < e.
Proof.
  intros [Hv Hv32] Hnp. set (s := N.log2 v) in *.
  assert (Hs : s < 32) by (apply N.log2_lt_pow2; lia).
  pose proof (N.log2_spec v Hv) as [Hl Hu]. fold s in Hl, Hu.
  rewrite N.pow_succ_r' in Hu.
  unfold dv_make. rewrite dv_shift_loop_log2; cycle 1; auto.
  { change (2 ^ N.of_nat 33) with (2 ^ 33). lia. }
  { fold s. lia. }
  cbn [bind]. fold s. change (0 + s) with s. rewrite sub32_ge by lia.
  destruct (N.eqb_spec (N.land v (v - 1)) 0) as [E|_].
  { apply pow2_test in E; auto. fold s in E. lia. }
  assert (Hp : u64 (N.shiftl 1 (s + 32)) = 2 ^ (s + 32)).
  { rewrite N.shiftl_1_l. apply u64_small. apply N.pow_lt_mono_r; lia. }
  rewrite Hp. set (w := 2 ^ (s + 32)).
  assert (Hw : w = 2 ^ s * 2 ^ 32) by (unfold w; now rewrite N.pow_add_r).
  assert (HP : 2 ^ (33 + s) = 2 * w).
  { unfold w. replace (33 + s) with (N.succ (s + 32)) by lia. now rewrite N.pow_succ_r'. }
  rewrite HP.
  set (wd := w / v). set (wr := w mod v).
  assert (Hdm : w = v * wd + wr) by (apply N.div_mod; lia).
  assert (Hwr : wr < v) by (apply N.mod_lt; lia).
  assert (Hs32 : 2 ^ s <= 2 ^ 31) by (apply N.pow_le_mono_r; lia).
  assert (Hs0 : 0 < 2 ^ s) by (apply N.neq_0_lt_0, N.pow_nonzero; lia).
  set (ps := 2 ^ s) in *.
  (* bounds for the 33-bit magic number *)
  assert (Hwd_hi : wd < 2 ^ 32) by nia.
  assert (Hwd_lo : 2 ^ 31 <= wd).
  { unfold wd. apply N.div_le_lower_bound; lia. }
  rewrite (u32_small wd) by auto. rewrite (u32_small wr) by lia.
  assert (Hc : (v <=? u32 (wr * 2)) || (u32 (wr * 2) <? wr) = (v <=? 2 * wr)).
  { destruct (N.lt_ge_cases (wr * 2) (2 ^ 32)) as [Hsm|Hbig].
    - rewrite u32_small by auto.
      destruct (N.ltb_spec (wr * 2) wr); [lia|]. rewrite orb_false_r. f_equal. lia.
    - assert (Eu : u32 (wr * 2) = wr * 2 - 2 ^ 32) by (unfold u32; lia).
      rewrite Eu. destruct (N.leb_spec v (2 * wr)); [|lia].
      destruct (N.ltb_spec (wr * 2 - 2 ^ 32) wr); [now rewrite orb_true_r|lia]. }
  rewrite Hc.
  destruct (N.leb_spec v (2 * wr)) as [Hbr|Hbr].
  - (* magic = 2*wd+2 *)
    assert (Hnov : 2 * wd + 2 < 2 ^ 33).
    { destruct (N.lt_ge_cases (2 * wd + 2) (2 ^ 33)); auto. exfalso.
      assert (wd = 2 ^ 32 - 1) by lia. nia. }
    exists (2 * wd + 2), (2 * v - 2 * wr). repeat split; try lia.
    f_equal. f_equal. unfold u32. lia.
  - assert (Hne : 2 * wd + 1 < 2 ^ 33) by lia.
    exists (2 * wd + 1), (v - 2 * wr). repeat split; try lia.
    + f_equal. f_equal. unfold u32. lia.
Qed.

Lemma dv_correct v x d :
  0 < v < 2 ^ 32 -> x < 2 ^ 32 -> dv_make v = Some d -> dv_div_rem d x = (x / v, x mod v).
Proof.
  intros Hv Hx Hd.
  assert (Hrem : forall y, y = x / v -> sub32 x (u32 (y * v)) = x mod v).
  { intros y ->. rewrite u32_small.
    - rewrite sub32_ge; auto; rewrite (N.mul_comm _ v).
      + rewrite N.mod_eq; lia.
      + apply N.mul_div_le; lia.
    - rewrite (N.mul_comm _ v). eapply N.le_lt_trans; [apply N.mul_div_le; lia|auto]. }
  destruct (N.eq_dec v (2 ^ N.log2 v)) as [E|E].
  - set (s := N.log2 v) in *.
    assert (Hs : s < 32) by (apply N.log2_lt_pow2; lia).
    rewrite (dv_make_pow2 v s) in Hd by auto. injection Hd as <-.
    unfold dv_div_rem; cbn [dv_magic dv_shift dv_value].
    change (0 =? 0) with true. cbv iota zeta.
    assert (Hsr : N.shiftr x s = x / v) by (rewrite N.shiftr_div_pow2; now rewrite <- E).
    rewrite Hsr, N.shiftl_mul_pow2, <- E. now rewrite Hrem.
  - destruct (dv_make_other v Hv E) as (m & e & Hmk & Hm & He & Hev & Hs & He0).
    rewrite Hmk in Hd. injection Hd as <-.
    unfold dv_div_rem; cbn [dv_magic dv_shift dv_value].
    destruct (N.eqb_spec (m - 2 ^ 32) 0); [lia|]. cbv zeta.
    set (s := N.log2 v) in *.
    assert (Hhi : dv_mul_hi x (m - 2 ^ 32) = x * (m - 2 ^ 32) / 2 ^ 32).
    { unfold dv_mul_hi. rewrite u64_small by nia.
      rewrite N.shiftr_div_pow2. apply u32_small.
      apply N.div_lt_upper_bound; [lia|]. nia. }
    rewrite Hhi. set (hi := x * (m - 2 ^ 32) / 2 ^ 32).
    assert (Hle : hi <= x).
    { unfold hi. apply N.div_le_upper_bound; [lia|]. nia. }
    rewrite sub32_ge by auto.
    assert (Hq : N.shiftr (u32 (N.shiftr (x - hi) 1 + hi)) s = x / v).
    { rewrite N.shiftr_div_pow2, (N.shiftr_div_pow2 _ 1). change (2 ^ 1) with 2.
      rewrite u32_small by lia.
      replace ((x - hi) / 2 + hi) with ((x + hi) / 2) by lia.
      replace (x + hi) with (x * m / 2 ^ 32).
      2:{ unfold hi. replace (x * m) with (x * (m - 2 ^ 32) + x * 2 ^ 32) by nia.
          rewrite N.div_add by lia. lia. }
      assert (0 < 2 ^ s) by (apply N.neq_0_lt_0, N.pow_nonzero; lia).
      rewrite N.div_div by lia. rewrite N.div_div by lia.
      replace (2 ^ 32 * (2 * 2 ^ s)) with (2 ^ (33 + s)) by (rewrite N.pow_add_r; lia).
      apply (magic_div x v m _ e); [lia|exact He|].
      pose proof (N.log2_spec v ltac:(lia)) as [_ Hu]. fold s in Hu.
      rewrite N.pow_succ_r' in Hu.
      rewrite N.pow_add_r. nia. }
    rewrite Hq. now rewrite Hrem.
Qed.

Lemma dv_make_total v : 0 < v < 2 ^ 32 -> exists d, dv_make v = Some d.
Proof.
  intros Hv. destruct (N.eq_dec v (2 ^ N.log2 v)) as [E|E].
  - eexists. apply dv_make_pow2; [exact E|]. apply N.log2_lt_pow2; lia.
  - destruct (dv_make_other v Hv E) as (m & e & Hmk & _). eauto.
Qed.

(** ** Launch configuration *)

Lemma launch_config_ok sm size mt mb :
  0 < sm < 2 ^ 20 -> size <= 2 ^ 32 - 32 -> 32 <= mt <= 2 ^ 16 -> mt mod 32 = 0 ->
  mb < 2 ^ 12 ->
  exists blocks threads,
    get_launch_config sm size mt mb = LcOk blocks threads /\
    threads mod 32 = 0 /\ threads <= mt /\
    (mb = 0 -> size <= blocks * threads) /\
    (mb <> 0 -> blocks <= mb * sm).
Proof.
  intros Hsm Hsize Hmt Hmt32 Hmb. unfold get_launch_config.
  rewrite (lc_ceil_small size 32) by lia. cbn [bind].
  rewrite (lc_ceil_small mt 32) by lia. cbn [bind].
  set (wc := cdiv size 32). set (mw := cdiv mt 32).
  assert (Hwc : size <= wc * 32) by (apply cdiv_ge; lia).
  assert (Hwcu : wc <= 2 ^ 27) by (apply cdiv_le_iff; lia).
  assert (Hmw : mw * 32 = mt).
  { unfold mw, cdiv. lia. }
  destruct (N.leb_spec wc sm) as [H1|H1].
  { exists wc, (u32 (1 * 32)).
    rewrite (u32_small (wc * 1)) by lia.
    destruct (N.ltb_spec (wc * 1) wc); [lia|]. cbn [andb].
    change (u32 (1 * 32)) with 32. repeat split; try lia; try nia. }
  rewrite (lc_ceil_small wc sm) by lia. cbn [bind].
  set (w1 := cdiv wc sm).
  assert (Hw1 : wc <= w1 * sm) by (apply cdiv_ge; lia).
  assert (Hw1u : w1 * sm <= wc + sm - 1) by (apply cdiv_upper; lia).
  destruct (N.ltb_spec mw w1) as [H2|H2].
  - rewrite (lc_ceil_small wc mw) by lia. cbn [bind].
    set (b0 := cdiv wc mw).
    assert (Hb0 : wc <= b0 * mw) by (apply cdiv_ge; lia).
    assert (Hb0u : b0 <= wc) by (apply cdiv_le_self; lia).
    assert (Hb0p : 0 < b0) by (apply cdiv_pos; lia).
    rewrite (u32_small (sm * 4)) by lia.
    assert (Hbc : exists bc, (if b0 <? sm * 4
        then let? q := lc_ceil b0 sm in Some (u32 (q * sm)) else Some b0) = Some bc
        /\ b0 <= bc /\ bc <= b0 + sm).
    { destruct (N.ltb_spec b0 (sm * 4)) as [H3|H3].
      - rewrite (lc_ceil_small b0 sm) by lia. cbn [bind].
        pose proof (cdiv_ge b0 sm ltac:(lia)). pose proof (cdiv_upper b0 sm ltac:(lia)).
        eexists; split; [reflexivity|]. rewrite u32_small by lia. lia.
      - exists b0; repeat split; lia. }
    destruct Hbc as (bc & -> & Hbc1 & Hbc2). cbn [bind].
    rewrite (u32_small (mb * sm)) by nia.
    destruct (N.eqb_spec (mb * sm) 0) as [E0|E0]; cbn [negb andb].
    + assert (mb = 0) by nia.
      rewrite (lc_ceil_small wc bc) by lia. cbn [bind].
      set (w2 := cdiv wc bc).
      assert (Hw2 : w2 <= mw) by (apply cdiv_le_iff; nia).
      assert (Hw2p : 0 < w2) by (apply cdiv_pos; lia).
      rewrite (lc_ceil_small wc w2) by lia. cbn [bind].
      set (b2 := cdiv wc w2).
      assert (Hb2 : wc <= b2 * w2) by (apply cdiv_ge; lia).
      assert (Hb2u : b2 * w2 <= wc + w2 - 1) by (apply cdiv_upper; lia).
      rewrite (u32_small (b2 * w2)) by lia.
      destruct (N.ltb_spec (b2 * w2) wc); [lia|]. cbn [andb].
      exists b2, (u32 (w2 * 32)). rewrite (u32_small (w2 * 32)) by lia.
      repeat split; try lia; try nia.
    + destruct (N.ltb_spec (mb * sm) bc) as [H3|H3].
      * destruct (N.eqb_spec mb 0); [lia|]. rewrite andb_false_r.
        exists (mb * sm), (u32 (mw * 32)). rewrite (u32_small (mw * 32)) by lia.
        repeat split; try lia.
      * rewrite (lc_ceil_small wc bc) by lia. cbn [bind].
        set (w2 := cdiv wc bc).
        assert (Hw2 : w2 <= mw) by (apply cdiv_le_iff; nia).
        assert (Hw2p : 0 < w2) by (apply cdiv_pos; lia).
        assert (Hw2b : wc <= w2 * bc) by (apply cdiv_ge; lia).
        rewrite (lc_ceil_small wc w2) by lia. cbn [bind].
        set (b2 := cdiv wc w2).
        assert (Hb2 : wc <= b2 * w2) by (apply cdiv_ge; lia).
        assert (Hb2b : b2 <= bc) by (apply cdiv_le_iff; lia).
        assert (Hb2u : b2 * w2 <= wc + w2 - 1) by (apply cdiv_upper; lia).
        rewrite (u32_small (b2 * w2)) by lia.
        destruct (N.ltb_spec (b2 * w2) wc); [lia|]. cbn [andb].
        exists b2, (u32 (w2 * 32)). rewrite (u32_small (w2 * 32)) by lia.
        repeat split; try lia.
  - assert (Hsp : sm * w1 < 2 ^ 32) by lia.
    rewrite (u32_small (sm * w1)) by auto.
    destruct (N.ltb_spec (sm * w1) wc); [lia|]. cbn [andb].
    exists sm, (u32 (w1 * 32)). rewrite (u32_small (w1 * 32)) by lia.
    repeat split; try lia; try nia.
Qed.
