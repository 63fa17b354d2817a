(** Evaluation of literals. *)
From Verif Require Import Base Op_Model Op_Spec Op_Bits.
Local Open Scope N_scope.

Lemma narrow : forall t t' z, width t <= width t' -> wrap t (bits t' z) = bits t z.
Proof.
  intros t t' z H. apply wrap_bits. unfold bits. fold (zw t').
  rewrite Z2N.id by apply Z.mod_pos_bound, zw_pos.
  assert (E : zw t' = (zw t * 2 ^ (Z.of_N (width t') - Z.of_N (width t)))%Z).
  { unfold zw. rewrite <- Z.pow_add_r by lia. f_equal. lia. }
  rewrite E. pose proof (zw_pos t). rewrite Z.rem_mul_r by (try apply Z.pow_pos_nonneg; lia).
  rewrite Z.mul_comm, Z_mod_plus_full. apply Z.mod_mod. lia.
Qed.
Lemma promote_width : forall t, width t <= width (promote t).
Proof. intros []; vm_compute; discriminate. Qed.
Lemma promote_sint : forall t, is_int t = true -> is_sint (promote t) = computed_signed t.
Proof. now intros []. Qed.
Lemma promote_computed : forall t, is_int t = true -> width (promote t) = computed_width t.
Proof. now intros []. Qed.
Lemma in_range_spec : forall t z, in_range t z = true <-> fits (width t) z.
Proof. intros. unfold in_range, fits. rewrite andb_true_iff, Z.leb_le, Z.ltb_lt. reflexivity. Qed.

Lemma cxx_ok : forall t z, is_int t = true -> arith_ok t z -> cxx (promote t) z = Ok (bits (promote t) z).
Proof.
  intros t z I A. unfold cxx. rewrite promote_sint by assumption. unfold arith_ok in A.
  destruct (computed_signed t); [|reflexivity].
  rewrite <- promote_computed in A by assumption.
  assert (in_range (promote t) z = true) as -> by (apply in_range_spec; auto). reflexivity.
Qed.
Lemma cxx_ub : forall t z, is_int t = true -> ~ arith_ok t z -> cxx (promote t) z = Ub.
Proof.
  intros t z I A. unfold cxx. rewrite promote_sint by assumption. unfold arith_ok in A.
  destruct (computed_signed t); [|exfalso; apply A; discriminate].
  rewrite <- promote_computed in A by assumption.
  destruct (in_range (promote t) z) eqn:E; [|reflexivity]. apply in_range_spec in E. exfalso; auto.
Qed.
Lemma arith_dec : forall t z, {arith_ok t z} + {~ arith_ok t z}.
Proof.
  intros t z. unfold arith_ok. destruct (computed_signed t); [|left; discriminate].
  unfold fits. destruct (Z_le_dec (- 2 ^ (Z.of_N (computed_width t) - 1)) z);
    [destruct (Z_lt_dec z (2 ^ (Z.of_N (computed_width t) - 1)))|]; [left|right|right]; intuition.
Qed.

(** A narrow type's own range fits in the type it is promoted to. *)
Lemma arith_fits : forall t z, is_int t = true ->
  (if is_sint t then (- 2 ^ (Z.of_N (width t) - 1) <= z < 2 ^ (Z.of_N (width t) - 1))%Z else (0 <= z < zw t)%Z) ->
  arith_ok t z.
Proof.
  intros t z I H. unfold arith_ok, fits, computed_signed, computed_width, zw in *.
  destruct t; try discriminate; cbn [is_sint width] in *; intros; try discriminate;
  match goal with |- context [N.max ?a ?b] => change (N.max a b) with ltac:(let x := eval vm_compute in (N.max a b) in exact x) end;
  cbn [Z.of_N] in *; change (8 - 1)%Z with 7%Z in *; change (16 - 1)%Z with 15%Z in *; change (32 - 1)%Z with 31%Z in *; change (64 - 1)%Z with 63%Z in *; lia.
Qed.

Lemma min_signed_bits : forall t a, is_int t = true -> a < 2 ^ width t ->
  (sbits (width t) a = - 2 ^ (Z.of_N (width t) - 1))%Z <-> a = 2 ^ (width t - 1).
Proof.
  intros t a I A. unfold sbits. fold (zw t). pose proof (half t). pose proof (zw_half t).
  assert (0 < 2 ^ (Z.of_N (width t) - 1))%Z by (apply Z.pow_pos_nonneg; pose proof (width_pos t); lia).
  destruct (N.ltb_spec a (2 ^ (width t - 1))); lia.
Qed.
Definition signed_promote (t : ty) := match promote t with U32 => I32 | U64 => I64 | p => p end.
Lemma signed_promote_width : forall t, is_int t = true -> width (signed_promote t) = computed_width t /\ is_sint (signed_promote t) = true.
Proof. intros []; try discriminate; auto. Qed.
Lemma quot_range : forall t a b, is_int t = true -> a < 2 ^ width t -> b < 2 ^ width t ->
  div_defined t (num t a) (num t b) = true -> arith_ok t (Z.quot (num t a) (num t b)).
Proof.
  intros t a b I A B D. apply arith_fits; [assumption|].
  pose proof (num_range t a A) as RA. pose proof (num_range t b B) as RB.
  unfold div_defined, min_int in D. destruct (is_sint t) eqn:S; cbn [andb] in D.
  - revert RA RB D. generalize (num t a) (num t b). intros x y RA RB D.
    set (h := (2 ^ (Z.of_N (width t) - 1))%Z) in *.
    assert (Y : (y <> 0)%Z) by (destruct (Z.eqb_spec y 0); [discriminate|assumption]).
    assert (Q : (Z.abs (x ÷ y) = Z.abs x / Z.abs y)%Z).
    { rewrite <- Z.quot_abs by assumption. apply Z.quot_div_nonneg; lia. }
    destruct (Z.eq_dec (Z.abs y) 1) as [E|E].
    + assert (y = 1 \/ y = -1)%Z as [->| ->] by lia.
      * rewrite Z.quot_1_r. lia.
      * change (-1)%Z with (- (1))%Z. rewrite Z.quot_opp_r, Z.quot_1_r by lia. lia.
    + assert (Z.abs x / Z.abs y <= Z.abs x / 2)%Z by (apply Z.div_le_compat_l; lia).
      assert (Z.abs x / 2 <= h / 2)%Z by (apply Z.div_le_mono; lia).
      assert (0 < h)%Z by (apply Z.pow_pos_nonneg; pose proof (width_pos t); lia).
      assert (h / 2 < h)%Z by (apply Z.div_lt; lia).
      revert Q H H0 H2. generalize (x ÷ y)%Z (Z.abs x / Z.abs y)%Z (Z.abs x / 2)%Z (h / 2)%Z. intros. lia.
  - rewrite num_unsigned in * by assumption. rewrite num_unsigned in * by assumption.
    rewrite <- N2Z.inj_quot, <- zw_N.
    assert (b <> 0) by (intros ->; discriminate D).
    pose proof (div_le_self a b H). revert H0 A. generalize (a / b). intros. lia.
Qed.
Lemma rem_range : forall t a b, is_int t = true -> a < 2 ^ width t -> b < 2 ^ width t ->
  b <> 0 -> arith_ok t (Z.rem (num t a) (num t b)).
Proof.
  intros t a b I A B NZ. apply arith_fits; [assumption|].
  pose proof (num_range t b B) as RB. pose proof (num_zero t b B) as Z0.
  destruct (N.eqb_spec b 0); [congruence|]. apply Z.eqb_neq in Z0.
  destruct (is_sint t) eqn:S.
  - pose proof (Z.rem_bound_abs (num t a) (num t b) Z0). lia.
  - rewrite num_unsigned in * by assumption. rewrite num_unsigned in * by assumption.
    rewrite <- N2Z.inj_rem, <- zw_N. pose proof (N.mod_lt a b n). revert H B. generalize (a mod b). intros. lia.
Qed.
Lemma type_min_sint : forall t, is_sint t = true -> type_min t = 2 ^ (width t - 1).
Proof. now intros []. Qed.
Lemma fold_mod : forall t a b, is_int t = true -> a < 2 ^ width t -> b < 2 ^ width t ->
  exists y, eval_mod t a b = Ok y /\
    forall z, spec2 Mod t (num t a) (num t b) = Some z -> wrap t y = bits t z.
Proof.
  intros t a b I A B. unfold eval_mod. rewrite I. cbn [negb spec2].
  unfold div_defined. rewrite num_zero by assumption.
  destruct (N.eqb_spec b 0); [eexists; split; [reflexivity|discriminate]|]. cbn [negb andb].
  destruct (is_sint t && (a =? type_min t) && (b =? 2 ^ width t - 1)) eqn:M.
  - eexists; split; [reflexivity|]. apply andb_prop in M as [M M2]. apply andb_prop in M as [S M1].
    rewrite S, min_int_bits, minus_one_bits by assumption. rewrite type_min_sint in M1 by assumption. rewrite M1, M2. discriminate.
  - rewrite cxx_ok by auto using rem_range. cbn. eexists. split; [reflexivity|].
    intros z. destruct (negb _); [|discriminate]. intros E. injection E as <-.
    rewrite narrow by apply promote_width. apply wrap_of_bits.
Qed.
Lemma fold_mul_hi : forall t a b, is_int t = true -> 32 <= width t ->
  eval_mul_hi t a b = Ok (bits t (num t a * num t b / 2 ^ Z.of_N (width t))).
Proof.
  intros t a b I W. rewrite <- Z.shiftr_div_pow2 by lia.
  destruct t; try discriminate; cbn [width] in W; try lia; reflexivity.
Qed.
Lemma fold_minmax : forall t a b, is_int t = true -> a < 2 ^ width t -> b < 2 ^ width t ->
  eval_min t a b = Ok (bits t (Z.min (num t a) (num t b))) /\ eval_max t a b = Ok (bits t (Z.max (num t a) (num t b))).
Proof.
  intros t a b I A B. unfold eval_min, eval_max. rewrite int_not_float by assumption. split; f_equal.
  - destruct (Z.ltb_spec (num t a) (num t b)); [rewrite Z.min_l by lia|rewrite Z.min_r by lia]; now rewrite bits_num.
  - rewrite Z.gtb_ltb. destruct (Z.ltb_spec (num t b) (num t a)); [rewrite Z.max_l by lia|rewrite Z.max_r by lia]; now rewrite bits_num.
Qed.
Lemma fold_cmp : forall k p t a b,
  (k, p) = (Eq, Z.eqb) \/ (k, p) = (Lt, Z.ltb) \/ (k, p) = (Le, Z.leb) \/ (k, p) = (Gt, Z.gtb) \/ (k, p) = (Ge, Z.geb) ->
  eval_cmp p t a b = Ok (b2n (truth k (ordering t a b))).
Proof.
  intros k p t a b E. rewrite <- (ir_compare k p t a b E). unfold eval_cmp, cmp. f_equal. f_equal.
  destruct (is_float t) eqn:F; [reflexivity|]. unfold icmp, num. now destruct t.
Qed.
Lemma fold_neq : forall t a b, eval_neq t a b = Ok (b2n (truth Neq (ordering t a b))).
Proof.
  intros. unfold eval_neq, ordering, ieee. f_equal. f_equal. destruct (is_float t).
  - unfold fcmp. destruct (is_nan t a), (is_nan t b); cbn; try reflexivity.
    rewrite zcmp. now destruct (_ ?= _)%Z.
  - rewrite zcmp. now destruct (_ ?= _)%Z.
Qed.
Lemma fold_shr : forall t a b, is_int t = true -> a < 2 ^ width t -> b < 2 ^ width t ->
  (fold2_ok Shr t (num t a) (num t b) -> exists y, eval_shr t a b = Ok y /\
     forall z, spec2 Shr t (num t a) (num t b) = Some z -> wrap t y = bits t z) /\
  (~ fold2_ok Shr t (num t a) (num t b) -> eval_shr t a b = Ub).
Proof.
  intros t a b I A B. cbn [fold2_ok]. unfold eval_shr. rewrite I, promote_computed by assumption. cbn [negb].
  split.
  - intros [P Q]. apply Z.leb_le in P as P'. apply Z.ltb_lt in Q. rewrite P', Q. eexists. split; [reflexivity|].
    intros z. cbn [spec2]. destruct (shift_defined t (num t b)); [|discriminate]. intros E. injection E as <-.
    rewrite Z.shiftr_div_pow2 by assumption. apply wrap_of_bits.
  - intros H. destruct (Z.leb_spec 0 (num t b)), (Z.ltb_spec (num t b) (Z.of_N (computed_width t))); try reflexivity.
    exfalso; auto.
Qed.
Lemma testbit_half : forall x i, N.testbit x (N.of_nat (S i)) = N.testbit (x / 2) (N.of_nat i).
Proof.
  intros. rewrite <- N.div2_div. rewrite Nat2N.inj_succ, N.div2_spec.
  rewrite N.shiftr_spec by lia. f_equal. lia.
Qed.
Lemma ctpop_succ : forall w x, ctpop (S w) x = N.b2n (N.testbit x 0) + ctpop w (x / 2).
Proof.
  intros. unfold ctpop. cbn [seq filter]. change (N.of_nat 0) with 0.
  assert (E : length (filter (fun i => N.testbit x (N.of_nat i)) (seq 1 w)) =
              length (filter (fun i => N.testbit (x / 2) (N.of_nat i)) (seq 0 w))).
  { rewrite <- seq_shift. generalize (seq 0 w). intros l. induction l as [|i l IH]; [reflexivity|].
    cbn [map filter]. rewrite testbit_half. destruct (N.testbit (x / 2) (N.of_nat i)); cbn; auto. }
  destruct (N.testbit x 0); cbn [length N.b2n]; rewrite E; lia.
Qed.
Lemma land_1 : forall x, N.land x 1 = N.b2n (N.testbit x 0).
Proof. intros. change 1 with (N.ones 1). rewrite N.land_ones, N.bit0_mod. reflexivity. Qed.
Lemma ctpop_0 : forall w, ctpop w 0 = 0.
Proof. induction w; [reflexivity|]. rewrite ctpop_succ. change (0 / 2) with 0. now rewrite IHw. Qed.
Lemma popc_loop_ok : forall f x r, x < 2 ^ N.of_nat f -> popc_loop f x r = Some (r + ctpop f x).
Proof.
  induction f; intros x r H.
  - cbn in H. assert (x = 0) as -> by lia. cbn. now rewrite N.add_0_r.
  - cbn [popc_loop]. destruct (N.eqb_spec x 0) as [->|]; [now rewrite ctpop_0, N.add_0_r|].
    rewrite N.shiftr_div_pow2. change (2 ^ 1) with 2. rewrite IHf.
    + rewrite land_1, ctpop_succ. f_equal. lia.
    + rewrite Nat2N.inj_succ, N.pow_succ_r' in H. apply N.div_lt_upper_bound; lia.
Qed.
Lemma ctpop_fact : forall w x, popcount (N.of_nat w) x (ctpop w x).
Proof.
  intros. exists (map N.of_nat (filter (fun i => N.testbit x (N.of_nat i)) (seq 0 w))). split; [|split].
  - apply FinFun.Injective_map_NoDup; [intros a b E; lia|]. apply NoDup_filter, seq_NoDup.
  - intros i. rewrite in_map_iff. split.
    + intros (j & <- & J). apply filter_In in J as [J T]. apply in_seq in J. split; [lia|assumption].
    + intros [L T]. exists (N.to_nat i). split; [lia|]. apply filter_In. rewrite in_seq, N2Nat.id. split; [lia|assumption].
  - now rewrite map_length.
Qed.
Lemma ctlz_fact : forall w x, leading_zeros (N.of_nat w) x (ctlz w x).
Proof.
  induction w; intros x.
  - cbn. split; [lia|]. split; [lia|lia].
  - destruct (IHw x) as (A & B & C). cbn [ctlz]. destruct (N.testbit x (N.of_nat w)) eqn:T.
    + split; [lia|]. split; [lia|]. intros _. replace (N.of_nat (S w) - 0 - 1) with (N.of_nat w) by lia. assumption.
    + split; [lia|]. split.
      * intros i L U. destruct (N.eq_dec i (N.of_nat w)) as [->|]; [assumption|]. apply B; lia.
      * intros L. replace (N.of_nat (S w) - (1 + ctlz w x) - 1) with (N.of_nat w - ctlz w x - 1) by lia. apply C. lia.
Qed.
Lemma clz_loop_ok : forall f x r, x < 2 ^ N.of_nat f -> clz_loop f x r = Some (r - N.size x).
Proof.
  induction f; intros x r H.
  - change (2 ^ N.of_nat 0) with 1 in H. assert (x = 0) as -> by lia. change (Some r = Some (r - 0)). f_equal. lia.
  - cbn [clz_loop]. destruct (N.eqb_spec x 0) as [->|NZ]; [change (N.size 0) with 0; f_equal; lia|].
    assert (S : N.size x = 1 + N.size (N.shiftr x 1)).
    { destruct x as [|[p|p|]]; [congruence| | |reflexivity];
      (change (N.pos (Pos.succ (Pos.size p)) = 1 + N.pos (Pos.size p)); lia). }
    rewrite IHf.
    + f_equal. rewrite S. generalize (N.size (N.shiftr x 1)). intros. lia.
    + rewrite N.shiftr_div_pow2. change (2 ^ 1) with 2. rewrite Nat2N.inj_succ, N.pow_succ_r' in H. apply N.div_lt_upper_bound; lia.
Qed.
Lemma size_fact : forall w x, x < 2 ^ w -> leading_zeros w x (w - N.size x).
Proof.
  intros w x H. destruct (N.eq_dec x 0) as [->|NZ].
  - change (N.size 0) with 0. split; [lia|]. split; [intros; apply N.bits_0|lia].
  - rewrite N.size_log2 by assumption. assert (N.log2 x < w) by (apply N.log2_lt_pow2; lia).
    split; [lia|]. split.
    + intros i L U. apply N.bits_above_log2. lia.
    + intros _. replace (w - (w - N.succ (N.log2 x)) - 1) with (N.log2 x) by lia. now apply N.bit_log2.
Qed.
Lemma cttz_from_fact : forall w i x, let r := cttz_from i w x in
  r <= N.of_nat w /\ (forall j, N.of_nat i <= j -> j < N.of_nat i + r -> N.testbit x j = false) /\
  (r < N.of_nat w -> N.testbit x (N.of_nat i + r) = true).
Proof.
  induction w; intros i x; cbn [cttz_from].
  - split; [lia|]. split; lia.
  - destruct (IHw (S i) x) as (A & B & C). destruct (N.testbit x (N.of_nat i)) eqn:T.
    + split; [lia|]. split; [lia|]. intros _. now rewrite N.add_0_r.
    + split; [lia|]. split.
      * intros j L U. destruct (N.eq_dec j (N.of_nat i)) as [->|]; [assumption|]. apply B; lia.
      * intros L. replace (N.of_nat i + (1 + cttz_from (S i) w x)) with (N.of_nat (S i) + cttz_from (S i) w x) by lia.
        apply C. lia.
Qed.
Lemma cttz_fact : forall w x, trailing_zeros (N.of_nat w) x (cttz w x).
Proof.
  intros. destruct (cttz_from_fact w 0 x) as (A & B & C). unfold cttz. split; [assumption|]. split.
  - intros i L. apply B; lia.
  - intros L. apply (C L).
Qed.
Lemma ctz_loop_ok : forall t f x s r, x < 2 ^ width t -> trailing_zeros (width t) x r ->
  (width t - r <= N.of_nat f) -> ctz_loop t f x s = Some (s - (width t - r)).
Proof.
  intros t. induction f; intros x s r X (A & B & C) F.
  - assert (r = width t) by lia. subst r.
    assert (x = 0) as ->.
    { apply N.bits_inj. intros i. rewrite N.bits_0. destruct (N.lt_ge_cases i (width t)); [now apply B|].
      rewrite <- (N.mod_small x (2 ^ width t)) by assumption. now apply N.mod_pow2_bits_high. }
    change (Some s = Some (s - (width t - width t))). f_equal. lia.
  - cbn [ctz_loop]. destruct (N.eqb_spec x 0) as [->|NZ].
    + destruct (N.lt_ge_cases r (width t)) as [L|L]; [specialize (C L); now rewrite N.bits_0 in C|].
      f_equal. lia.
    + assert (L : r < width t).
      { destruct (N.lt_ge_cases r (width t)); [assumption|]. exfalso. apply NZ.
        apply N.bits_inj. intros i. rewrite N.bits_0. destruct (N.lt_ge_cases i (width t)); [apply B; lia|].
        rewrite <- (N.mod_small x (2 ^ width t)) by assumption. now apply N.mod_pow2_bits_high. }
      rewrite (IHf _ _ (r + 1)).
      * f_equal. lia.
      * apply wrap_lt.
      * split; [lia|]. unfold wrap. split.
        -- intros i I. rewrite N.mod_pow2_bits_low by lia.
           destruct (N.eq_dec i 0) as [->|]; [apply N.shiftl_spec_low; lia|].
           rewrite N.shiftl_spec_high' by lia. apply B. lia.
        -- intros I. rewrite N.mod_pow2_bits_low by lia. rewrite N.shiftl_spec_high' by lia.
           replace (r + 1 - 1) with r by lia. now apply C.
      * lia.
Qed.
Lemma bitrev_lt : forall w x, bitrev w x < 2 ^ N.of_nat w.
Proof.
  induction w; intros x; [cbn; lia|]. cbn [bitrev]. specialize (IHw (x / 2)).
  rewrite Nat2N.inj_succ, N.pow_succ_r'. destruct (N.testbit x 0); cbn [N.b2n]; revert IHw; generalize (2 ^ N.of_nat w) (bitrev w (x / 2)); intros; lia.
Qed.
Lemma bitrev_fact : forall w x, reversal (N.of_nat w) x (bitrev w x).
Proof.
  intros w x. split; [apply bitrev_lt|]. revert x. induction w; intros x i I; [lia|]. cbn [bitrev].
  pose proof (bitrev_lt w (x / 2)) as L.
  destruct (N.eq_dec i (N.of_nat w)) as [->|NE].
  - replace (N.of_nat (S w) - 1 - N.of_nat w) with 0 by lia.
    transitivity (N.testbit ((N.b2n (N.testbit x 0) * 2 ^ N.of_nat w + bitrev w (x / 2)) / 2 ^ N.of_nat w) 0);
      [now rewrite N.div_pow2_bits, N.add_0_l|].
    rewrite N.div_add_l, (N.div_small _ _ L), N.add_0_r by (apply N.pow_nonzero; discriminate).
    apply N.b2n_bit0.
  - rewrite <- (N.mod_pow2_bits_low _ (N.of_nat w)) by lia.
    rewrite N.add_comm, N.mod_add, (N.mod_small _ _ L) by (apply N.pow_nonzero; discriminate).
    rewrite IHw by lia.
    replace (N.of_nat (S w) - 1 - i) with (N.of_nat (S (N.to_nat (N.of_nat w - 1 - i)))) by lia.
    rewrite testbit_half. f_equal. lia.
Qed.
Lemma brev_loop_ok : forall t n x r, N.of_nat n <= width t -> r < 2 ^ (width t - N.of_nat n) ->
  brev_loop t n x r = r * 2 ^ N.of_nat n + bitrev n x.
Proof.
  intros t. induction n; intros x r H R.
  - cbn. lia.
  - cbn [brev_loop bitrev].
    assert (E : N.lor (N.shiftl r 1) (N.land x 1) = 2 * r + N.b2n (N.testbit x 0)).
    { rewrite land_1, N.shiftl_mul_pow2. change (2 ^ 1) with 2. rewrite N.mul_comm.
      destruct (N.testbit x 0); cbn [N.b2n]; [|now rewrite N.lor_0_r, N.add_0_r].
      now destruct r. }
    rewrite E.
    assert (P : 2 ^ (width t - N.of_nat n) = 2 * 2 ^ (width t - N.of_nat (S n))).
    { rewrite <- N.pow_succ_r'. f_equal. lia. }
    assert (B : 2 * r + N.b2n (N.testbit x 0) < 2 ^ (width t - N.of_nat n)).
    { rewrite P. revert R. generalize (2 ^ (width t - N.of_nat (S n))). destruct (N.testbit x 0); cbn [N.b2n]; intros; lia. }
    rewrite wrap_small.
    2:{ eapply N.lt_le_trans; [exact B|]. apply N.pow_le_mono_r; lia. }
    rewrite N.shiftr_div_pow2. change (2 ^ 1) with 2. rewrite IHn by (assumption || lia).
    rewrite (Nat2N.inj_succ n), N.pow_succ_r'. ring.
Qed.
Lemma width_nat : forall t, N.of_nat (N.to_nat (width t)) = width t.
Proof. intros. apply N2Nat.id. Qed.
Lemma small_count : forall t r, is_int t = true -> r <= width t -> wrap t r = r.
Proof. intros t r I R. apply wrap_small. destruct t; try discriminate; cbn [width] in *; eapply N.le_lt_trans; try exact R; reflexivity. Qed.
Lemma ctpop_le : forall w x, ctpop w x <= N.of_nat w.
Proof.
  induction w; intros; [reflexivity|]. rewrite ctpop_succ. specialize (IHw (x / 2)).
  revert IHw. generalize (ctpop w (x / 2)). intros. destruct (N.testbit x 0); cbn [N.b2n]; lia.
Qed.
Definition bit_builder (k : kind) : ty -> N -> out N :=
  match k with Popc => eval_popc | Clz => eval_clz | Brev => eval_brev | _ => eval_ctz end.
Lemma fold_bits : forall k t a, In k [Popc; Clz; Brev; Ctz] -> is_int t = true -> a < 2 ^ width t ->
  exists y, bit_builder k t a = Ok y /\ bit_fact k (width t) a (wrap t y) /\ y < 2 ^ width t.
Proof.
  intros k t a [<-|[<-|[<-|[<-|[]]]]] I A; cbn [bit_builder bit_fact].
  - unfold eval_popc. rewrite I, popc_loop_ok by now rewrite width_nat.
    eexists. split; [reflexivity|]. rewrite N.add_0_l.
    pose proof (ctpop_fact (N.to_nat (width t)) a) as F. pose proof (ctpop_le (N.to_nat (width t)) a) as L. rewrite width_nat in *.
    rewrite (small_count t _ I L), (small_count t _ I L). split; [assumption|].
    rewrite <- (small_count t _ I L). apply wrap_lt.
  - unfold eval_clz. rewrite I, clz_loop_ok by now rewrite width_nat.
    eexists. split; [reflexivity|]. pose proof (size_fact (width t) a A) as F.
    assert (L : width t - N.size a <= width t) by lia.
    rewrite (small_count t _ I L), (small_count t _ I L). split; [assumption|].
    rewrite <- (small_count t _ I L). apply wrap_lt.
  - unfold eval_brev. rewrite I, brev_loop_ok by (rewrite width_nat, ?N.sub_diag; reflexivity).
    eexists. split; [reflexivity|]. pose proof (bitrev_fact (N.to_nat (width t)) a) as F. rewrite width_nat in *.
    rewrite N.mul_0_l, N.add_0_l. destruct F as [F1 F2]. rewrite wrap_small by assumption. repeat split; assumption.
  - unfold eval_ctz. rewrite I. pose proof (cttz_fact (N.to_nat (width t)) a) as F. rewrite width_nat in F.
    rewrite (ctz_loop_ok t _ a _ _ A F) by (rewrite width_nat; lia).
    eexists. split; [reflexivity|]. destruct F as [F1 F2].
    replace (width t - (width t - cttz (N.to_nat (width t)) a)) with (cttz (N.to_nat (width t)) a) by lia.
    rewrite (small_count t _ I F1), (small_count t _ I F1). split; [split; assumption|].
    rewrite <- (small_count t _ I F1). apply wrap_lt.
Qed.

Section WithFop.
Variable fop : kind -> ty -> list ty -> list N -> N.


Lemma fold_neg : forall t a, is_int t = true -> a < 2 ^ width t ->
  (fold1_ok Neg t (num t a) -> exists y, eval_neg fop t a = Ok y /\ wrap t y = bits t (- num t a)) /\
  (~ fold1_ok Neg t (num t a) -> eval_neg fop t a = Ub).
Proof.
  intros t a I A. unfold eval_neg. rewrite int_not_bool, int_not_float by assumption. fold (signed_promote t).
  cbn [fold1_ok]. rewrite bits_num by assumption. unfold cxx. destruct (signed_promote_width t I) as [W S]. rewrite S.
  pose proof (min_signed_bits t a I A) as M. pose proof (sbits_range t a A) as R.
  assert (C : wrap t (bits (signed_promote t) (- sbits (width t) a)) = bits t (- num t a)).
  { rewrite narrow by (rewrite W; unfold computed_width; lia). apply bits_congr.
    rewrite <- (Z.sub_0_l (sbits _ _)), <- (Z.sub_0_l (num t a)). apply cong_sub; [reflexivity|].
    rewrite num_mod, sbits_mod by assumption. reflexivity. }
  split.
  - intros H. assert (in_range (signed_promote t) (- sbits (width t) a) = true) as ->.
    { apply in_range_spec. rewrite W. unfold fits, computed_width. clear C.
      destruct t; try discriminate; cbn [width] in *;
      match goal with |- context [N.max ?a ?b] => change (N.max a b) with ltac:(let x := eval vm_compute in (N.max a b) in exact x) end;
      cbn [Z.of_N] in *; change (8 - 1)%Z with 7%Z in *; change (16 - 1)%Z with 15%Z in *; change (32 - 1)%Z with 31%Z in *; change (64 - 1)%Z with 63%Z in *; lia. }
    cbn [obind]. eexists. split; [reflexivity|]. rewrite zwrap_bits, C. apply wrap_of_bits.
  - intros H.
    assert (H1 : 32 <= width t /\ a = 2 ^ (width t - 1)).
    { destruct (N.eq_dec a (2 ^ (width t - 1))), (N.le_gt_cases 32 (width t)); auto;
      exfalso; apply H; intros [? ?]; lia. }
    destruct H1 as [H1 H2]. apply M in H2.
    destruct (in_range _ _) eqn:E; [|reflexivity]. apply in_range_spec in E. unfold fits in E. rewrite W in E.
    unfold computed_width in E. rewrite N.max_r in E by assumption. lia.
Qed.

Lemma fold_abs : forall t a, is_int t = true -> a < 2 ^ width t ->
  (fold1_ok Abs t (num t a) -> exists y, eval_abs fop t a = Ok y /\ wrap t y = bits t (Z.abs (num t a))) /\
  (~ fold1_ok Abs t (num t a) -> eval_abs fop t a = Ub).
Proof.
  intros t a I A. unfold eval_abs. rewrite int_not_float by assumption. cbn [fold1_ok].
  pose proof (num_range t a A) as R. destruct (is_sint t) eqn:S.
  - split.
    + intros H. rewrite cxx_ok; auto.
      * cbn. eexists. split; [reflexivity|]. rewrite narrow by apply promote_width. apply wrap_of_bits.
      * unfold arith_ok, fits, computed_width, min_int in *. intros _.
        destruct t; try discriminate; cbn [width] in *;
        match goal with |- context [N.max ?a ?b] => change (N.max a b) with ltac:(let x := eval vm_compute in (N.max a b) in exact x) end;
        cbn [Z.of_N] in *; change (8 - 1)%Z with 7%Z in *; change (16 - 1)%Z with 15%Z in *; change (32 - 1)%Z with 31%Z in *; change (64 - 1)%Z with 63%Z in *;
        lia.
    + intros H. rewrite cxx_ub; auto. intros Q. apply H. intros (_ & H1 & H2).
      unfold arith_ok, computed_signed, computed_width, min_int, fits in *. rewrite S, N.max_r in Q by assumption.
      specialize (Q eq_refl). rewrite H2 in Q. lia.
  - split; [|intros H; exfalso; apply H; intros (? & _); discriminate].
    intros _. eexists. split; [reflexivity|]. rewrite Z.abs_eq by lia. rewrite bits_num by assumption. now apply wrap_small.
Qed.

Lemma fold_arith : forall k f t a b, is_int t = true ->
  (arith_ok t (f (num t a) (num t b)) ->
     exists y, eval_arith fop k f t a b = Ok y /\ wrap t y = bits t (f (num t a) (num t b))) /\
  (~ arith_ok t (f (num t a) (num t b)) -> eval_arith fop k f t a b = Ub).
Proof.
  intros k f t a b I. unfold eval_arith. rewrite int_not_float by assumption. split; intros H.
  - rewrite cxx_ok by assumption. eexists. split; [reflexivity|]. apply narrow, promote_width.
  - now apply cxx_ub.
Qed.

Lemma fold_div : forall t a b, is_int t = true -> a < 2 ^ width t -> b < 2 ^ width t ->
  exists y, eval_div fop t a b = Ok y /\
    forall z, spec2 Div t (num t a) (num t b) = Some z -> wrap t y = bits t z.
Proof.
  intros t a b I A B. unfold eval_div. rewrite int_not_bool, int_not_float by assumption.
  cbn [spec2]. destruct (div_defined t (num t a) (num t b)) eqn:D.
  - pose proof D as D'. unfold div_defined in D'. rewrite num_zero in D' by assumption.
    destruct (b =? 0); [discriminate|]. cbn in D'.
    replace (is_sint t && (a =? type_min t) && (b =? 2 ^ width t - 1)) with false.
    2:{ destruct (is_sint t) eqn:S; [|reflexivity]. rewrite min_int_bits, minus_one_bits in D' by assumption.
        rewrite type_min_sint by assumption. symmetry. now apply negb_true_iff. }
    rewrite cxx_ok by auto using quot_range. cbn. eexists. split; [reflexivity|].
    intros z E. injection E as <-. rewrite narrow by apply promote_width. apply wrap_of_bits.
  - unfold div_defined in D. rewrite num_zero in D by assumption.
    destruct (b =? 0); [eexists; split; [reflexivity|discriminate]|]. cbn in D.
    destruct (is_sint t) eqn:S; [|discriminate]. rewrite min_int_bits, minus_one_bits in D by assumption.
    rewrite type_min_sint by assumption. apply negb_false_iff in D. rewrite D.
    eexists; split; [reflexivity|discriminate].
Qed.
Lemma fold_fma : forall t a b c, is_int t = true ->
  (fold3_ok t (num t a) (num t b) (num t c) ->
     exists y, eval_fma fop t a b c = Ok y /\ wrap t y = bits t (num t a * num t b + num t c)) /\
  (~ fold3_ok t (num t a) (num t b) (num t c) -> eval_fma fop t a b c = Ub).
Proof.
  intros t a b c I. unfold eval_fma. rewrite int_not_bool, int_not_float by assumption.
  set (p := (num t a * num t b)%Z). unfold fold3_ok. fold p.
  assert (E : arith_ok t p -> computed_signed t = true -> num (promote t) (bits (promote t) p) = p).
  { intros P C. apply num_bits. rewrite promote_sint, C by assumption.
    rewrite promote_computed by assumption. exact (P C). }
  assert (U : computed_signed t = false -> num (promote t) (bits (promote t) p) = Z.of_N (bits (promote t) p)).
  { intros C. apply num_unsigned. now rewrite promote_sint. }
  split.
  - intros [P Q]. rewrite cxx_ok by assumption. cbn [obind].
    destruct (computed_signed t) eqn:C.
    + rewrite E by auto. rewrite cxx_ok by assumption. cbn. eexists. split; [reflexivity|].
      rewrite narrow by apply promote_width. apply wrap_of_bits.
    + rewrite U by auto. rewrite cxx_ok; [|assumption|unfold arith_ok; rewrite C; discriminate].
      cbn. eexists. split; [reflexivity|]. rewrite narrow by apply promote_width. rewrite wrap_of_bits.
      assert (promote t = t) as -> by (destruct t; try discriminate; reflexivity).
      apply bits_congr, cong_add; [apply bits_mod|reflexivity].
  - intros H. destruct (arith_dec t p) as [P|P].
    + rewrite cxx_ok by assumption. cbn [obind].
      destruct (computed_signed t) eqn:C.
      * rewrite E by auto. rewrite cxx_ub; [reflexivity|assumption|]. intros Q. auto.
      * exfalso. apply H. split; [assumption|]. unfold arith_ok. rewrite C. discriminate.
    + now rewrite cxx_ub.
Qed.
Lemma fold_shl : forall t a b, is_int t = true -> a < 2 ^ width t -> b < 2 ^ width t ->
  (fold2_ok Shl t (num t a) (num t b) -> exists y, eval_shl t a b = Ok y /\
     forall z, spec2 Shl t (num t a) (num t b) = Some z -> wrap t y = bits t z) /\
  (~ fold2_ok Shl t (num t a) (num t b) -> eval_shl t a b = Ub).
Proof.
  intros t a b I A B. cbn [fold2_ok]. rewrite !bits_num by assumption. unfold eval_shl. rewrite I. cbn [negb].
  assert (V : forall z, spec2 Shl t (num t a) (num t b) = Some z -> wrap t (wrap t (N.shiftl a b)) = bits t z).
  { intros z E. rewrite wrap_small by apply wrap_lt. pose proof (ir_shl fop t a b I A B) as X. rewrite E in X.
    cbn in X. destruct (b <? width t); [|discriminate]. now injection X. }
  destruct (width t <? 32).
  - rewrite N.shiftl_mul_pow2 in *. split.
    + intros [P Q]. apply N.ltb_lt in P, Q. rewrite P, Q. eexists. split; [reflexivity|]. assumption.
    + intros H. destruct (N.ltb_spec b 32), (N.ltb_spec (a * 2 ^ b) (2 ^ 32)); try reflexivity. exfalso; auto.
  - split.
    + intros P. apply N.ltb_lt in P. rewrite P. eexists. split; [reflexivity|]. assumption.
    + intros H. apply N.nlt_ge, N.ltb_ge in H. now rewrite H.
Qed.

(** *** Bit counting *)
Lemma ir_bits : forall k t a, In k [Popc; Clz; Brev; Ctz] -> is_int t = true ->
  exists y, ir fop k t [t] [a] = Some y /\ bit_fact k (width t) a y /\ y < 2 ^ width t.
Proof.
  intros k t a [<-|[<-|[<-|[<-|[]]]]] I; cbn [ir bit_fact]; eexists; split; try reflexivity.
  - pose proof (ctpop_fact (N.to_nat (width t)) a) as F. pose proof (ctpop_le (N.to_nat (width t)) a) as L. rewrite width_nat in *.
    split; [assumption|]. rewrite <- (small_count t _ I L). apply wrap_lt.
  - pose proof (ctlz_fact (N.to_nat (width t)) a) as F. rewrite width_nat in *. split; [assumption|]. destruct F as [L _].
    rewrite <- (small_count t _ I L). apply wrap_lt.
  - pose proof (bitrev_fact (N.to_nat (width t)) a) as F. rewrite width_nat in *. split; [assumption|]. apply F.
  - pose proof (cttz_fact (N.to_nat (width t)) a) as F. rewrite width_nat in *. split; [assumption|]. destruct F as [L _].
    rewrite <- (small_count t _ I L). apply wrap_lt.
Qed.
End WithFop.
