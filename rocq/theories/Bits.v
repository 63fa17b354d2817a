(** Bit-vector lemmas shared by several areas. *)
From Verif Require Import Base.
Local Open Scope N_scope.

Lemma pow2_pos k : 0 < 2 ^ k.
Proof. apply N.neq_0_lt_0, N.pow_nonzero; lia. Qed.

Lemma testbit_high a k n : a < 2 ^ k -> k <= n -> N.testbit a n = false.
Proof.
  intros Ha Hn. destruct (N.eq_dec a 0) as [->|Hnz]; [apply N.bits_0|].
  apply N.bits_above_log2. assert (N.log2 a < k) by (apply N.log2_lt_pow2; lia). lia.
Qed.

(** Joining a high part and a low part of disjoint bit ranges is addition. *)
Lemma lor_shiftl_add x y k : y < 2 ^ k -> N.lor (N.shiftl x k) y = x * 2 ^ k + y.
Proof.
  intros Hy. rewrite <- N.shiftl_mul_pow2.
  rewrite N.add_nocarry_lxor; [symmetry; apply N.lxor_lor|]; apply N.bits_inj; intros n;
    rewrite N.land_spec, N.bits_0;
    (destruct (N.lt_ge_cases n k);
     [rewrite N.shiftl_spec_low by auto; reflexivity
     |rewrite (testbit_high y k n) by auto; apply andb_false_r]).
Qed.

Lemma land_ones_mod x k : N.land x (N.ones k) = x mod 2 ^ k.
Proof. apply N.land_ones. Qed.

Lemma eq_by_bits_lt a b k :
  a < 2 ^ k -> b < 2 ^ k -> (forall n, n < k -> N.testbit a n = N.testbit b n) -> a = b.
Proof.
  intros Ha Hb H. apply N.bits_inj. intros n.
  destruct (N.lt_ge_cases n k); auto.
  now rewrite (testbit_high a k n), (testbit_high b k n).
Qed.

(** Smearing: [smeared k x y] says that bit [n] of [y] is the disjunction of the bits
    [n .. n+k-1] of [x]. *)
Definition smeared (k x y : N) : Prop :=
  forall n, N.testbit y n = true <-> exists j, j < k /\ N.testbit x (n + j) = true.

Lemma smeared_1 x : smeared 1 x x.
Proof.
  intros n. split.
  - intros H. exists 0. rewrite N.add_0_r. split; [lia|auto].
  - intros (j & Hj & H). replace j with 0 in H by lia. now rewrite N.add_0_r in H.
Qed.

Lemma smeared_double k x y : smeared k x y -> smeared (2 * k) x (N.lor y (N.shiftr y k)).
Proof.
  intros Hs n. rewrite N.lor_spec, orb_true_iff, N.shiftr_spec by lia.
  rewrite (Hs n), (Hs (n + k)). split.
  - intros [(j & Hj & H)|(j & Hj & H)].
    + exists j. split; [lia|auto].
    + exists (k + j). split; [lia|]. now rewrite N.add_assoc.
  - intros (j & Hj & H). destruct (N.lt_ge_cases j k).
    + left. exists j; auto.
    + right. exists (j - k). split; [lia|]. replace (n + k + (j - k)) with (n + j) by lia. auto.
Qed.

Lemma smeared_ones k x y : x < 2 ^ k -> smeared k x y -> y = N.ones (N.size x).
Proof.
  intros Hx Hs. apply N.bits_inj. intros n.
  apply eq_true_iff_eq. rewrite (Hs n). split.
  - intros (j & Hj & H). apply N.ones_spec_low.
    destruct (N.eq_dec x 0) as [->|Hnz]; [now rewrite N.bits_0 in H|].
    rewrite N.size_log2 by auto.
    destruct (N.le_gt_cases (n + j) (N.log2 x)); [lia|].
    rewrite N.bits_above_log2 in H by auto. discriminate.
  - intros H. destruct (N.lt_ge_cases n (N.size x)) as [Hl|Hl].
    2:{ rewrite N.ones_spec_high in H by auto. discriminate. }
    destruct (N.eq_dec x 0) as [->|Hnz]; [change (N.size 0) with 0 in Hl; lia|].
    rewrite N.size_log2 in Hl by auto.
    assert (N.log2 x < k) by (apply N.log2_lt_pow2; lia).
    exists (N.log2 x - n). split; [lia|].
    replace (n + (N.log2 x - n)) with (N.log2 x) by lia. apply N.bit_log2; auto.
Qed.
