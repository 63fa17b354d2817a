From Verif Require Import Base Fmt_Model Fmt_Spec.
Local Open Scope N_scope.

Lemma round_div_spec a b : 0 < b -> 2 * (round_div a b * b) <= 2 * a + b /\ 2 * a <= 2 * (round_div a b * b) + b.
Proof.
  intros B. unfold round_div. pose proof (N.div_mod a b ltac:(lia)) as D. pose proof (N.mod_lt a b ltac:(lia)) as M. set (q := a / b) in *. set (r := a mod b) in *. clearbody q r.
  destruct (2 * r <? b) eqn:E1; [apply N.ltb_lt in E1; nia|]. apply N.ltb_ge in E1. destruct (b <? 2 * r) eqn:E2; [apply N.ltb_lt in E2; nia|]. apply N.ltb_ge in E2. destruct (N.even q); nia.
Qed.
Lemma round_div_one a : round_div a 1 = a.
Proof. unfold round_div. rewrite N.div_1_r, N.mod_1_r. reflexivity. Qed.
Lemma dbl_err n : 0 < n -> 2 ^ 53 * dbl n <= (2 ^ 53 + 1) * n /\ (2 ^ 53 - 1) * n <= 2 ^ 53 * dbl n.
Proof.
  intros P. unfold dbl. destruct (N.log2_spec n P) as [L1 L2]. set (e := N.log2 n - 52). assert (Pe : 0 < 2 ^ e) by (apply N.neq_0_lt_0, N.pow_nonzero; lia).
  destruct (round_div_spec n (2 ^ e) Pe) as [A B]. destruct (N.le_gt_cases (N.log2 n) 52) as [H|H].
  - assert (e = 0) by (unfold e; lia). assert (E : 2 ^ e = 1) by (rewrite H0; reflexivity). rewrite E. rewrite round_div_one. lia.
  - assert (E : 2 ^ N.log2 n = 2 ^ 52 * 2 ^ e) by (rewrite <- N.pow_add_r; f_equal; unfold e; lia). rewrite E in L1. change (2 ^ 52) with 4503599627370496 in L1. change (2 ^ 53) with 9007199254740992. set (x := round_div n (2 ^ e) * 2 ^ e) in *. set (y := 2 ^ e) in *. clearbody x y. clear - A B L1 P. lia.
Qed.
Lemma dbl_exact n : n < 2 ^ 53 -> dbl n = n.
Proof.
  intros H. unfold dbl. destruct (N.eq_dec n 0) as [->|Nz]; [reflexivity|]. assert (L : N.log2 n < 53) by (apply N.log2_lt_pow2; lia). replace (N.log2 n - 52) with 0 by lia. change (2 ^ 0) with 1. rewrite round_div_one. lia.
Qed.

(** Reading backwards *)
Definition rdr (r : list N) : N * N * bool := fold_right (fun c st => rd st c) (0, 0, false) r.
Lemma read_rev r : fold_left rd (rev r) (0, 0, false) = rdr r.
Proof. unfold rdr. rewrite <- fold_left_rev_right. rewrite rev_involutive. reflexivity. Qed.
Lemma rd_digit p q (dot : bool) d : d < 10 -> rd (p, q, dot) (48 + d) = (p * 10 + d, if dot then q + 1 else q, dot).
Proof. intros H. unfold rd. rewrite (proj2 (N.eqb_neq (48 + d) 46)) by lia. replace (48 + d - 48) with d by lia. reflexivity. Qed.
Lemma high_ne fuel n : fuel <> O -> high_ fuel n <> [].
Proof. destruct fuel; [congruence|]. intros _. cbn [high_]. destruct (n <? 10); discriminate. Qed.
Lemma pow_S (f : nat) : 2 ^ N.of_nat (S f) = 2 * 2 ^ N.of_nat f.
Proof. rewrite Nat2N.inj_succ, N.pow_succ_r'. reflexivity. Qed.
Lemma pow10_S (f : nat) : 10 ^ N.of_nat (S f) = 10 * 10 ^ N.of_nat f.
Proof. rewrite Nat2N.inj_succ, N.pow_succ_r'. reflexivity. Qed.
Lemma rdr_high_ : forall fuel n, n < 2 ^ N.of_nat fuel -> rdr (high_ (S fuel) n) = (n, 0, false).
Proof.
  induction fuel as [|fuel IH]; intros n H.
  - change (2 ^ N.of_nat 0) with 1 in H. assert (n = 0) by lia. subst n. reflexivity.
  - rewrite pow_S in H. remember (S fuel) as f eqn:Ef. cbn [high_]. destruct (n <? 10) eqn:E.
    + apply N.ltb_lt in E. unfold rdr. cbn [fold_right]. rewrite rd_digit by assumption. reflexivity.
    + apply N.ltb_ge in E. subst f. unfold rdr. cbn [fold_right]. fold (rdr (high_ (S fuel) (n / 10))). rewrite IH by lia. rewrite rd_digit by lia. f_equal. f_equal. lia.
Qed.
Lemma size_bound n : n < 2 ^ N.of_nat (N.to_nat (N.size n)).
Proof. rewrite N2Nat.id. apply N.size_gt. Qed.
Lemma rdr_high n : rdr (high n) = (n, 0, false).
Proof. apply rdr_high_, size_bound. Qed.
Lemma rdr_low : forall k n m, rdr (low k n ++ 46 :: high m) = (m * 10 ^ N.of_nat k + n mod 10 ^ N.of_nat k, N.of_nat k, true).
Proof.
  induction k as [|k IH]; intros n m; cbn [low app].
  - unfold rdr. cbn [fold_right]. fold (rdr (high m)). rewrite rdr_high. unfold rd. change (46 =? 46) with true. cbv iota. change (10 ^ N.of_nat 0) with 1. rewrite N.mod_1_r. repeat f_equal. lia.
  - unfold rdr. cbn [fold_right]. fold (rdr (low k (n / 10) ++ 46 :: high m)). rewrite IH, rd_digit by (apply N.mod_lt; lia).
    rewrite pow10_S. assert (P : 10 ^ N.of_nat k <> 0) by (apply N.pow_nonzero; lia). rewrite (N.mod_mul_r n 10 (10 ^ N.of_nat k)) by (try assumption; lia). set (x := (n / 10) mod 10 ^ N.of_nat k). set (y := 10 ^ N.of_nat k). clearbody x y.
    replace ((m * y + x) * 10 + n mod 10) with (m * (10 * y) + (n mod 10 + 10 * x)) by lia. replace (N.of_nat k + 1) with (N.of_nat (S k)) by lia. reflexivity.
Qed.

(** Stripping *)
Lemma strip_cons c r : r <> [] -> strip (c :: r) = if (c =? 48) || (c =? 46) then strip r else c :: r.
Proof. intros H. destruct r; [congruence|reflexivity]. Qed.
Lemma high_nonnil n : high n <> [].
Proof. apply high_ne. discriminate. Qed.
(** In the integer part: zeros are lost *)
Lemma strip_high_ : forall fuel n, n < 2 ^ N.of_nat fuel -> 0 < n -> exists p, rdr (strip (high_ (S fuel) n)) = (p, 0, false) /\ 0 < p /\ (n mod 10 <> 0 -> p = n) /\ (n mod 10 = 0 -> 10 * p <= n).
Proof.
  induction fuel as [|fuel IH]; intros n H P.
  - change (2 ^ N.of_nat 0) with 1 in H. lia.
  - pose proof (rdr_high_ (S fuel) n H) as R. rewrite pow_S in H. remember (S fuel) as f eqn:Ef. cbn [high_] in *. destruct (n <? 10) eqn:E.
    + apply N.ltb_lt in E. exists n. cbn [strip]. split; [exact R|]. split; [assumption|]. split; [reflexivity|]. intros Z. rewrite N.mod_small in Z by assumption. lia.
    + apply N.ltb_ge in E. rewrite strip_cons by (subst f; apply high_ne; discriminate). rewrite (proj2 (N.eqb_neq (48 + n mod 10) 46)) by lia. rewrite Bool.orb_false_r. destruct (48 + n mod 10 =? 48) eqn:Ez.
      * apply N.eqb_eq in Ez. subst f. destruct (IH (n / 10) ltac:(lia) ltac:(lia)) as (p & A & B & C & D). exists p. split; [exact A|]. split; [assumption|]. split; [lia|]. intros _. destruct (N.eq_dec ((n / 10) mod 10) 0) as [Z|Z]; [specialize (D Z)|specialize (C Z)]; lia.
      * apply N.eqb_neq in Ez. exists n. split; [exact R|]. split; [assumption|]. split; [reflexivity|lia].
Qed.
Lemma strip_high n : 0 < n -> exists p, rdr (strip (high n)) = (p, 0, false) /\ 0 < p /\ (n mod 10 <> 0 -> p = n) /\ (n mod 10 = 0 -> 10 * p <= n).
Proof. intros P. apply strip_high_; [apply size_bound|assumption]. Qed.
Lemma low_app_ne k n r : low k n ++ 46 :: r <> [].
Proof. destruct k; discriminate. Qed.
(** [m.n] with [k] digits after the point *)
Lemma strip_low : forall k n m, 0 < m -> exists p q dot, rdr (strip (low k n ++ 46 :: high m)) = (p, q, dot) /\
  (m mod 10 <> 0 \/ n mod 10 ^ N.of_nat k <> 0 -> p * 10 ^ N.of_nat k = (m * 10 ^ N.of_nat k + n mod 10 ^ N.of_nat k) * 10 ^ q) /\
  (m mod 10 = 0 /\ n mod 10 ^ N.of_nat k = 0 -> q = 0 /\ 10 * p <= m).
Proof.
  induction k as [|k IH]; intros n m P.
  - cbn [low app]. rewrite strip_cons by apply high_nonnil. change ((46 =? 48) || (46 =? 46)) with true. cbv iota. destruct (strip_high m P) as (p & A & B & C & D). exists p, 0, false. split; [exact A|]. change (10 ^ N.of_nat 0) with 1. change (10 ^ 0) with 1. rewrite N.mod_1_r. split; [intros [H|H]; [rewrite (C H); lia|lia]|]. intros [H _]. split; [reflexivity|now apply D].
  - pose proof (rdr_low (S k) n m) as R. cbn [low app] in *. rewrite strip_cons by apply low_app_ne. rewrite (proj2 (N.eqb_neq (48 + n mod 10) 46)) by (pose proof (N.mod_lt n 10); lia). rewrite Bool.orb_false_r.
    assert (P10 : 10 ^ N.of_nat k <> 0) by (apply N.pow_nonzero; lia). pose proof (N.mod_mul_r n 10 (10 ^ N.of_nat k) ltac:(lia) P10) as M. rewrite <- pow10_S in M.
    destruct (48 + n mod 10 =? 48) eqn:Ez.
    + apply N.eqb_eq in Ez. assert (Z : n mod 10 = 0) by lia. destruct (IH (n / 10) m P) as (p & q & dot & A & B & C). exists p, q, dot. split; [exact A|]. rewrite M, Z. rewrite pow10_S. set (y := 10 ^ N.of_nat k) in *. set (x := (n / 10) mod y) in *. clearbody x y. split.
      * intros H. rewrite N.mul_assoc, (N.mul_comm p 10), <- N.mul_assoc. rewrite B by (destruct H as [H|H]; [now left|right; lia]). set (t := 10 ^ q). clearbody t. clear. nia.
      * intros [H1 H2]. apply C. split; [assumption|lia].
    + apply N.eqb_neq in Ez. exists (m * 10 ^ N.of_nat (S k) + n mod 10 ^ N.of_nat (S k)), (N.of_nat (S k)), true. split; [exact R|]. split; [reflexivity|]. rewrite M. intros [_ H]. lia.
Qed.
Lemma printed_read k d : 0 < d / 10 ^ N.of_nat k -> exists p q dot, rdr (strip (printed k d)) = (p, q, dot) /\
  (d mod (10 * 10 ^ N.of_nat k) <> 0 -> p * 10 ^ N.of_nat k = d * 10 ^ q) /\
  (d mod (10 * 10 ^ N.of_nat k) = 0 -> 10 * p * 10 ^ N.of_nat k <= d * 10 ^ q).
Proof.
  intros P. assert (P10 : 10 ^ N.of_nat k <> 0) by (apply N.pow_nonzero; lia). rewrite (N.mul_comm 10), (N.mod_mul_r d (10 ^ N.of_nat k) 10) by (try assumption; lia). pose proof (N.div_mod d (10 ^ N.of_nat k) P10) as D. destruct k as [|k].
  - change (10 ^ N.of_nat 0) with 1 in *. rewrite N.div_1_r, N.mod_1_r in *. cbn [printed]. destruct (strip_high d P) as (p & A & _ & B & C). exists p, 0, false. split; [exact A|]. change (10 ^ 0) with 1. split; [intros H; rewrite B by lia; lia|intros H; specialize (C ltac:(lia)); lia].
  - unfold printed. destruct (strip_low (S k) d (d / 10 ^ N.of_nat (S k)) P) as (p & q & dot & A & B & C). exists p, q, dot. split; [exact A|]. set (y := 10 ^ N.of_nat (S k)) in *. set (m := d / y) in *. set (n := d mod y) in *. clearbody y m n. split.
    + intros H. rewrite B; [f_equal; rewrite D; lia|]. destruct (N.eq_dec n 0) as [->|Nz]; [|now right]. left. intros Z. apply H. rewrite Z. lia.
    + intros H. assert (Hn : n = 0) by (clear - H; lia). assert (Hm : m mod 10 = 0) by (clear - H P10; nia). destruct (C (conj Hm Hn)) as [-> Hp]. change (10 ^ 0) with 1. rewrite D, Hn. clear - Hp. nia.
Qed.

(** Characters *)
Lemma printed_no_space k d : ~ In 32 (printed k d).
Proof.
  assert (H1 : forall fuel n, ~ In 32 (high_ fuel n)). { induction fuel as [|fuel IH]; intros n; cbn [high_]; [intros []|]. destruct (n <? 10); intros [X|X]; try lia; [destruct X|exact (IH _ X)]. }
  assert (H2 : forall k n, ~ In 32 (low k n)). { induction k0 as [|k0 IH]; intros n; cbn [low]; [intros []|]. intros [X|X]; [lia|exact (IH _ X)]. }
  unfold printed. destruct k; [apply H1|]. intros X. apply in_app_or in X as [X|[X|X]]; [exact (H2 _ _ X)|lia|exact (H1 _ _ X)].
Qed.
Lemma strip_incl r : forall x, In x (strip r) -> In x r.
Proof. induction r as [|c r IH]; intros x H; [assumption|]. destruct r as [|c' r]; [assumption|]. rewrite strip_cons in H by discriminate. destruct (_ || _); [right; now apply IH|assumption]. Qed.
Lemma split_text a b : ~ In 32 a -> split_space (a ++ 32 :: b) = (a, b).
Proof. induction a as [|c a IH]; intros H; cbn [app split_space]; [reflexivity|]. rewrite (proj2 (N.eqb_neq c 32)) by (intros ->; apply H; now left). rewrite IH; [reflexivity|]. intros X. apply H. now right. Qed.

(** Units *)
Lemma scale_spec num : 1 <= num -> forall n i, 1024 ^ N.of_nat i <= num -> let j := scale n i num in (i <= j <= i + n)%nat /\ 1024 ^ N.of_nat j <= num /\ (num <= 1024 * 1024 ^ N.of_nat j \/ j = (i + n)%nat).
Proof.
  intros P. induction n as [|n IH]; intros i H; cbn [scale].
  - cbv zeta. repeat split; lia.
  - destruct (num <=? 1024 * 1024 ^ N.of_nat i) eqn:E.
    + apply N.leb_le in E. cbv zeta. repeat split; lia.
    + apply N.leb_gt in E. assert (H' : 1024 ^ N.of_nat (S i) <= num) by (rewrite Nat2N.inj_succ, N.pow_succ_r'; lia). specialize (IH (S i) H'). cbv zeta in *. destruct IH as (A & B & C). repeat split; [lia|lia|assumption|]. destruct C as [C|C]; [now left|right; lia].
Qed.
Lemma unit_orders i : (i <= 6)%nat -> unit_exp (nth i orders []) = Some (N.of_nat i).
Proof. intros H. do 7 (destruct i as [|i]; [reflexivity|]). lia. Qed.
Lemma dbl_pos n : 1 <= n -> 1 <= dbl n.
Proof. intros H. destruct (dbl_err n ltac:(lia)) as [_ B]. change (2 ^ 53) with 9007199254740992 in B. lia. Qed.
Lemma log_small lg num den : log10_ok lg -> 0 < den -> den <= num -> num <= 1024 * den -> lg num den <= 3.
Proof.
  intros H D L U. specialize (H num den D L). destruct (N.le_gt_cases (lg num den) 3) as [X|X]; [assumption|exfalso]. assert (10 ^ 4 <= 10 ^ lg num den) by (apply N.pow_le_mono_r; lia). change (10 ^ 4) with 10000 in *. set (y := 10 ^ lg num den) in *. clearbody y. nia.
Qed.

Lemma mem_string_read lg size : log10_ok lg -> 1 <= size < 2 ^ 64 ->
  exists p q u (k : N) d, read_size (mem_string lg size) = Some (p, q, u) /\ u <= 6 /\ k <= 3 /\
    1999 * (d * 1024 ^ u) <= 2000 * (size * 10 ^ k) /\ 1998 * (size * 10 ^ k) <= 1999 * (d * 1024 ^ u) /\
    (d mod (10 * 10 ^ k) <> 0 -> p * 10 ^ k = d * 10 ^ q) /\
    (d mod (10 * 10 ^ k) = 0 -> 10 * p * 10 ^ k <= d * 10 ^ q).
Proof.
  intros Hlg [S1 S2]. unfold mem_string. pose proof (dbl_pos size S1) as P. destruct (dbl_err size ltac:(lia)) as [E1 E2]. set (num := dbl size) in *. clearbody num.
  destruct (scale_spec num P 6 0 ltac:(change (1024 ^ N.of_nat 0) with 1; lia)) as (J1 & J2 & J3). set (j := scale 6 0 num) in *. clearbody j. set (den := 1024 ^ N.of_nat j) in *.
  assert (Dp : 0 < den) by (apply N.neq_0_lt_0, N.pow_nonzero; lia).
  assert (J4 : num <= 1024 * den). { destruct J3 as [J3|J3]; [assumption|]. unfold den. rewrite J3. change (N.of_nat (0 + 6)) with 6. change (1024 ^ 6) with 1152921504606846976. change (2 ^ 64) with 18446744073709551616 in S2. change (2 ^ 53) with 9007199254740992 in E1. lia. }
  unfold print_float_with_unit, digits_after_comma. rewrite (proj2 (N.eqb_neq num 0)) by lia. pose proof (log_small lg num den Hlg Dp J2 J4) as L3. specialize (Hlg num den Dp J2).
  set (k := N.to_nat (3 - lg num den)). assert (Kn : N.of_nat k = 3 - lg num den) by (unfold k; apply N2Nat.id). clearbody k.
  assert (T : 10 ^ N.of_nat k * 10 ^ lg num den = 1000). { rewrite <- N.pow_add_r. replace (N.of_nat k + lg num den) with 3 by lia. reflexivity. }
  set (t := 10 ^ N.of_nat k) in *. assert (Tp : 0 < t) by (apply N.neq_0_lt_0, N.pow_nonzero; lia). set (g := 10 ^ lg num den) in *.
  destruct (round_div_spec (num * t) den Dp) as [R1 R2]. set (d := round_div (num * t) den) in *.
  assert (Dd : 0 < d / t). { assert (X : 2 * (den * t) <= 2 * (d * den) + den) by (clear - R2 J2; nia). assert (Y : t <= d) by (clear - X Dp; nia). apply N.div_str_pos. lia. }
  destruct (printed_read k d) as (p & q & dot & A & B & C); [exact Dd|]. fold t in B, C.
  exists p, q, (N.of_nat j), (N.of_nat k), d. split.
  { unfold read_size. rewrite split_text; [|intros X; apply in_rev in X; apply strip_incl in X; exact (printed_no_space _ _ X)]. rewrite read_rev, A. rewrite unit_orders by lia. reflexivity. }
  split; [lia|]. split; [lia|]. fold t. fold den. 
  assert (Q : 10000 * (1000 * den) <= 10001 * (num * t)). { rewrite <- T. clear - Hlg. nia. }
  assert (E1' : 2 ^ 53 * (num * t) <= (2 ^ 53 + 1) * (size * t)) by (clear - E1; nia). assert (E2' : (2 ^ 53 - 1) * (size * t) <= 2 ^ 53 * (num * t)) by (clear - E2; nia).
  change (2 ^ 53) with 9007199254740992 in E1', E2'. set (X := num * t) in *. set (Y := size * t) in *. set (Z := d * den) in *. clearbody X Y Z.
  split; [clear - Q E1' E2' R1 R2; lia|]. split; [clear - Q E1' E2' R1 R2; lia|]. split; assumption.
Qed.
