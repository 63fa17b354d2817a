(** Exactly associative operations: bracketing does not matter. *)
From Verif Require Import Base Par_Model Red_Model Red_Spec Red_Proofs.

Record exact_op {V} (ok : V -> Prop) (op : V -> V -> V) (init : V) : Prop := {
  eo_init : ok init;
  eo_op : forall a b, ok a -> ok b -> ok (op a b);
  eo_l : forall a, ok a -> op init a = a;
  eo_r : forall a, ok a -> op a init = a;
  eo_assoc : forall a b c, ok a -> ok b -> ok c -> op (op a b) c = op a (op b c);
  eo_comm : forall a b, ok a -> ok b -> op a b = op b a
}.

Section L.
Context {V : Type} (ok : V -> Prop) (op : V -> V -> V) (init : V).
Hypothesis E : exact_op ok op init.

Lemma fold_ok xs : Forall ok xs -> forall a, ok a -> ok (fold_left op xs a).
Proof. induction 1; intros a Ha; cbn; auto. apply IHForall. apply E; auto. Qed.

Lemma fold_from xs : Forall ok xs -> forall a, ok a ->
  fold_left op xs a = op a (fold_left op xs init).
Proof.
  induction 1 as [|x xs Hx HF IH]; intros a Ha; cbn.
  - symmetry. now apply (eo_r _ _ _ E).
  - rewrite IH by (now apply E). rewrite (IH (op init x)) by (apply E; auto; apply E).
    rewrite (eo_l _ _ _ E x) by auto. apply E; auto. apply fold_ok; auto. apply E.
Qed.

Lemma fold_concat xss ys a :
  Forall2 (fun xs y => Forall ok xs -> y = fold_left op xs init /\ ok y) xss ys ->
  Forall ok (concat xss) -> ok a ->
  fold_left op ys a = fold_left op (concat xss) a.
Proof.
  intros H. revert a. induction H as [|xs y xss ys Hx _ IH]; intros a HF Ha; cbn in *; auto.
  apply Forall_app in HF as [H1 H2]. destruct (Hx H1) as [Ey Oy].
  rewrite fold_left_app. rewrite IH; auto; [|apply E; auto].
  f_equal. rewrite (fold_from xs) by auto. now rewrite Ey.
Qed.

Lemma reduces_exact xs v :
  reduces (fun x => x) (fun x => x) init op xs v ->
  Forall ok xs -> v = fold_left op xs init /\ ok v.
Proof.
  intros H.
  refine (reduces_ind' (fun x => x) (fun x => x) init op
            (fun xs v => Forall ok xs -> v = fold_left op xs init /\ ok v) _ _ _ xs v H); clear xs v H.
  - intros x HF. inversion HF; subst. cbn. split; auto. symmetry. now apply E.
  - intros xss ys _ HP HF.
    change (fold_left (fun a y => op a y) ys init) with (fold_left op ys init).
    rewrite (fold_concat xss ys) by (auto; apply E). split; auto.
    apply fold_ok; auto. apply E.
  - intros xss y ys _ HP HF.
    change (fold_left (fun a y => op a y) ys y) with (fold_left op ys y).
    pose proof (fold_concat xss (y :: ys) init HP HF (eo_init _ _ _ E)) as X.
    inversion HP as [|xs ? xss' ? Hx Hr]; subst. cbn [concat] in HF.
    apply Forall_app in HF as [H1 H2]. destruct (Hx H1) as [Ey Oy].
    cbn [fold_left] in X. rewrite (eo_l _ _ _ E y Oy) in X. rewrite X. split; auto.
    apply fold_ok; [|apply E]. cbn [concat]. apply Forall_app. auto.
Qed.

Lemma fold_perm xs ys : Permutation xs ys -> Forall ok xs ->
  fold_left op xs init = fold_left op ys init.
Proof.
  induction 1 as [|x xs ys P IH|x y xs|xs ys zs P1 IH1 P2 IH2]; intros HF; cbn; auto.
  - inversion HF; subst. assert (Forall ok ys) by (eapply Permutation_Forall; eauto).
    rewrite (fold_from xs), (fold_from ys) by (auto; apply E; auto; apply E).
    now rewrite IH.
  - inversion HF as [|? ? Hy HF']; subst. inversion HF' as [|? ? Hx HF'']; subst.
    f_equal. rewrite !(eo_l _ _ _ E) by auto. apply E; auto.
  - rewrite IH1 by auto. apply IH2. eapply Permutation_Forall; eauto.
Qed.

Lemma scanned_exact xs bs exclusive reverse j v :
  scanned (fun x => x) (fun x => x) init op xs bs exclusive reverse j v ->
  Forall ok xs ->
  v = fold_left op (scan_inputs xs bs exclusive reverse j) init.
Proof.
  intros H HF.
  assert (Forall ok (scan_inputs xs bs exclusive reverse j)) as HS.
  { assert (forall a b, Forall ok (slice xs a b)) as X.
    { intros a b. rewrite Forall_forall in *. intros x Hx. apply HF. unfold slice in Hx.
      rewrite <- (firstn_skipn (N.to_nat a) xs). apply in_or_app. right.
      rewrite <- (firstn_skipn (N.to_nat (b - a)) (skipn _ xs)). apply in_or_app. auto. }
    unfold scan_inputs. destruct reverse; apply X. }
  unfold scanned in H. destruct reverse.
  - destruct H as (zs & P & R).
    assert (Forall ok zs) by (eapply Permutation_Forall; [symmetry; exact P|auto]).
    destruct (reduces_exact _ _ R) as [-> _]; auto. now apply fold_perm.
  - now destruct (reduces_exact _ _ H HS).
Qed.
End L.

(** ** Integer types *)
Local Open Scope Z_scope.

Section I.
Variable t : ity.
Hypothesis Hb : 1 <= it_bits t.
Hypothesis Hu : it_signed t = false \/ 2 <= it_bits t.

Let M := 2 ^ it_bits t.

Lemma M_pos : 0 < M.
Proof. apply Z.pow_pos_nonneg; lia. Qed.

Lemma half_pow : 2 ^ it_bits t = 2 * 2 ^ (it_bits t - 1).
Proof. rewrite <- Z.pow_succ_r by lia. f_equal. lia. Qed.

Lemma range_width : it_max t = it_min t + M - 1.
Proof.
  unfold it_max, it_min, M. destruct (it_signed t); [|lia].
  rewrite half_pow. lia.
Qed.

Lemma wrap_in x : it_in t (it_wrap t x).
Proof.
  unfold it_in, it_wrap. rewrite range_width. pose proof M_pos.
  pose proof (Z.mod_pos_bound (x - it_min t) M ltac:(lia)). unfold M in *. lia.
Qed.

Lemma wrap_id x : it_in t x -> it_wrap t x = x.
Proof.
  unfold it_in, it_wrap. rewrite range_width. intros H. unfold M in *.
  rewrite Z.mod_small; lia.
Qed.

Lemma wrap_shift x k : it_wrap t (x + k * M) = it_wrap t x.
Proof.
  unfold it_wrap. f_equal. fold M.
  replace (x + k * M - it_min t) with (x - it_min t + k * M) by lia.
  apply Z.mod_add. pose proof M_pos; lia.
Qed.

Lemma wrap_cong x : exists k, it_wrap t x = x + k * M.
Proof.
  exists (- ((x - it_min t) / M)). unfold it_wrap. fold M.
  pose proof (Z.div_mod (x - it_min t) M ltac:(pose proof M_pos; lia)). lia.
Qed.

Lemma wrap_add_l a b : it_wrap t (it_wrap t a + b) = it_wrap t (a + b).
Proof.
  destruct (wrap_cong a) as [k ->].
  replace (a + k * M + b) with (a + b + k * M) by lia. apply wrap_shift.
Qed.
Lemma wrap_mul_l a b : it_wrap t (it_wrap t a * b) = it_wrap t (a * b).
Proof.
  destruct (wrap_cong a) as [k ->].
  replace ((a + k * M) * b) with (a * b + (k * b) * M) by lia. apply wrap_shift.
Qed.
Lemma wrap_add_r a b : it_wrap t (a + it_wrap t b) = it_wrap t (a + b).
Proof. rewrite Z.add_comm, wrap_add_l. f_equal. lia. Qed.
Lemma wrap_mul_r a b : it_wrap t (a * it_wrap t b) = it_wrap t (a * b).
Proof. rewrite Z.mul_comm, wrap_mul_l. f_equal. lia. Qed.

(** Range membership by the high bits. *)
Lemma in_shift x :
  it_in t x <->
  (if it_signed t then Z.shiftr x (it_bits t - 1) = 0 \/ Z.shiftr x (it_bits t - 1) = -1
   else Z.shiftr x (it_bits t) = 0).
Proof.
  unfold it_in, it_min, it_max. destruct (it_signed t).
  - rewrite Z.shiftr_div_pow2 by lia.
    assert (0 < 2 ^ (it_bits t - 1)) by (apply Z.pow_pos_nonneg; lia).
    pose proof (Z.div_mod x (2 ^ (it_bits t - 1)) ltac:(lia)).
    pose proof (Z.mod_pos_bound x (2 ^ (it_bits t - 1)) ltac:(lia)).
    set (q := x / 2 ^ (it_bits t - 1)) in *. set (P := 2 ^ (it_bits t - 1)) in *.
    split.
    + intros. assert (-1 <= q <= 0) by nia. lia.
    + intros [E|E]; rewrite E in *; lia.
  - rewrite Z.shiftr_div_pow2 by lia.
    assert (0 < 2 ^ it_bits t) by (apply Z.pow_pos_nonneg; lia).
    pose proof (Z.div_mod x (2 ^ it_bits t) ltac:(lia)).
    pose proof (Z.mod_pos_bound x (2 ^ it_bits t) ltac:(lia)).
    set (q := x / 2 ^ it_bits t) in *. set (P := 2 ^ it_bits t) in *.
    split.
    + intros. nia.
    + intros E; rewrite E in *; lia.
Qed.

Lemma land_in a b : it_in t a -> it_in t b -> it_in t (Z.land a b).
Proof.
  rewrite !in_shift. destruct (it_signed t).
  - rewrite Z.shiftr_land. intros [->| ->] [->| ->]; cbn; auto.
  - rewrite Z.shiftr_land. intros -> ->. reflexivity.
Qed.
Lemma lor_in a b : it_in t a -> it_in t b -> it_in t (Z.lor a b).
Proof.
  rewrite !in_shift. destruct (it_signed t).
  - rewrite Z.shiftr_lor. intros [->| ->] [->| ->]; cbn; auto.
  - rewrite Z.shiftr_lor. intros -> ->. reflexivity.
Qed.

Lemma zero_in : it_in t 0.
Proof.
  unfold it_in. rewrite range_width. pose proof M_pos. unfold it_min.
  destruct (it_signed t); [|lia].
  assert (0 < 2 ^ (it_bits t - 1)) by (apply Z.pow_pos_nonneg; lia).
  unfold M in *. rewrite half_pow. lia.
Qed.

Lemma one_in : it_in t 1.
Proof.
  unfold it_in, it_min, it_max. pose proof Hu as Hu'. destruct Hu' as [->|H2].
  - assert (2 ^ 1 <= 2 ^ it_bits t) by (apply Z.pow_le_mono_r; lia). lia.
  - destruct (it_signed t).
    + assert (2 ^ 1 <= 2 ^ (it_bits t - 1)) by (apply Z.pow_le_mono_r; lia).
      assert (0 < 2 ^ (it_bits t - 1)) by lia. lia.
    + assert (2 ^ 1 <= 2 ^ it_bits t) by (apply Z.pow_le_mono_r; lia). lia.
Qed.

Lemma all_ones : it_wrap t (-1) = if it_signed t then -1 else 2 ^ it_bits t - 1.
Proof.
  pose proof M_pos.
  assert (S : it_signed t = true \/ it_signed t = false) by (destruct (it_signed t); auto).
  destruct S as [Es|Es]; rewrite Es.
  - apply wrap_id. unfold it_in, it_min, it_max. rewrite Es.
    assert (0 < 2 ^ (it_bits t - 1)) by (apply Z.pow_pos_nonneg; lia). lia.
  - rewrite <- (wrap_shift (-1) 1). rewrite wrap_id.
    + unfold M. lia.
    + unfold it_in, it_min, it_max. rewrite Es. unfold M in *. lia.
Qed.

Lemma land_ones a : it_in t a -> Z.land (it_wrap t (-1)) a = a.
Proof.
  intros Ha. rewrite all_ones. unfold it_in, it_min, it_max in Ha.
  destruct (it_signed t); [apply Z.land_m1_l|].
  rewrite Z.land_comm. replace (2 ^ it_bits t - 1) with (Z.ones (it_bits t)).
  - rewrite Z.land_ones by lia. apply Z.mod_small. lia.
  - rewrite Z.ones_equiv. lia.
Qed.

Theorem ired_exact o : exact_op (it_in t) (ired t o) (iinit t o).
Proof.
  pose proof zero_in as H0. pose proof one_in as H1.
  assert (HM : it_in t (it_max t) /\ it_in t (it_min t)).
  { unfold it_in in *. rewrite range_width in *. lia. }
  destruct HM as [HM Hm].
  constructor; destruct o; cbn [iinit ired]; auto using wrap_in, land_in, lor_in.
  - intros a b. unfold it_in. lia.
  - intros a b. unfold it_in. lia.
  - intros a Ha. now rewrite Z.add_0_l, wrap_id.
  - intros a Ha. now rewrite Z.mul_1_l, wrap_id.
  - intros a Ha. unfold it_in in Ha. lia.
  - intros a Ha. unfold it_in in Ha. lia.
  - intros a Ha. now apply land_ones.
  - intros a Ha. now rewrite Z.add_0_r, wrap_id.
  - intros a Ha. now rewrite Z.mul_1_r, wrap_id.
  - intros a Ha. unfold it_in in Ha. lia.
  - intros a Ha. unfold it_in in Ha. lia.
  - intros a Ha. apply Z.lor_0_r.
  - intros a Ha. rewrite Z.land_comm. now apply land_ones.
  - intros a b c _ _ _. rewrite wrap_add_l, wrap_add_r. f_equal. lia.
  - intros a b c _ _ _. rewrite wrap_mul_l, wrap_mul_r. f_equal. lia.
  - intros. lia.
  - intros. lia.
  - intros. symmetry. apply Z.lor_assoc.
  - intros. symmetry. apply Z.land_assoc.
  - intros. f_equal. lia.
  - intros. f_equal. lia.
  - intros. lia.
  - intros. lia.
  - intros. apply Z.lor_comm.
  - intros. apply Z.land_comm.
Qed.

(** jitc_reduce_identity read back at the element type is the kernel's identity. *)
Lemma identity_ok o : it_wrap t (reduce_identity t o) = iinit t o.
Proof.
  destruct o; cbn [reduce_identity iinit].
  - apply wrap_id, zero_in.
  - apply wrap_id, one_in.
  - unfold it_pattern. fold M.
    assert (HM : it_in t (it_max t)).
    { unfold it_in. rewrite range_width. pose proof M_pos. lia. }
    rewrite <- (wrap_id (it_max t) HM) at 2.
    rewrite <- (wrap_shift (it_max t) (- (it_max t / M))). f_equal.
    pose proof (Z.div_mod (it_max t) M ltac:(pose proof M_pos; lia)). lia.
  - unfold it_pattern. fold M.
    assert (HM : it_in t (it_min t)).
    { unfold it_in. rewrite range_width. pose proof M_pos. lia. }
    rewrite <- (wrap_id (it_min t) HM) at 2.
    rewrite <- (wrap_shift (it_min t) (- (it_min t / M))). f_equal.
    pose proof (Z.div_mod (it_min t) M ltac:(pose proof M_pos; lia)). lia.
  - apply wrap_id, zero_in.
  - rewrite <- (wrap_shift (-1) 1). f_equal. unfold M. lia.
Qed.

(** Sequential reduction in closed form. *)
Lemma fold_wrap_add xs a : it_in t a ->
  fold_left (fun x y => it_wrap t (x + y)) xs a = it_wrap t (a + fold_right Z.add 0 xs).
Proof.
  revert a. induction xs as [|x xs IH]; intros a Ha; cbn [fold_left fold_right].
  - rewrite Z.add_0_r. symmetry. now apply wrap_id.
  - rewrite IH by apply wrap_in. rewrite wrap_add_l. f_equal. lia.
Qed.
Lemma fold_wrap_mul xs a : it_in t a ->
  fold_left (fun x y => it_wrap t (x * y)) xs a = it_wrap t (a * fold_right Z.mul 1 xs).
Proof.
  revert a. induction xs as [|x xs IH]; intros a Ha; cbn [fold_left fold_right].
  - rewrite Z.mul_1_r. symmetry. now apply wrap_id.
  - rewrite IH by apply wrap_in. rewrite wrap_mul_l. f_equal. lia.
Qed.

End I.

Lemma fold_left_right {V} (ok : V -> Prop) op init (E : exact_op ok op init) xs :
  Forall ok xs -> fold_left op xs init = fold_right op init xs.
Proof.
  induction 1 as [|x xs Hx HF IH]; cbn; auto.
  rewrite (eo_l _ _ _ E x Hx).
  rewrite (fold_from ok op init E xs HF x Hx), IH. reflexivity.
Qed.

Lemma int_fold t o xs :
  (1 <= it_bits t) -> (it_signed t = false \/ 2 <= it_bits t) ->
  Forall (it_in t) xs -> fold_left (ired t o) xs (iinit t o) = int_reduce t o xs.
Proof.
  intros Hb Hu HF. pose proof (fold_left_right _ _ _ (ired_exact t Hb Hu o) xs HF) as E.
  destruct o; cbn [ired iinit int_reduce] in *; auto.
  - change (ired t RAdd) with (fun x y => it_wrap t (x + y)).
    rewrite fold_wrap_add; auto. apply zero_in; auto.
  - change (ired t RMul) with (fun x y => it_wrap t (x * y)).
    rewrite fold_wrap_mul by (auto; apply one_in; auto). f_equal. lia.
Qed.

Lemma int_type_bits t : is_int_type t -> 1 <= it_bits t /\ (it_signed t = false \/ 2 <= it_bits t).
Proof. unfold is_int_type. cbn. lia. Qed.

Lemma Forall_slice {A} (P : A -> Prop) xs a b : Forall P xs -> Forall P (slice xs a b).
Proof.
  intros HF. rewrite Forall_forall in *. intros x Hx. apply HF. unfold slice in Hx.
  rewrite <- (firstn_skipn (N.to_nat a) xs). apply in_or_app. right.
  rewrite <- (firstn_skipn (N.to_nat (b - a)) (skipn _ xs)). apply in_or_app. auto.
Qed.
