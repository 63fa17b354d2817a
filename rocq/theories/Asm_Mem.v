(** Loads and stores of the kernel machine. *)
From Verif Require Import Base Asm_Model Asm_Spec.
Local Open Scope N_scope.

Lemma load_holds (m : mem) : forall n a x, holds m a (N.of_nat n) x -> load m a n = Some x.
Proof.
  induction n as [|n IH]; intros a x [B H].
  - change (N.of_nat 0) with 0 in B. rewrite N.pow_0_r in B. cbn [load]. f_equal. lia.
  - cbn [load]. pose proof (H 0 ltac:(lia)) as H0.
    rewrite N.add_0_r, N.pow_0_r, N.div_1_r in H0. rewrite H0. cbn [bind].
    rewrite (IH (a + 1) (x / 256)).
    + cbn [bind]. f_equal. pose proof (N.div_mod x 256 ltac:(lia)). lia.
    + split.
      * rewrite Nat2N.inj_succ, N.pow_succ_r' in B. apply N.div_lt_upper_bound; lia.
      * intros k Hk. specialize (H (k + 1) ltac:(lia)).
        replace (a + 1 + k) with (a + (k + 1)) by lia. rewrite H. f_equal.
        rewrite N.add_1_r, N.pow_succ_r', <- N.div_div by (try apply N.pow_nonzero; lia). reflexivity.
Qed.

Lemma store_ok : forall n (m : mem) a x, (forall k, k < N.of_nat n -> m (a + k) <> None) ->
  exists m', store m a n x = Some m' /\
    forall i, m' i = if (a <=? i) && (i <? a + N.of_nat n)
                     then Some (x / 256 ^ (i - a) mod 256) else m i.
Proof.
  induction n as [|n IH]; intros m a x H.
  - exists m. split; [reflexivity|]. intros i. destruct (N.leb_spec a i), (N.ltb_spec i (a + N.of_nat 0));
      cbn [andb]; try reflexivity. lia.
  - cbn [store]. destruct (m a) as [y|] eqn:E.
    2:{ exfalso. apply (H 0 ltac:(lia)). rewrite N.add_0_r. exact E. }
    cbn [bind].
    destruct (IH (fun i => if i =? a then Some (x mod 256) else m i) (a + 1) (x / 256)) as (m' & S1 & S2).
    { intros k Hk. cbv beta. destruct (N.eqb_spec (a + 1 + k) a); [discriminate|].
      replace (a + 1 + k) with (a + (k + 1)) by lia. apply H. lia. }
    exists m'. split; [exact S1|]. intros i. rewrite S2. rewrite Nat2N.inj_succ.
    destruct (N.leb_spec (a + 1) i), (N.ltb_spec i (a + 1 + N.of_nat n));
      destruct (N.leb_spec a i), (N.ltb_spec i (a + N.succ (N.of_nat n))); cbn [andb]; try lia; cbv beta.
    + f_equal. replace (i - a) with (N.succ (i - (a + 1))) by lia.
      rewrite N.pow_succ_r', <- N.div_div by (try apply N.pow_nonzero; lia). reflexivity.
    + destruct (N.eqb_spec i a); [lia|reflexivity].
    + destruct (N.eqb_spec i a); [|lia]. subst i. rewrite N.sub_diag, N.pow_0_r, N.div_1_r. reflexivity.
    + destruct (N.eqb_spec i a); [lia|reflexivity].
Qed.

Lemma load_each_holds (m : mem) sz : forall n a xs, length xs = n ->
  (forall i x, nth_error xs i = Some x -> holds m (a + N.of_nat i * sz) sz x) ->
  load_each m a sz n = Some xs.
Proof.
  induction n as [|n IH]; intros a xs L H.
  - destruct xs; [reflexivity|discriminate].
  - destruct xs as [|x xs]; [discriminate|]. cbn [load_each].
    rewrite (load_holds m (N.to_nat sz) a x).
    + cbn [bind]. rewrite (IH (a + sz) xs); [reflexivity| now inversion L |].
      intros i y Hy. specialize (H (S i) y Hy). rewrite Nat2N.inj_succ in H.
      replace (a + sz + N.of_nat i * sz) with (a + N.succ (N.of_nat i) * sz) by lia. exact H.
    + rewrite N2Nat.id. specialize (H O x eq_refl). now rewrite N.mul_0_l, N.add_0_r in H.
Qed.

Lemma store_each_ok sz : 0 < sz -> forall xs (m : mem) a,
  (forall k, k < N.of_nat (length xs) * sz -> m (a + k) <> None) ->
  exists m', store_each m a sz xs = Some m' /\
    forall i, m' i = if (a <=? i) && (i <? a + N.of_nat (length xs) * sz)
                     then Some (nth (N.to_nat ((i - a) / sz)) xs 0 / 256 ^ ((i - a) mod sz) mod 256)
                     else m i.
Proof.
  intros P. induction xs as [|x xs IH]; intros m a H.
  - exists m. split; [reflexivity|]. intros i. cbn [length] in *. change (N.of_nat 0) with 0.
    destruct (N.leb_spec a i), (N.ltb_spec i (a + 0 * sz)); cbn [andb]; try reflexivity. lia.
  - cbn [length] in H. rewrite Nat2N.inj_succ, N.mul_succ_l in H. cbn [store_each].
    destruct (store_ok (N.to_nat sz) m a x) as (m1 & S1 & S2).
    { intros k Hk. rewrite N2Nat.id in Hk. apply H. lia. }
    rewrite S1. cbn [bind]. rewrite N2Nat.id in S2.
    destruct (IH m1 (a + sz)) as (m' & S3 & S4).
    { intros k Hk. rewrite S2. destruct ((a <=? a + sz + k) && (a + sz + k <? a + sz)); [discriminate|].
      replace (a + sz + k) with (a + (sz + k)) by lia. apply H. lia. }
    exists m'. split; [exact S3|]. intros i. rewrite S4, S2. cbn [length].
    rewrite Nat2N.inj_succ, N.mul_succ_l.
    destruct (N.leb_spec (a + sz) i), (N.ltb_spec i (a + sz + N.of_nat (length xs) * sz));
      destruct (N.leb_spec a i), (N.ltb_spec i (a + (N.of_nat (length xs) * sz + sz))); cbn [andb]; try lia.
    + f_equal. assert (E : i - a = (i - (a + sz)) + 1 * sz) by lia. rewrite E.
      rewrite N.div_add, N.mod_add by lia.
      replace (N.to_nat ((i - (a + sz)) / sz + 1)) with (S (N.to_nat ((i - (a + sz)) / sz))) by lia.
      reflexivity.
    + destruct (N.ltb_spec i (a + sz)); [lia|reflexivity].
    + destruct (N.ltb_spec i (a + sz)); [|lia]. rewrite (N.div_small (i - a) sz), (N.mod_small (i - a) sz) by lia. reflexivity.
    + reflexivity.
Qed.
