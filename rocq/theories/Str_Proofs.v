(** Number writers of the text buffer. *)
From Coq Require Import String Ascii.
From Verif Require Import Base Bits FreeSlots_Model FreeSlots_Proofs Str_Model Str_Spec.
Local Open Scope N_scope.

(** ** Memory *)

Lemma len_app {A} (a b : list A) : len (a ++ b) = len a + len b.
Proof. unfold len; rewrite app_length; lia. Qed.
Lemma len_cons {A} (x : A) l : len (x :: l) = len l + 1.
Proof. unfold len; cbn [length]; lia. Qed.

Lemma rd_length m a n : length (rd m a n) = n.
Proof. revert a; induction n; intros; cbn; auto. Qed.

Lemma rd_ext m m' a n :
  (forall i, a <= i < a + N.of_nat n -> m' i = m i) -> rd m' a n = rd m a n.
Proof.
  revert a; induction n; intros a H; cbn [rd]; auto.
  rewrite H by lia. f_equal. apply IHn. intros; apply H; lia.
Qed.

Lemma rd_app m a n k : rd m a (n + k) = rd m a n ++ rd m (a + N.of_nat n) k.
Proof.
  revert a; induction n; intros a; cbn [rd plus app].
  - f_equal; lia.
  - rewrite IHn. do 3 f_equal. lia.
Qed.

Lemma st_ok cap m a v : a < cap -> st cap m a v = Some (fun i => if i =? a then v else m i).
Proof. intros; unfold st. destruct (N.ltb_spec a cap); [reflexivity|lia]. Qed.

Lemma stl_ok l cap m a : a + len l <= cap ->
  exists m', stl cap m a l = Some m' /\ rd m' a (length l) = l /\
             (forall i, i < a \/ a + len l <= i -> m' i = m i).
Proof.
  revert m a; induction l as [|v l IH]; intros m a H; cbn [stl].
  - exists m; repeat split; auto.
  - rewrite len_cons in H. rewrite st_ok by lia. cbn [bind].
    destruct (IH (fun i => if i =? a then v else m i) (a + 1)) as (m' & E & R & F); [lia|].
    exists m'; split; [exact E|split].
    + cbn [length rd]. rewrite R. f_equal. rewrite F by lia. now rewrite N.eqb_refl.
    + intros i Hi. rewrite len_cons in Hi. rewrite F by lia. destruct (N.eqb_spec i a); [lia|reflexivity].
Qed.

Lemma writes_wc l : writes (wc l) l (len l).
Proof.
  intros cap m b H. unfold wc, w_strn. destruct (stl_ok l cap m b H) as (m' & E & R & F).
  rewrite E; cbn [bind]. eauto.
Qed.

Lemma writes_weaken f l w w' : writes f l w -> w <= w' -> writes f l w'.
Proof.
  intros H L cap m b B. destruct (H cap m b) as (m' & E & R & F); [lia|].
  exists m'; repeat split; auto. intros; apply F; lia.
Qed.

Lemma writes_seq f g l1 l2 w1 w2 w :
  writes f l1 w1 -> writes g l2 w2 -> w1 <= w -> len l1 + w2 <= w ->
  writes (f ;; g) (l1 ++ l2) w.
Proof.
  intros Hf Hg L1 L2 cap m b B. unfold seqw.
  destruct (Hf cap m b) as (m1 & E1 & R1 & F1); [lia|].
  rewrite E1; cbn [bind fst snd].
  destruct (Hg cap m1 (b + len l1)) as (m2 & E2 & R2 & F2); [lia|].
  exists m2; split; [rewrite E2; do 2 f_equal; rewrite len_app; lia|split].
  - rewrite app_length, rd_app. fold (len l1). rewrite R2. f_equal.
    rewrite <- R1 at 2. apply rd_ext. intros i Hi. apply F2. unfold len; lia.
  - intros i Hi. rewrite F2 by lia. apply F1. lia.
Qed.

(** ** Numerals *)

Lemma numeral_rec_fuel base f1 : 2 <= base -> forall f2 n,
  n < 2 ^ N.of_nat f1 -> n < 2 ^ N.of_nat f2 -> (0 < f1)%nat -> (0 < f2)%nat ->
  numeral_rec f1 base n = numeral_rec f2 base n.
Proof.
  intros Hb. induction f1 as [|f1 IH]; intros f2 n H1 H2 P1 P2; [lia|].
  destruct f2 as [|f2]; [lia|]. cbn [numeral_rec].
  destruct (N.ltb_spec n base); [reflexivity|]. f_equal.
  rewrite Nat2N.inj_succ, N.pow_succ_r' in H1, H2.
  assert (n / base <= n / 2) by (apply N.div_le_compat_l; lia).
  assert (n / 2 * 2 <= n) by (rewrite N.mul_comm; apply N.mul_div_le; lia).
  assert (f1 <> O) by (intros ->; cbn in H1; change (N.of_nat 0) with 0 in H1; rewrite N.pow_0_r in H1; lia).
  assert (f2 <> O) by (intros ->; change (N.of_nat 0) with 0 in H2; rewrite N.pow_0_r in H2; lia).
  apply IH; lia.
Qed.

Lemma size_nat_bound n : n < 2 ^ N.of_nat (N.size_nat n).
Proof.
  destruct n as [|p]; [cbn; lia|]. cbn [N.size_nat].
  induction p; cbn [Pos.size_nat]; rewrite ?Nat2N.inj_succ, ?N.pow_succ_r'; try lia.
Qed.

Lemma numeral_step base n : 2 <= base ->
  numeral base n = if n <? base then [dig n] else numeral base (n / base) ++ [dig (n mod base)].
Proof.
  intros Hb. unfold numeral at 1. cbn [numeral_rec].
  destruct (N.ltb_spec n base) as [|H]; [reflexivity|]. f_equal.
  pose proof (size_nat_bound n). pose proof (size_nat_bound (n / base)).
  assert (n / base <= n / 2) by (apply N.div_le_compat_l; lia).
  assert (n / 2 * 2 <= n) by (rewrite N.mul_comm; apply N.mul_div_le; lia).
  unfold numeral.
  apply numeral_rec_fuel; rewrite ?Nat2N.inj_succ, ?N.pow_succ_r'; try lia.
  destruct n; cbn in *; [lia|]. destruct p; cbn; lia.
Qed.

Lemma numeral_len base k n : 2 <= base -> n < base ^ N.of_nat (S k) -> len (numeral base n) <= N.of_nat (S k).
Proof.
  intros Hb. revert n; induction k as [|k IH]; intros n H; rewrite (numeral_step base) by assumption.
  - change (N.of_nat 1) with 1 in *. rewrite N.pow_1_r in H. destruct (N.ltb_spec n base); [unfold len; cbn [length]; lia|lia].
  - destruct (N.ltb_spec n base); [unfold len; cbn [length]; lia|].
    rewrite len_app. rewrite Nat2N.inj_succ, N.pow_succ_r' in H.
    assert (n / base < base ^ N.of_nat (S k)) by (apply N.div_lt_upper_bound; lia).
    specialize (IH _ H1). unfold len in *. cbn [length]. lia.
Qed.

Lemma numeral_pos base n : 2 <= base -> 1 <= len (numeral base n).
Proof.
  intros. rewrite numeral_step by assumption. destruct (n <? base); [unfold len; cbn [length]; lia|].
  rewrite len_app. unfold len; cbn [length]; lia.
Qed.

Lemma padded_len k base n : length (padded k base n) = k.
Proof. revert n; induction k; intros; cbn; auto. rewrite app_length, IHk. cbn; lia. Qed.

Lemma undig_dig d : d < 16 -> undig (dig d) = d.
Proof.
  intros. unfold undig, dig. destruct (N.ltb_spec d 10).
  - destruct (N.ltb_spec (48 + d) 58); lia.
  - destruct (N.ltb_spec (87 + d) 58); lia.
Qed.

Lemma value_snoc base l c : value base (l ++ [c]) = value base l * base + undig c.
Proof. unfold value. now rewrite fold_left_app. Qed.

Lemma numeral_value base n : 2 <= base <= 16 -> value base (numeral base n) = n.
Proof.
  intros Hb. induction n as [n IH] using (well_founded_induction N.lt_wf_0).
  rewrite numeral_step by lia. destruct (N.ltb_spec n base).
  - unfold value; cbn. rewrite undig_dig by lia. lia.
  - rewrite value_snoc, IH, undig_dig.
    + rewrite (N.div_mod n base) at 3 by lia. lia.
    + pose proof (N.mod_lt n base). lia.
    + apply N.div_lt; lia.
Qed.

Lemma numeral_head base n : 2 <= base <= 16 -> 1 <= n -> exists d l, numeral base n = dig d :: l /\ 1 <= d.
Proof.
  intros Hb. induction n as [n IH] using (well_founded_induction N.lt_wf_0). intros P.
  rewrite numeral_step by lia. destruct (N.ltb_spec n base).
  - exists n, []. auto.
  - destruct (IH (n / base)) as (d & l & E & L).
    + apply N.div_lt; lia.
    + apply N.div_le_lower_bound; lia.
    + rewrite E. exists d, (l ++ [dig (n mod base)]). auto.
Qed.

(** ** Two digits at a time *)

Definition pair10 (q : N) : list N := [48 + q / 10; 48 + q mod 10].

Lemma all_lt k (P : N -> bool) : forallb P (map N.of_nat (seq 0 k)) = true -> forall n, n < N.of_nat k -> P n = true.
Proof.
  intros H n L. rewrite forallb_forall in H. apply H. apply in_map_iff.
  exists (N.to_nat n). split; [lia|]. apply in_seq. lia.
Qed.

Definition opt2_eqb (a b : option N) (x y : N) : bool :=
  match a, b with Some p, Some q => (p =? x) && (q =? y) | _, _ => false end.

Lemma copy2_eq t i x y cap m b : opt2_eqb (nth_error t (N.to_nat i)) (nth_error t (N.to_nat (i + 1))) x y = true ->
  copy2 cap m b t i = stl cap m b [x; y].
Proof.
  unfold copy2, opt2_eqb. destruct nth_error; [|discriminate]. destruct nth_error; [|discriminate].
  cbn [bind]. rewrite andb_true_iff, !N.eqb_eq. now intros [-> ->].
Qed.

Lemma pair_copy q cap m b : q < 100 -> copy2 cap m b digit_pairs (q * 2) = stl cap m b (pair10 q).
Proof.
  intros H. apply copy2_eq. revert q H. apply (all_lt 100). vm_compute. reflexivity.
Qed.

Lemma lead_copy q cap m b : q < 100 ->
  copy2 cap m b digit_pairs_lead (q * 2) = stl cap m b (if q <? 10 then [48 + q; 48 + q] else pair10 q).
Proof.
  intros H.
  assert (E : forall q, q < 100 ->
    (fun q => opt2_eqb (nth_error digit_pairs_lead (N.to_nat (q * 2))) (nth_error digit_pairs_lead (N.to_nat (q * 2 + 1)))
              (if q <? 10 then 48 + q else 48 + q / 10) (if q <? 10 then 48 + q else 48 + q mod 10)) q = true).
  { apply (all_lt 100). vm_compute. reflexivity. }
  specialize (E q H). cbv beta in E. rewrite (copy2_eq _ _ _ _ _ _ _ E).
  destruct (q <? 10); reflexivity.
Qed.

(** The writer of a pair, and of a leading pair. *)
Definition wpair (q : N) : wr := fun cap m b => let? m := copy2 cap m b digit_pairs (q * 2) in Some (m, b + 2).
Definition wlead (q : N) : wr := fun cap m b =>
  let? m := copy2 cap m b digit_pairs_lead (q * 2) in Some (m, if q <? 10 then b + 1 else b + 2).

Lemma writes_pair q : q < 100 -> writes (wpair q) (pair10 q) 2.
Proof.
  intros H cap m b B. unfold wpair. rewrite pair_copy by assumption.
  destruct (stl_ok (pair10 q) cap m b) as (m' & E & R & F); [exact B|].
  rewrite E; cbn [bind]. eauto.
Qed.

Lemma numeral_small q : q < 100 -> numeral 10 q = if q <? 10 then [48 + q] else pair10 q.
Proof.
  intros. rewrite numeral_step by lia. destruct (N.ltb_spec q 10).
  - unfold dig. now destruct (N.ltb_spec q 10); [|lia].
  - rewrite numeral_step by lia.
    assert (q / 10 < 10) by (apply N.div_lt_upper_bound; lia).
    pose proof (N.mod_lt q 10).
    destruct (N.ltb_spec (q / 10) 10); [|lia]. unfold pair10, dig.
    destruct (N.ltb_spec (q / 10) 10); [|lia]. destruct (N.ltb_spec (q mod 10) 10); [|lia]. reflexivity.
Qed.

Lemma writes_lead q : q < 100 -> writes (wlead q) (numeral 10 q) 2.
Proof.
  intros H cap m b B. unfold wlead. rewrite lead_copy, numeral_small by assumption.
  destruct (N.ltb_spec q 10).
  - destruct (stl_ok [48 + q; 48 + q] cap m b) as (m' & E & R & F); [exact B|].
    rewrite E; cbn [bind]. exists m'; repeat split; auto.
    cbn [length rd] in *. now injection R as -> _.
  - destruct (stl_ok (pair10 q) cap m b) as (m' & E & R & F); [exact B|].
    rewrite E; cbn [bind]. eauto.
Qed.

(** [pairs j r]: [2 j] digits of [r]. *)
Fixpoint pairs (j : nat) (r : N) : list N :=
  match j with O => [] | S i => pair10 (r / 100 ^ N.of_nat i) ++ pairs i (r mod 100 ^ N.of_nat i) end.

Lemma numeral_100 n : 100 <= n -> numeral 10 n = numeral 10 (n / 100) ++ pair10 (n mod 100).
Proof.
  intros. rewrite numeral_step by lia. destruct (N.ltb_spec n 10); [lia|].
  rewrite numeral_step by lia.
  assert (10 <= n / 10) by (apply N.div_le_lower_bound; lia).
  destruct (N.ltb_spec (n / 10) 10); [lia|].
  rewrite N.div_div by lia. change (10 * 10) with 100. rewrite <- app_assoc. f_equal. cbn [app].
  unfold pair10. f_equal; [|f_equal]; unfold dig.
  - pose proof (N.mod_lt (n / 10) 10). destruct (N.ltb_spec ((n / 10) mod 10) 10); [|lia].
    f_equal. change 100 with (10 * 10). rewrite N.mod_mul_r by lia.
    pose proof (N.mod_lt n 10). rewrite N.add_comm, N.mul_comm, N.div_add_l by lia.
    rewrite (N.div_small (n mod 10)) by lia. lia.
  - pose proof (N.mod_lt n 10). destruct (N.ltb_spec (n mod 10) 10); [|lia]. f_equal.
    change 100 with (10 * 10). rewrite N.mod_mul_r by lia.
    rewrite N.add_comm, N.mul_comm, N.add_comm, N.mod_add by lia. rewrite N.mod_mod; lia.
Qed.

Lemma numeral_pairs j n : 100 ^ N.of_nat j <= n ->
  numeral 10 n = numeral 10 (n / 100 ^ N.of_nat j) ++ pairs j (n mod 100 ^ N.of_nat j).
Proof.
  induction j as [|j IH]; intros H.
  - cbn [pairs]. change (N.of_nat 0) with 0. rewrite N.pow_0_r, N.div_1_r, app_nil_r. reflexivity.
  - rewrite Nat2N.inj_succ, N.pow_succ_r' in *. set (D := 100 ^ N.of_nat j) in *.
    assert (0 < D) by (apply N.neq_0_lt_0, N.pow_nonzero; lia).
    rewrite IH by lia.
    assert (100 <= n / D) by (apply N.div_le_lower_bound; lia).
    rewrite numeral_100 by assumption. rewrite N.div_div, (N.mul_comm D) by lia.
    rewrite <- app_assoc. f_equal. cbn [pairs]. fold D.
    assert (E : n mod (100 * D) = n mod D + D * ((n / D) mod 100)) by (rewrite (N.mul_comm 100); apply N.mod_mul_r; lia).
    pose proof (N.mod_lt n D). rewrite E. f_equal; f_equal.
    + rewrite N.add_comm, N.mul_comm, N.div_add_l by lia. rewrite (N.div_small (n mod D)) by lia. lia.
    + rewrite N.add_comm, N.mul_comm, N.add_comm, N.mod_add by lia. rewrite N.mod_mod; lia.
Qed.

(** ** The fixed-point cascade *)

(** [F] stands for [n / 100^j] scaled by [2^k], rounded up by less than 1/100^j. *)
Definition fixp (k : N) (j : nat) (n F : N) : Prop :=
  exists e, e < 2 ^ k /\ 100 ^ N.of_nat j * F = n * 2 ^ k + e.

Lemma fixp_int k j n F : fixp k j n F -> N.shiftr F k = n / 100 ^ N.of_nat j.
Proof.
  intros (e & L & E). rewrite N.shiftr_div_pow2.
  set (D := 100 ^ N.of_nat j) in *. set (P := 2 ^ k) in *.
  assert (0 < D) by (apply N.neq_0_lt_0, N.pow_nonzero; lia).
  assert (0 < P) by (apply N.neq_0_lt_0, N.pow_nonzero; lia).
  rewrite (N.div_mod n D) in E by lia. pose proof (N.mod_lt n D).
  set (q := n / D) in *. set (r := n mod D) in *.
  symmetry. apply (N.div_unique _ _ _ (F - P * q)).
  - apply (N.mul_lt_mono_pos_l D); [lia|]. nia.
  - assert (P * q <= F) by (apply (N.mul_le_mono_pos_l _ _ D); [lia|nia]). lia.
Qed.

Lemma fixp_frac k j n F : k <= 57 -> fixp k (S j) n F ->
  fixp k j (n mod 100 ^ N.of_nat (S j)) (frac100 k F) /\ frac100 k F < 100 * 2 ^ k.
Proof.
  intros Hk HF. pose proof (fixp_int _ _ _ _ HF) as Q. destruct HF as (e & L & E).
  unfold frac100. rewrite land_ones_mod.
  rewrite N.shiftr_div_pow2 in Q.
  pose proof (N.mod_lt F (2 ^ k)). assert (2 ^ k <> 0) by (apply N.pow_nonzero; lia).
  assert (2 ^ k <= 2 ^ 57) by (apply N.pow_le_mono_r; lia).
  rewrite u64_small by (change (2 ^ 57) with 144115188075855872 in *; lia).
  split; [|lia]. exists e. split; [assumption|].
  rewrite (N.div_mod F (2 ^ k)) in E by assumption. rewrite Q in E.
  rewrite Nat2N.inj_succ, N.pow_succ_r' in *.
  set (D := 100 ^ N.of_nat j) in *. assert (0 < D) by (apply N.neq_0_lt_0, N.pow_nonzero; lia).
  rewrite (N.div_mod n (100 * D)) in E at 2 by lia.
  set (G := F mod 2 ^ k) in *. set (r := n mod (100 * D)) in *. set (q := n / (100 * D)) in *. nia.
Qed.

(** Writer of the remaining [j] pairs from the state [F]. *)
Fixpoint cascade (k : N) (j : nat) (F : N) : wr :=
  match j with
  | O => wc []
  | S i => wpair (N.shiftr F k) ;; match i with O => wc [] | _ => cascade k i (frac100 k F) end
  end.

Lemma pairs_len j r : len (pairs j r) = 2 * N.of_nat j.
Proof. revert r; induction j; intros; cbn [pairs]; auto. rewrite len_app, IHj. unfold len; cbn [length pair10]; lia. Qed.

Lemma writes_cascade k j n F : k <= 57 -> fixp k j n F -> n < 100 * 100 ^ N.of_nat j ->
  writes (cascade k (S j) F) (pairs (S j) n) (2 * N.of_nat (S j)).
Proof.
  intros Hk. revert n F; induction j as [|j IH]; intros n F HF L.
  - pose proof (fixp_int _ _ _ _ HF) as Q. cbn [cascade pairs].
    change (N.of_nat 0) with 0 in *. rewrite N.pow_0_r in *.
    rewrite Q, N.div_1_r in *.
    eapply writes_seq; [apply writes_pair; lia|apply writes_wc|lia|reflexivity].
  - pose proof (fixp_int _ _ _ _ HF) as Q. destruct (fixp_frac _ _ _ _ Hk HF) as [HF' _].
    assert (P : 0 < 100 ^ N.of_nat (S j)) by (apply N.neq_0_lt_0, N.pow_nonzero; lia).
    assert (n / 100 ^ N.of_nat (S j) < 100) by (apply N.div_lt_upper_bound; lia).
    change (cascade k (S (S j)) F) with (wpair (N.shiftr F k) ;; cascade k (S j) (frac100 k F)).
    change (pairs (S (S j)) n) with
      (pair10 (n / 100 ^ N.of_nat (S j)) ++ pairs (S j) (n mod 100 ^ N.of_nat (S j))).
    rewrite Q. eapply writes_seq.
    + now apply writes_pair.
    + apply IH; [assumption|]. pose proof (N.mod_lt n (100 ^ N.of_nat (S j))).
      rewrite Nat2N.inj_succ, N.pow_succ_r' in *. lia.
    + lia.
    + unfold len; cbn [length pair10]; lia.
Qed.

Lemma writes_lead_cascade k j n F : k <= 57 -> fixp k (S j) n F ->
  100 ^ N.of_nat (S j) <= n < 100 * 100 ^ N.of_nat (S j) ->
  writes (wlead (N.shiftr F k) ;; cascade k (S j) (frac100 k F)) (numeral 10 n) (len (numeral 10 n)).
Proof.
  intros Hk HF L. pose proof (fixp_int _ _ _ _ HF) as Q. destruct (fixp_frac _ _ _ _ Hk HF) as [HF' _].
  rewrite (numeral_pairs (S j)) by lia. rewrite Q.
  assert (P : 0 < 100 ^ N.of_nat (S j)) by (apply N.neq_0_lt_0, N.pow_nonzero; lia).
  eapply writes_seq.
  - apply writes_lead. apply N.div_lt_upper_bound; lia.
  - apply (writes_cascade k j); [assumption|assumption|].
    pose proof (N.mod_lt n (100 ^ N.of_nat (S j))). rewrite Nat2N.inj_succ, N.pow_succ_r' in *. lia.
  - rewrite len_app, pairs_len. lia.
  - rewrite len_app, pairs_len. lia.
Qed.

Lemma padded_value k n : length (padded k 16 n) = k /\ value 16 (padded k 16 n) = n mod 16 ^ N.of_nat k.
Proof.
  split; [apply padded_len|]. revert n; induction k as [|k IH]; intros n; cbn [padded].
  - change (N.of_nat 0) with 0. rewrite N.pow_0_r, N.mod_1_r. reflexivity.
  - rewrite value_snoc, IH. rewrite undig_dig by (apply N.mod_lt; lia).
    rewrite Nat2N.inj_succ, N.pow_succ_r'. rewrite N.mod_mul_r; [lia|lia|]. apply N.pow_nonzero; lia.
Qed.
