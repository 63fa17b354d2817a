(** Transposition networks and splitting of packets. *)
From Verif Require Import Base Bits Pkt_Model.
Local Open Scope N_scope.

Lemma split_lor k i x : N.lor (N.ldiff i (N.ones k)) (N.land x (N.ones k)) = 2 ^ k * (i / 2 ^ k) + x mod 2 ^ k.
Proof.
  rewrite N.ldiff_ones_r, land_ones_mod, lor_shiftl_add by (apply N.mod_lt, N.pow_nonzero; discriminate). rewrite N.shiftr_div_pow2. lia.
Qed.
Lemma one_bit x k : N.land (N.shiftr x k) 1 = if N.testbit x k then 1 else 0.
Proof.
  change (N.land (N.shiftr x k) 1) with (N.land (N.shiftr x k) (N.ones 1)). rewrite land_ones_mod. rewrite N.testbit_eqb, N.shiftr_div_pow2. change (2 ^ 1) with 2.
  generalize (x / 2 ^ k). intros y. pose proof (N.mod_lt y 2 ltac:(discriminate)). destruct (N.eqb_spec (y mod 2) 1) as [->|]; [reflexivity|lia].
Qed.

Section Packet.
Context {V : Type}.
Notation vec := (vec (V := V)).
Variable w : N.
Implicit Types a b : vec.


Lemma pos_at k bits g r x : r < 2 ^ k -> N.land (2 ^ k * g + r) (N.ones k) * bits = r * bits /\
  N.lor (N.ldiff (2 ^ k * g + r) (N.ones k)) (N.land x (N.ones k)) = 2 ^ k * g + x mod 2 ^ k.
Proof.
  intros Br. assert (P : 2 ^ k <> 0) by (apply N.pow_nonzero; discriminate). split.
  - rewrite land_ones_mod. replace (2 ^ k * g + r) with (r + g * 2 ^ k) by lia. now rewrite N.mod_add, N.mod_small.
  - rewrite split_lor. replace (2 ^ k * g + r) with (r + g * 2 ^ k) by lia. now rewrite N.div_add, N.div_small.
Qed.
Lemma shuffle_at a b (pos : N -> N) i q (d : bool) : pos i = q + (if d then 1 else 0) * w -> q < w -> shuffle w a b pos i = (if d then b else a) q.
Proof.
  intros E B. unfold shuffle. rewrite E. destruct d.
  - destruct (N.ltb_spec (q + 1 * w) w); [lia|]. destruct (N.ltb_spec (q + 1 * w) (2 * w)); [|lia]. f_equal. lia.
  - destruct (N.ltb_spec (q + 0 * w) w); [f_equal; lia|lia].
Qed.
Lemma perm4_at a b pat g r : r < 4 -> 4 * g + 3 < w ->
  perm4 w a b pat (4 * g + r) =
  (if N.testbit (N.shiftr pat (r * 3)) 2 then b else a) (4 * g + N.shiftr pat (r * 3) mod 4).
Proof.
  intros Br Bw. unfold perm4. apply shuffle_at.
  - cbv zeta. destruct (pos_at 2 3 g r (N.shiftr pat (r * 3)) Br) as [E1 E2]. change (N.ones 2) with 3 in *. change (2 ^ 2) with 4 in *.
    rewrite E1, E2, one_bit. reflexivity.
  - pose proof (N.mod_lt (N.shiftr pat (r * 3)) 4 ltac:(discriminate)). lia.
Qed.
Lemma perm8_at a b pat g r : r < 8 -> 8 * g + 7 < w ->
  perm8 w a b pat (8 * g + r) =
  (if N.testbit (N.shiftr pat (r * 4)) 3 then b else a) (8 * g + N.shiftr pat (r * 4) mod 8).
Proof.
  intros Br Bw. unfold perm8. apply shuffle_at.
  - cbv zeta. destruct (pos_at 3 4 g r (N.shiftr pat (r * 4)) Br) as [E1 E2]. change (N.ones 3) with 7 in *. change (2 ^ 3) with 8 in *.
    rewrite E1, E2, one_bit. reflexivity.
  - pose proof (N.mod_lt (N.shiftr pat (r * 4)) 8 ltac:(discriminate)). lia.
Qed.

(** Concrete positions *)
Ltac at4 := match goal with |- context [perm4 w ?a ?b ?pat (4 * ?g + ?r)] =>
  rewrite (perm4_at a b pat g r) by (reflexivity || lia);
  let d := eval vm_compute in (N.testbit (N.shiftr pat (r * 3)) 2) in
  let q := eval vm_compute in (N.shiftr pat (r * 3) mod 4) in
  change (N.testbit (N.shiftr pat (r * 3)) 2) with d; change (N.shiftr pat (r * 3) mod 4) with q; cbv iota end.
Lemma transpose4 (v : N -> vec) (r : list vec) g c j : permute w 4 v = Some r -> 4 * g + 3 < w -> c < 4 -> j < 4 ->
  nth_vec r c (4 * g + j) = v j (4 * g + c).
Proof.
  intros E B Bc Bj. cbv [permute N.eqb Pos.eqb] in E. injection E as <-.
  assert (Hc : c = 0 \/ c = 1 \/ c = 2 \/ c = 3) by lia. assert (Hj : j = 0 \/ j = 1 \/ j = 2 \/ j = 3) by lia.
  destruct Hc as [->|[->|[->| ->]]]; unfold nth_vec; simpl nth; destruct Hj as [->|[->|[->| ->]]]; do 2 at4; reflexivity.
Qed.
Lemma transpose2 (v : N -> vec) (r : list vec) g c j : permute w 2 v = Some r -> 4 * g + 3 < w \/ (w = 2 /\ g = 0 /\ j < 2 /\ c < 2) -> forall h, h < 2 -> c < 2 -> j < 2 ->
  (w = 2 -> h = 0) -> nth_vec r c (4 * g + (2 * h + j)) = v j (4 * g + (2 * h + c)).
Proof.
  intros E B h Bh Bc Bj H0. cbv [permute N.eqb Pos.eqb] in E. injection E as <-.
  assert (Hc : c = 0 \/ c = 1) by lia. assert (Hj : j = 0 \/ j = 1) by lia. assert (Hh : h = 0 \/ h = 1) by lia.
  destruct B as [B|(-> & -> & _)].
  - destruct Hc as [->| ->]; unfold nth_vec; simpl nth; destruct Hj as [->| ->]; destruct Hh as [->| ->];
    match goal with |- context [perm4 w _ _ _ (4 * g + ?x)] => let y := eval vm_compute in x in change x with y end; at4;
    (match goal with |- _ = v _ (4 * g + ?x) => let y := eval vm_compute in x in change x with y end); reflexivity.
  - rewrite (H0 eq_refl). destruct Hc as [->| ->]; unfold nth_vec; simpl nth; destruct Hj as [->| ->]; reflexivity.
Qed.
Ltac at8 := match goal with |- context [perm8 w ?a ?b ?pat (8 * ?g + ?r)] =>
  rewrite (perm8_at a b pat g r) by (reflexivity || lia);
  let d := eval vm_compute in (N.testbit (N.shiftr pat (r * 4)) 3) in
  let q := eval vm_compute in (N.shiftr pat (r * 4) mod 8) in
  change (N.testbit (N.shiftr pat (r * 4)) 3) with d; change (N.shiftr pat (r * 4) mod 8) with q; cbv iota end.
Lemma eight g r : r < 8 -> 8 * g + r = 4 * (2 * g + r / 4) + r mod 4.
Proof. intros. pose proof (N.div_mod r 4 ltac:(discriminate)). lia. Qed.
Ltac norm g := match goal with |- context [8 * g + ?r] =>
  let y := eval vm_compute in (r / 4) in let z := eval vm_compute in (r mod 4) in
  replace (8 * g + r) with (4 * (2 * g + y) + z) by lia end.
Lemma transpose8 (v : N -> vec) (r : list vec) g c j : permute w 8 v = Some r -> 8 * g + 7 < w -> c < 8 -> j < 8 ->
  nth_vec r c (8 * g + j) = v j (8 * g + c).
Proof.
  intros E B Bc Bj. cbv [permute N.eqb Pos.eqb] in E. injection E as <-.
  assert (Hc : c = 0 \/ c = 1 \/ c = 2 \/ c = 3 \/ c = 4 \/ c = 5 \/ c = 6 \/ c = 7) by lia.
  assert (Hj : j = 0 \/ j = 1 \/ j = 2 \/ j = 3 \/ j = 4 \/ j = 5 \/ j = 6 \/ j = 7) by lia.
  destruct Hc as [->|[->|[->|[->|[->|[->|[->| ->]]]]]]]; unfold nth_vec; simpl nth; destruct Hj as [->|[->|[->|[->|[->|[->|[->| ->]]]]]]];
    at8; repeat norm g; do 2 at4; reflexivity.
Qed.

Definition size_ok (n : N) : Prop := n = 2 \/ n = 4 \/ n = 8.
Lemma permute_some n (v : N -> vec) : size_ok n -> exists r, permute w n v = Some r.
Proof. intros [->|[->| ->]]; eexists; reflexivity. Qed.
Lemma transpose n (v : N -> vec) r i c j d : size_ok n -> permute w n v = Some r -> w = n * 2 ^ d -> i * n + n <= w -> c < n -> j < n ->
  nth_vec r c (i * n + j) = v j (i * n + c).
Proof.
  intros Hn E Hw B Bc Bj. destruct Hn as [->|[->| ->]].
  - assert (H : w = 2 \/ exists x, w = 4 * x).
    { destruct (N.eq_dec d 0) as [->|Hd]; [left; exact Hw|right; exists (2 ^ (d - 1))]. replace d with (N.succ (d - 1)) in Hw by lia. rewrite N.pow_succ_r' in Hw. lia. }
    assert (Hi : i = 2 * (i / 2) + i mod 2) by (apply N.div_mod; discriminate). pose proof (N.mod_lt i 2 ltac:(discriminate)).
    generalize dependent (i / 2). generalize dependent (i mod 2). intros h Bh g Hi. clear Hw.
    pose proof (transpose2 v r g c j E) as T. replace (i * 2 + j) with (4 * g + (2 * h + j)) by lia. replace (i * 2 + c) with (4 * g + (2 * h + c)) by lia.
    apply T; try assumption; [|lia]. destruct H as [H|[x H]]; [right|left]; lia.
  - clear Hw. rewrite !(N.mul_comm i). apply transpose4; try assumption; lia.
  - clear Hw. rewrite !(N.mul_comm i). apply transpose8; try assumption; lia.
Qed.

Lemma gather_rec_ok (load : N -> N -> V) n : n <> 0 -> forall d fuel l i j, (d < fuel)%nat -> N.shiftr w l = n * 2 ^ N.of_nat d ->
  exists v : vec, gather_rec w fuel load n l i j = Some v /\
  forall x y, x < 2 ^ N.of_nat d -> y < n -> v (x * n + y) = Some (load ((i * 2 ^ N.of_nat d + x) * n + j) y).
Proof.
  intros Nn. induction d as [|d IH]; intros fuel l i j Bf Hs; (destruct fuel as [|fuel]; [lia|]); cbn [gather_rec].
  - change (2 ^ N.of_nat 0) with 1 in *. rewrite N.mul_1_r in Hs. rewrite Hs, N.eqb_refl. eexists. split; [reflexivity|].
    intros x y Bx By. replace x with 0 by lia. rewrite N.mul_0_l, N.add_0_l, N.mul_1_r, N.add_0_r. destruct (N.ltb_spec y n); [reflexivity|lia].
  - set (p := 2 ^ N.of_nat d) in *. assert (Pp : 0 < p) by (apply pow2_pos).
    assert (E2 : 2 ^ N.of_nat (S d) = 2 * p) by (rewrite Nat2N.inj_succ, N.pow_succ_r'; reflexivity). rewrite E2 in *. clear E2.
    assert (Np : 1 * n <= p * n) by (apply N.mul_le_mono_r; lia).
    destruct (N.eqb_spec (N.shiftr w l) n) as [E|_]; [exfalso; lia|].
    assert (Hs1 : N.shiftr w (l + 1) = n * p).
    { rewrite <- N.shiftr_shiftr, Hs. rewrite N.shiftr_div_pow2. change (2 ^ 1) with 2. replace (n * (2 * p)) with (n * p * 2) by lia. apply N.div_mul. discriminate. }
    destruct (IH fuel (l + 1) (2 * i) j ltac:(lia) Hs1) as (a & -> & Ha). destruct (IH fuel (l + 1) (2 * i + 1) j ltac:(lia) Hs1) as (b & -> & Hb).
    cbn [bind]. eexists. split; [reflexivity|]. intros x y Bx By. rewrite Hs.
    replace (n * (2 * p) / 2) with (n * p) by (replace (n * (2 * p)) with (n * p * 2) by lia; symmetry; apply N.div_mul; discriminate).
    assert (Bxy : x * n + y < n * (2 * p)) by (assert ((x + 1) * n <= 2 * p * n) by (apply N.mul_le_mono_r; lia); lia).
    destruct (N.ltb_spec (x * n + y) (n * (2 * p))); [|lia]. unfold shuffle.
    destruct (N.lt_ge_cases x p) as [Lt|Ge].
    + assert ((x + 1) * n <= p * n) by (apply N.mul_le_mono_r; lia). destruct (N.ltb_spec (x * n + y) (n * p)); [|lia].
      rewrite Ha by assumption. do 2 f_equal. lia.
    + assert (p * n <= x * n) by (apply N.mul_le_mono_r; lia). destruct (N.ltb_spec (x * n + y) (n * p)); [lia|].
      destruct (N.ltb_spec (x * n + y) (2 * (n * p))); [|lia].
      replace (x * n + y - n * p) with ((x - p) * n + y) by (rewrite N.mul_sub_distr_r; lia). rewrite Hb by lia. do 2 f_equal. rewrite N.mul_add_distr_r. nia.
Qed.
Lemma vectors_ok (f : N -> option vec) : forall c j0, (forall j, j < j0 + N.of_nat c -> exists v, f j = Some v) ->
  exists vs, vectors f j0 c = Some vs /\ forall j, j < N.of_nat c -> f (j0 + j) = Some (nth_vec vs j).
Proof.
  induction c as [|c IH]; intros j0 H; cbn [vectors]; [exists []; split; [reflexivity|lia]|].
  destruct (H j0 ltac:(lia)) as [v Ev]. rewrite Ev. destruct (IH (j0 + 1) (fun j B => H j ltac:(lia))) as (vs & -> & Hv). cbn [bind].
  eexists. split; [reflexivity|]. intros j Bj. destruct (N.eq_dec j 0) as [->|Nj]; [rewrite N.add_0_r; exact Ev|].
  replace (j0 + j) with (j0 + 1 + (j - 1)) by lia. rewrite Hv by lia. unfold nth_vec. replace (N.to_nat j) with (S (N.to_nat (j - 1))) by lia. reflexivity.
Qed.
Theorem gather_fn_ok (load : N -> N -> V) n d fuel : size_ok n -> w = n * 2 ^ N.of_nat d -> (d < fuel)%nat ->
  exists r : list vec, gather_fn w fuel load n = Some r /\ forall c k, c < n -> k < w -> nth_vec r c k = Some (load k c).
Proof.
  intros Hn Hw Bf. unfold gather_fn. assert (Nn : n <> 0) by (destruct Hn as [->|[->| ->]]; discriminate).
  assert (Hr : forall j, exists v : vec, gather_rec w fuel load n 0 0 j = Some v /\
     forall x y, x < 2 ^ N.of_nat d -> y < n -> v (x * n + y) = Some (load ((0 * 2 ^ N.of_nat d + x) * n + j) y)).
  { intros j. apply gather_rec_ok; assumption. }
  destruct (vectors_ok (gather_rec w fuel load n 0 0) (N.to_nat n) 0) as (vs & -> & Hv).
  { intros j _. destruct (Hr j) as (v & E & _). eauto. }
  cbn [bind]. destruct (permute_some n (nth_vec vs) Hn) as [r E]. exists r. split; [assumption|]. intros c k Bc Bk.
  pose proof (N.div_mod k n Nn) as Dk. pose proof (N.mod_lt k n Nn) as Mk. set (i := k / n) in *. set (j := k mod n) in *.
  assert (Bi : i < 2 ^ N.of_nat d). { apply N.div_lt_upper_bound; [assumption|]. rewrite <- Hw; assumption. }
  assert (Bin : i * n + n <= w). { rewrite Hw. assert ((i + 1) * n <= 2 ^ N.of_nat d * n) by (apply N.mul_le_mono_r; lia). lia. }
  replace k with (i * n + j) at 1 by lia. rewrite (transpose n (nth_vec vs) r i c j (N.of_nat d)) by assumption.
  destruct (Hr j) as (v & Ev & Hx). specialize (Hv j ltac:(lia)). rewrite N.add_0_l, Ev in Hv. injection Hv as Hv. rewrite <- Hv, Hx by assumption. do 2 f_equal. lia.
Qed.
End Packet.
