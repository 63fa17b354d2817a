From Verif Require Import Base Arith_Model Arith_Proofs Launch_Model.
Local Open Scope N_scope.

(** [steps w a n] = a, a+w, ..., a+(n-1)w *)
Fixpoint steps (w a : N) (n : nat) : list N :=
  match n with O => [] | S k => a :: steps w (a + w) k end.

Lemma steps_app w a n m :
  steps w a (n + m) = steps w a n ++ steps w (a + w * N.of_nat n) m.
Proof.
  revert a; induction n as [|n IH]; intros a; cbn [steps plus app].
  - f_equal. lia.
  - rewrite IH. do 3 f_equal. lia.
Qed.

Lemma kernel_loop_steps w (Hw : 0 < w) : forall fuel index end_,
  index < end_ -> end_ - index <= N.of_nat fuel -> end_ + w < 2 ^ 64 ->
  kernel_loop fuel w index end_ = Some (steps w index (N.to_nat (cdiv (end_ - index) w))).
Proof.
  induction fuel as [|f IH]; intros index end_ Hlt Hf Hb; [lia|].
  cbn [kernel_loop]. rewrite u64_small by lia.
  destruct (N.leb_spec end_ (index + w)) as [H|H].
  - assert (cdiv (end_ - index) w = 1).
    { assert (0 < cdiv (end_ - index) w) by (apply cdiv_pos; lia).
      assert (cdiv (end_ - index) w <= 1) by (apply cdiv_le_iff; lia). lia. }
    rewrite H0. reflexivity.
  - rewrite IH by lia. cbn [bind].
    assert (E : cdiv (end_ - index) w = cdiv (end_ - (index + w)) w + 1).
    { unfold cdiv.
      replace (end_ - index + w - 1) with (end_ - (index + w) + w - 1 + 1 * w) by lia.
      rewrite N.div_add by lia. reflexivity. }
    rewrite E. replace (N.to_nat (_ + 1)) with (S (N.to_nat (cdiv (end_ - (index + w)) w))) by lia.
    reflexivity.
Qed.

Lemma launch_param_lo bs size : bs < 2 ^ 32 -> size < 2 ^ 32 ->
  u32 (launch_param bs size) = size /\ u32 (N.shiftr (launch_param bs size) 32) = bs.
Proof.
  intros Hb Hs. unfold launch_param.
  rewrite N.shiftl_mul_pow2. rewrite (u64_small (bs * 2 ^ 32)) by lia.
  rewrite u64_small by lia. rewrite N.shiftr_div_pow2. unfold u32. lia.
Qed.

(** What one work unit does when no 32-bit computation wraps. *)
Lemma callback_steps w bs size index :
  0 < w -> bs < 2 ^ 32 -> size < 2 ^ 32 -> w < 2 ^ 32 ->
  index * bs < 2 ^ 32 ->
  (index * bs < size -> index * bs + bs < 2 ^ 32) ->
  launch_callback w (launch_param bs size) index =
  Some (if index * bs <? size
        then steps w (index * bs)
               (N.to_nat (cdiv (N.min (index * bs + bs) size - index * bs) w))
        else []).
Proof.
  intros Hw Hb Hs Hw32 Hi Hn. unfold launch_callback.
  destruct (launch_param_lo bs size Hb Hs) as [-> ->].
  rewrite (u32_small (index * bs)) by auto. set (st := index * bs) in *.
  destruct (N.ltb_spec st size) as [Hlt|Hge].
  - rewrite u32_small by auto.
    destruct (N.leb_spec (N.min (st + bs) size) st) as [H|H].
    + assert (bs = 0) by lia. replace (N.min (st + bs) size - st) with 0 by lia.
      unfold cdiv. rewrite N.add_0_l. rewrite (N.div_small (w - 1) w) by lia. reflexivity.
    + apply kernel_loop_steps; auto; lia.
  - destruct (N.leb_spec (N.min (u32 (st + bs)) size) st); [reflexivity|lia].
Qed.

Fixpoint nseq (a : N) (n : nat) : list N :=
  match n with O => [] | S k => a :: nseq (a + 1) k end.

Lemma nseq_app a n m : nseq a (n + m) = nseq a n ++ nseq (a + N.of_nat n) m.
Proof.
  revert a; induction n as [|n IH]; intros a; cbn [nseq plus app].
  - f_equal; lia.
  - rewrite IH. do 3 f_equal. lia.
Qed.

(** Executing the units 0..n-1 in order executes the packets below
    [min (n*bs) size], each once and in order, if [w] divides [bs]. *)
Lemma run_units_app w p a b :
  run_units w p (a ++ b) =
  let? x := run_units w p a in let? y := run_units w p b in Some (x ++ y).
Proof.
  induction a as [|i r IH]; cbn [app run_units].
  - cbn [bind]. destruct (run_units w p b); reflexivity.
  - rewrite IH. destruct (launch_callback w p i); cbn [bind]; auto.
    destruct (run_units w p r); cbn [bind]; auto.
    destruct (run_units w p b); cbn [bind]; auto. now rewrite app_assoc.
Qed.

Lemma cdiv_mul_small k w : 0 < w -> cdiv (k * w) w = k.
Proof.
  intros Hw. assert (cdiv (k * w) w <= k) by (apply cdiv_le_iff; lia).
  assert (k <= cdiv (k * w) w); [|lia].
  pose proof (cdiv_ge (k * w) w Hw). apply (N.mul_le_mono_pos_r _ _ w); lia.
Qed.

Lemma run_units_prefix w bs size (k : N) :
  0 < w -> bs = k * w -> 0 < bs -> bs < 2 ^ 32 -> size < 2 ^ 32 ->
  forall n : nat,
  (forall i, i < N.of_nat n -> i * bs < 2 ^ 32 /\ (i * bs < size -> i * bs + bs < 2 ^ 32)) ->
  run_units w (launch_param bs size) (nseq 0 n) =
  Some (steps w 0 (N.to_nat (cdiv (N.min (N.of_nat n * bs) size) w))).
Proof.
  intros Hw Hbs Hb0 Hb Hs. induction n as [|n IH]; intros Hn.
  - cbn [nseq run_units]. replace (N.min (N.of_nat 0 * bs) size) with 0 by lia.
    unfold cdiv. rewrite N.add_0_l. rewrite (N.div_small (w - 1) w) by lia. reflexivity.
  - replace (S n) with (n + 1)%nat by lia.
    rewrite nseq_app, run_units_app, IH by (intros; apply Hn; lia). cbn [bind].
    change (nseq (0 + N.of_nat n) 1) with [0 + N.of_nat n].
    cbn [run_units bind]. rewrite N.add_0_l. set (m := N.of_nat n) in *.
    specialize (Hn m ltac:(lia)) as [Hn1 Hn2].
    assert (Hk0 : 1 <= k) by (destruct (N.eq_dec k 0); [subst; lia|lia]).
    assert (Hw32 : w < 2 ^ 32).
    { assert (1 * w <= k * w) by (apply N.mul_le_mono_r; exact Hk0). lia. }
    rewrite callback_steps by auto. cbn [bind]. rewrite app_nil_r. f_equal.
      replace (N.of_nat (n + 1)) with (m + 1) by lia.
      replace ((m + 1) * bs) with (m * bs + bs) by lia.
      assert (Ediv : m * bs = (m * k) * w) by (subst bs; lia).
      destruct (N.ltb_spec (m * bs) size) as [Hlt|Hge].
      * rewrite (N.min_l (m * bs) size) by (apply N.lt_le_incl; exact Hlt).
        rewrite Ediv, cdiv_mul_small by auto.
        set (a := m * k) in *. set (mm := N.min (a * w + bs) size).
        assert (Hmm : a * w <= mm) by (unfold mm; lia).
        assert (Ec : cdiv mm w = a + cdiv (mm - a * w) w).
        { unfold cdiv. replace (mm + w - 1) with (mm - a * w + w - 1 + a * w) by lia.
          rewrite N.div_add by lia. lia. }
        rewrite Ec, N2Nat.inj_add, steps_app. do 2 f_equal. lia.
      * rewrite app_nil_r, !N.min_r by lia. reflexivity.
Qed.

Lemma run_units_perm w p a b ra :
  Permutation a b -> run_units w p a = Some ra ->
  exists rb, run_units w p b = Some rb /\ Permutation ra rb.
Proof.
  intros HP; revert ra; induction HP as [|x l l' HP IH|x y l|l l' l'' H1 IH1 H2 IH2]; intros ra Hr.
  - exists ra; auto.
  - cbn [run_units] in *. destruct (launch_callback w p x); cbn [bind] in *; [|discriminate].
    destruct (run_units w p l) as [r|] eqn:E; cbn [bind] in *; [|discriminate].
    injection Hr as <-. destruct (IH _ eq_refl) as (rb & -> & Hp). cbn [bind].
    eexists; split; [reflexivity|]. now apply Permutation_app_head.
  - cbn [run_units] in *. destruct (launch_callback w p y); cbn [bind] in *; [|discriminate].
    destruct (launch_callback w p x); cbn [bind] in *; [|discriminate].
    destruct (run_units w p l); cbn [bind] in *; [|discriminate].
    injection Hr as <-. eexists; split; [reflexivity|].
    rewrite !app_assoc. apply Permutation_app_tail, Permutation_app_comm.
  - destruct (IH1 _ Hr) as (r1 & E1 & P1). destruct (IH2 _ E1) as (r2 & E2 & P2).
    exists r2; split; auto. now transitivity r1.
Qed.

(** Properties of the plan: block size is a multiple of the packet width (or
    there is one block), the blocks cover the size and nothing wraps. *)
Lemma plan_ok w desired cores size k :
  0 < w -> desired = k * w -> 0 < desired -> 0 < size ->
  size + desired <= 2 ^ 32 -> size + 2 * cores * w + w <= 2 ^ 32 ->
  exists blocks bs, launch_plan w desired cores size = Some (blocks, bs) /\
    bs < 2 ^ 32 /\ size <= blocks * bs /\
    ((blocks = 1 /\ bs = size) \/
     (exists k', bs = k' * w) /\
     forall i, i < blocks -> i * bs < 2 ^ 32 /\ (i * bs < size -> i * bs + bs < 2 ^ 32)).
Proof.
  intros Hw Hd Hd0 Hs0 H1 H2. unfold launch_plan.
  assert (Hk0 : 1 <= k) by (destruct (N.eq_dec k 0); [subst; lia|lia]).
  assert (Hwd : 1 * w <= k * w) by (apply N.mul_le_mono_r; exact Hk0).
  rewrite <- Hd in Hwd.
  fold (ceil_div size w). rewrite ceil_div_small by lia. cbn [bind].
  set (pk := cdiv size w).
  assert (Hpk : size <= pk * w) by (apply cdiv_ge; lia).
  assert (Hpku : pk * w <= size + w - 1) by (apply cdiv_upper; lia).
  destruct (N.leb_spec cores 1) as [Hc|Hc].
  { exists 1, size. repeat split; lia. }
  destruct (N.leb_spec pk cores) as [Hp|Hp].
  { exists pk, w. repeat split; try lia. right. split; [exists 1; lia|].
    intros i Hi. assert ((i + 1) * w <= pk * w) by (apply N.mul_le_mono_r; lia). lia. }
  destruct (size <=? u32 (u32 (desired * cores) * 2)).
  - rewrite (u32_small (2 * cores)) by nia.
    fold (ceil_div pk (2 * cores)). rewrite ceil_div_small by nia. cbn [bind].
    set (q := cdiv pk (2 * cores)).
    assert (Hq : pk <= q * (2 * cores)) by (apply cdiv_ge; lia).
    assert (Hqu : q * (2 * cores) <= pk + 2 * cores - 1) by (apply cdiv_upper; lia).
    assert (Hqw : q * (2 * cores) * w <= (pk + 2 * cores - 1) * w) by (apply N.mul_le_mono_r; lia).
    assert (Hsum : (pk + 2 * cores - 1) * w = pk * w + 2 * cores * w - w) by nia.
    assert (Hqw2 : q * w * (2 * cores) < 2 ^ 32) by lia.
    assert (Hqws : q * w < 2 ^ 32) by nia.
    exists (2 * cores), (u32 (q * w)). rewrite u32_small by auto.
    repeat split; try lia.
    + assert (pk * w <= q * (2 * cores) * w) by (apply N.mul_le_mono_r; lia). lia.
    + right. split; [exists q; lia|]. intros i Hi.
      assert ((i + 1) * (q * w) <= 2 * cores * (q * w)) by (apply N.mul_le_mono_r; lia). lia.
  - fold (ceil_div size desired). rewrite ceil_div_small by lia. cbn [bind].
    set (nb := cdiv size desired).
    assert (Hnb : size <= nb * desired) by (apply cdiv_ge; lia).
    assert (Hnbu : nb * desired <= size + desired - 1) by (apply cdiv_upper; lia).
    exists nb, desired. repeat split; try lia. right. split; [exists k; lia|].
    intros i Hi. assert ((i + 1) * desired <= nb * desired) by (apply N.mul_le_mono_r; lia). lia.
Qed.

Lemma launch_exactly_once w desired cores size k order :
  0 < w < 2 ^ 32 -> desired = k * w -> 0 < desired -> 0 < size ->
  size + desired <= 2 ^ 32 -> size + 2 * cores * w + w <= 2 ^ 32 ->
  forall blocks bs, launch_plan w desired cores size = Some (blocks, bs) ->
  Permutation order (nseq 0 (N.to_nat blocks)) ->
  exists pk, launch w desired cores size order = Some pk /\
    Permutation pk (steps w 0 (N.to_nat (cdiv size w))).
Proof.
  intros [Hw Hw32] Hd Hd0 Hs0 H1 H2 blocks bs Hplan HP.
  destruct (plan_ok w desired cores size k Hw Hd Hd0 Hs0 H1 H2)
    as (bl & b & E & Hb & Hcov & Hcase).
  rewrite E in Hplan. injection Hplan as -> ->.
  unfold launch. rewrite E. cbn [bind snd].
  assert (Hseq : run_units w (launch_param bs size) (nseq 0 (N.to_nat blocks)) =
                 Some (steps w 0 (N.to_nat (cdiv size w)))).
  { destruct Hcase as [[-> ->]|[[k' Hk'] Hi]].
    - change (nseq 0 (N.to_nat 1)) with [0]. cbn [run_units bind].
      rewrite callback_steps by lia. cbn [bind].
      change (0 * size) with 0. destruct (N.ltb_spec 0 size); [|lia].
      rewrite !app_nil_r. replace (N.min (0 + size) size - 0) with size by lia. reflexivity.
    - rewrite (run_units_prefix w bs size k') by
        (auto; try nia; intros; apply Hi; lia).
      rewrite N2Nat.id. replace (N.min (blocks * bs) size) with size by lia. reflexivity. }
  destruct (run_units_perm _ _ _ _ _ (Permutation_sym HP) Hseq) as (rb & Erb & Hp).
  exists rb; split; auto. now apply Permutation_sym.
Qed.

(** From the list of packets to "every element exactly once". *)
Definition hits (w i : N) (pk : list N) : nat :=
  length (filter (fun p => (p <=? i) && (i <? p + w)) pk).

Lemma hits_perm w i a b : Permutation a b -> hits w i a = hits w i b.
Proof.
  unfold hits. induction 1; cbn [filter]; auto; try congruence.
  - destruct (_ && _); cbn [length]; auto.
  - destruct ((x <=? i) && _), ((y <=? i) && _); reflexivity.
Qed.

Lemma hits_none w i n : forall a, i < a -> hits w i (steps w a n) = 0%nat.
Proof.
  induction n as [|n IH]; intros a Ha; [reflexivity|].
  unfold hits in *. cbn [steps filter]. destruct (N.leb_spec a i); [lia|]. cbn [andb].
  apply IH. lia.
Qed.

Lemma hits_one w i n : 0 < w -> forall a,
  a <= i -> i < a + w * N.of_nat n -> hits w i (steps w a n) = 1%nat.
Proof.
  intros Hw. induction n as [|n IH]; intros a Ha Hi; [lia|].
  unfold hits in *. cbn [steps filter]. destruct (N.leb_spec a i); [|lia]. cbn [andb].
  destruct (N.ltb_spec i (a + w)) as [Hl|Hl].
  - cbn [length]. f_equal. apply hits_none. lia.
  - apply IH; lia.
Qed.

Lemma steps_In w n : forall a p, In p (steps w a n) ->
  exists j, j < N.of_nat n /\ p = a + w * j.
Proof.
  induction n as [|n IH]; intros a p; [intros []|]. cbn [steps In].
  intros [<-|H].
  - exists 0. lia.
  - destruct (IH _ _ H) as (j & Hj & ->). exists (j + 1). lia.
Qed.

Lemma launch_hits w desired cores size k order :
  0 < w < 2 ^ 32 -> desired = k * w -> 0 < desired -> 0 < size ->
  size + desired <= 2 ^ 32 -> size + 2 * cores * w + w <= 2 ^ 32 ->
  forall blocks bs, launch_plan w desired cores size = Some (blocks, bs) ->
  Permutation order (nseq 0 (N.to_nat blocks)) ->
  exists pk, launch w desired cores size order = Some pk /\
    (forall i, i < size -> hits w i pk = 1%nat) /\
    (forall p, In p pk -> p < size /\ p mod w = 0).
Proof.
  intros Hw Hd Hd0 Hs H1 H2 blocks bs Hp HP.
  destruct (launch_exactly_once _ _ _ _ _ _ Hw Hd Hd0 Hs H1 H2 _ _ Hp HP) as (pk & E & Hpk).
  exists pk; split; auto. split.
  - intros i Hi. rewrite (hits_perm _ _ _ _ Hpk). apply hits_one; try lia.
    rewrite N2Nat.id. pose proof (cdiv_ge size w ltac:(lia)). lia.
  - intros p Hin. apply (Permutation_in _ Hpk) in Hin.
    apply steps_In in Hin as (j & Hj & ->). rewrite N2Nat.id in Hj.
    split.
    + destruct (N.lt_ge_cases (0 + w * j) size); auto.
      assert (cdiv size w <= j) by (apply cdiv_le_iff; lia). lia.
    + rewrite N.add_0_l, N.mul_comm. apply N.mod_mul. lia.
Qed.
