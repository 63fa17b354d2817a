From Verif Require Import Base Arith_Model Arith_Proofs Par_Model Par_Proofs Red_Model
  Red_Plan Mkperm_Sort Exp_Model.
Local Open Scope N_scope.

Section Exp.
Context {V : Type}.
Variables (op : V -> V -> V) (d : V) (xs : list V).
Variables (ptr exp size : N).
Hypothesis Hlen : N.of_nat (length xs) = exp * size.
Hypothesis Hexp : 0 < exp.
Hypothesis Hbnd : exp * size < 2 ^ 32.
Hypothesis Hb128 : size + 128 < 2 ^ 32.

Notation val n := (nth (N.to_nat n) xs d).

(** Entry [i] after combining copies [1 .. j-1]. *)
Definition folded (i j : N) : V :=
  fold_left op (map (fun t => val (i + t * size)) (range_lt 1 j)) (val i).

Lemma folded_1 i : folded i 1 = val i.
Proof. unfold folded. now rewrite range_lt_nil by lia. Qed.
Lemma folded_next i j : 1 <= j -> folded i (j + 1) = op (folded i j) (val (i + j * size)).
Proof. intros H. unfold folded. rewrite range_lt_snoc by auto. now rewrite map_app, fold_left_app. Qed.

(** Memory during the work of a unit: entry [i] combined with [c i] copies. *)
Definition at_ (m : mem V) (s e : N) (c : N -> N) (m' : mem V) : Prop :=
  (forall i, s <= i < e -> m' (ptr, i) = Some (folded i (c i))) /\
  (forall l, ~ (fst l = ptr /\ s <= snd l < e) -> m' l = m l).

Definition Wu (s e : N) (l : loc) : Prop := fst l = ptr /\ s <= snd l < e.
Definition Au (s e : N) (l : loc) : Prop :=
  Wu s e l \/ fst l = ptr /\ size <= snd l.

Lemma copy_bound i j : i < size -> 1 <= j -> j < exp -> size <= i + j * size < exp * size.
Proof. intros. nia. Qed.

Lemma combine_wp (m : mem V) s e c c' i j k Q m0 :
  holds m ptr xs -> e <= size -> s <= i -> i < e -> 1 <= j -> j < exp ->
  c i = j -> c' i = j + 1 -> (forall i', i' <> i -> c' i' = c i') ->
  at_ m s e c m0 ->
  (forall m1, at_ m s e c' m1 -> wp (Au s e) (Wu s e) k Q m1) ->
  wp (Au s e) (Wu s e) (combine op ptr i (u32 (i + u32 (j * size))) k) Q m0.
Proof.
  intros Hh He Hi1 Hi2 Hj1 Hj2 Ec Ec' Ne [I1 I2] K.
  pose proof (copy_bound i j ltac:(lia) Hj1 Hj2) as CB.
  rewrite (u32_small (j * size)) by lia. rewrite u32_small by lia.
  unfold combine. cbn [wp]. split; [left; split; auto; lia|].
  exists (folded i j). split; [rewrite I1 by lia; now rewrite Ec|].
  split; [right; cbn; lia|].
  exists (val (i + j * size)). split.
  { rewrite I2 by (cbn; lia). rewrite Hh. apply nth_error_nth'. lia. }
  split; [left; split; cbn; auto; lia|]. split; [split; cbn; auto; lia|].
  split; [rewrite I1 by lia; discriminate|].
  apply K. split.
  - intros i' Hi'. destruct (N.eq_dec i' i) as [->|N].
    + rewrite mset_eq, Ec', folded_next by auto. reflexivity.
    + rewrite mset_neq by congruence. rewrite Ne by auto. auto.
  - intros l Hl. rewrite mset_neq; auto. intros ->. apply Hl. cbn. lia.
Qed.

Lemma block_starts_ok e fuel : forall i, i <= e -> e <= size -> (N.to_nat (e - i) <= fuel)%nat ->
  exists starts i1, block_starts fuel i e = Some (starts, i1) /\ i <= i1 <= e /\
    exists q, i1 = i + 128 * q /\ starts = map (fun t => i + 128 * N.of_nat t) (seq 0 (N.to_nat q)).
Proof.
  induction fuel as [|fuel IH]; intros i Hi He Hf; cbn [block_starts]; rewrite u32_small by lia.
  - destruct (N.leb_spec (i + 128) e); [lia|].
    exists [], i. repeat split; try lia. exists 0. split; [lia|reflexivity].
  - destruct (N.leb_spec (i + 128) e) as [L|G].
    + destruct (IH (i + 128)) as (st & i1 & -> & H1 & q & -> & ->); try lia.
      cbn [bind fst snd]. eexists _, _. split; [reflexivity|]. split; [lia|].
      exists (q + 1). split; [lia|]. replace (N.to_nat (q + 1)) with (S (N.to_nat q)) by lia.
      cbn [seq map]. f_equal; [lia|]. rewrite <- seq_shift, map_map. apply map_ext. intros. lia.
    + exists [], i. repeat split; try lia. exists 0. split; [lia|reflexivity].
Qed.

Lemma kernel_wp (m : mem V) s e :
  holds m ptr xs -> s <= e -> e <= size ->
  wp (Au s e) (Wu s e) (expanded_kernel op ptr exp size s e) (at_ m s e (fun _ => exp)) m.
Proof.
  intros Hh Hse He. unfold expanded_kernel.
  destruct (block_starts_ok e (N.to_nat e) s Hse He ltac:(lia))
    as (starts & i1 & -> & Hi1 & q & Ei1 & Est).
  assert (At0 : at_ m s e (fun i => if i <? s then exp else 1) m).
  { split; auto. intros i Hi. replace (i <? s) with false by lia. rewrite folded_1, Hh.
    apply nth_error_nth'. assert (size <= exp * size) by nia. lia. }
  assert (Ext : forall c c' m', (forall i, s <= i < e -> c i = c' i) -> at_ m s e c m' -> at_ m s e c' m').
  { intros c c' m' E [I1 I2]. split; auto. intros i Hi. rewrite <- E by auto. auto. }
  apply (wp_loop _ _ _ (fun done _ m' => at_ m s e
           (fun i => if i <? s + 128 * N.of_nat (length done) then exp else 1) m')).
  - intros done i todo [] m' kk Esp I Hkk.
    set (nd := N.of_nat (length done)) in *.
    assert (Hi : i = s + 128 * nd /\ s + 128 * (nd + 1) <= i1).
    { assert (Hn : nth_error starts (length done) = Some i).
      { rewrite Esp, nth_error_app2, Nat.sub_diag by lia. reflexivity. }
      rewrite Est, nth_error_map in Hn.
      assert (Hlt : (length done < N.to_nat q)%nat).
      { assert (length starts = N.to_nat q) by (rewrite Est, map_length, seq_length; auto).
        rewrite Esp, app_length in H. cbn in H. lia. }
      erewrite nth_error_nth' with (d := O) in Hn by (rewrite seq_length; lia).
      rewrite seq_nth in Hn by lia. cbn in Hn. injection Hn as <-. unfold nd. lia. }
    destruct Hi as [Ei Hq].
    apply (wp_for _ _ _ (fun j _ m' => at_ m s e
             (fun i' => if i' <? i then exp else if i' <? i + 128 then j else 1) m')).
    + lia.
    + eapply Ext; [|exact I]. intros i' Hi'. cbn beta. rewrite <- Ei.
      destruct (i' <? i); auto. destruct (_ <? _); auto.
    + intros j [] m1 kk1 Hj1 Hj2 I1 Hkk1.
      apply (wp_for _ _ _ (fun k _ m' => at_ m s e
             (fun i' => if i' <? i then exp else if i' <? i + k then j + 1
                        else if i' <? i + 128 then j else 1) m')).
      * lia.
      * eapply Ext; [|exact I1]. intros i' Hi'. cbn beta. destruct (N.ltb_spec i' i); auto.
        destruct (N.ltb_spec i' (i + 0)); auto. lia.
      * intros k [] m2 kk2 Hk1 Hk2 I2 Hkk2. rewrite (u32_small (i + k)) by lia.
        eapply combine_wp with (c' := fun i' => if i' <? i then exp else if i' <? i + (k + 1) then j + 1
                        else if i' <? i + 128 then j else 1); try exact I2; auto; try lia.
        -- cbn beta. destruct (N.ltb_spec (i + k) i); [lia|]. destruct (N.ltb_spec (i + k) (i + k)); [lia|].
           destruct (N.ltb_spec (i + k) (i + 128)); [auto|lia].
        -- cbn beta. destruct (N.ltb_spec (i + k) i); [lia|].
           destruct (N.ltb_spec (i + k) (i + (k + 1))); [auto|lia].
        -- intros i' Hne. cbn beta. destruct (N.ltb_spec i' i); auto.
           destruct (N.ltb_spec i' (i + (k + 1))), (N.ltb_spec i' (i + k)); auto; lia.
      * intros [] m2 I2. apply Hkk1. eapply Ext; [|exact I2]. intros i' Hi'. cbn beta.
        destruct (N.ltb_spec i' i); auto. destruct (i' <? i + 128); auto.
    + intros [] m1 I1. apply Hkk. eapply Ext; [|exact I1]. intros i' Hi'. cbn beta.
      rewrite app_length. cbn [length].
      replace (s + 128 * N.of_nat (length done + 1)) with (i + 128) by (unfold nd in *; lia).
      destruct (N.ltb_spec i' i), (N.ltb_spec i' (i + 128)); auto; lia.
  - eapply Ext; [|exact At0]. intros i Hi. cbn beta. cbn [length].
    replace (s + 128 * N.of_nat 0) with s by lia. reflexivity.
  - intros [] m1 I1.
    assert (length starts = N.to_nat q) as Lst by (rewrite Est, map_length, seq_length; auto).
    rewrite Lst in I1. replace (s + 128 * N.of_nat (N.to_nat q)) with i1 in I1 by lia.
    apply (wp_for _ _ _ (fun i _ m' => at_ m s e (fun i' => if i' <? i then exp else 1) m')).
    + lia.
    + exact I1.
    + intros i [] m2 kk Hi Hi2 I2 Hkk.
      apply (wp_for _ _ _ (fun j _ m' => at_ m s e
               (fun i' => if i' <? i then exp else if i' =? i then j else 1) m')).
      * lia.
      * eapply Ext; [|exact I2]. intros i' _. cbn beta. destruct (i' <? i); auto. destruct (i' =? i); auto.
      * intros j [] m3 kk3 Hj1 Hj2 I3 Hkk3.
        eapply combine_wp with (c' := fun i' => if i' <? i then exp else if i' =? i then j + 1 else 1);
          try exact I3; auto; try lia.
        -- cbn beta. rewrite N.ltb_irrefl, N.eqb_refl. auto.
        -- cbn beta. rewrite N.ltb_irrefl, N.eqb_refl. auto.
        -- intros i' Hne. cbn beta. destruct (i' <? i); auto. destruct (N.eqb_spec i' i); auto; lia.
      * intros [] m3 I3. apply Hkk. eapply Ext; [|exact I3]. intros i' _. cbn beta.
        destruct (N.ltb_spec i' i), (N.ltb_spec i' (i + 1)), (N.eqb_spec i' i); auto; lia.
    + intros [] m2 I2. cbn [wp]. eapply Ext; [|exact I2]. intros i' Hi'. cbn beta.
      destruct (N.ltb_spec i' e); auto. lia.
Qed.

Theorem reduce_expanded_ok workers ideal m :
  1 <= workers -> 16 <= ideal -> size + ideal <= 2 ^ 32 ->
  holds m ptr xs ->
  exists cs, reduce_expanded op workers ideal ptr exp size = Cmds cs /\
    ensures cs (fun m' =>
      (forall i, i < size -> m' (ptr, i) = Some (folded i exp)) /\
      (forall l, ~ (fst l = ptr /\ snd l < size) -> m' l = m l)) m.
Proof.
  intros Hw Hid Hsz Hh. unfold reduce_expanded.
  replace ((1 <? workers) && (ideal =? 0)) with false
    by (destruct (1 <? workers); cbn; [symmetry; apply N.eqb_neq; lia|auto]).
  eexists. split; [reflexivity|].
  set (bs := if 1 <? workers then ideal else size).
  set (blocks := N.max 1 (if 1 <? workers then u32 (size + ideal - 1) / ideal else 1)).
  (* ranges of the units *)
  assert (R : forall i, i < blocks ->
    u32 (i * bs) = i * bs /\ N.min (u32 (u32 (i + 1) * bs)) size = N.min ((i + 1) * bs) size /\
    i * bs <= N.min ((i + 1) * bs) size).
  { intros i Hi. unfold bs, blocks in *. destruct (N.ltb_spec 1 workers).
    - rewrite (u32_small (size + ideal - 1)) in Hi by lia. fold (cdiv size ideal) in Hi.
      destruct (N.eq_dec size 0) as [E0|E0].
      + subst size. assert (i = 0). { unfold cdiv in Hi. rewrite N.div_small in Hi; lia. } subst i.
        rewrite (u32_small (0 * ideal)) by lia. split; auto. split; lia.
      + assert (Hp := cdiv_pos size ideal ltac:(lia) ltac:(lia)).
        assert (i * ideal < size).
        { apply N.nle_gt. intros C. apply cdiv_le_iff in C; lia. }
        rewrite (u32_small (i * ideal)) by lia. rewrite (u32_small (i + 1)) by nia.
        split; auto.
        destruct (N.eq_dec ((i + 1) * ideal) (2 ^ 32)) as [Ew|Ew].
        * exfalso. assert (size + ideal = 2 ^ 32) by lia.
          assert (size = i * ideal) by lia. lia.
        * rewrite u32_small by lia. split; auto. lia.
    - assert (i = 0) by lia. subst i.
      rewrite (u32_small (0 * size)) by lia. rewrite (u32_small (0 + 1)) by lia.
      rewrite (u32_small ((0 + 1) * size)) by lia. split; auto. split; lia. }
  assert (Cov : size <= blocks * bs).
  { unfold bs, blocks. destruct (N.ltb_spec 1 workers); [|lia].
    rewrite u32_small by lia. fold (cdiv size ideal).
    assert (C : cdiv size ideal <= cdiv size ideal) by lia. apply cdiv_le_iff in C; nia. }
  set (lo := fun i => i * bs). set (hi := fun i => N.min ((i + 1) * bs) size).
  assert (Apart : forall i j, i < j -> hi i <= lo j).
  { intros i j Hij. unfold hi, lo. assert ((i + 1) * bs <= j * bs) by (apply N.mul_le_mono_r; lia). lia. }
  apply (units_wp _ _ (fun i => Au (lo i) (hi i)) (fun i => Wu (lo i) (hi i))
           (fun i => at_ m (lo i) (hi i) (fun _ => exp))).
  - unfold Au, Wu. intros i j l Hi Hj Ne (E & Hl) [(_ & Hl')|(_ & Hl')].
    + destruct (N.lt_total i j) as [L|[L|L]]; [pose proof (Apart i j L)|congruence|pose proof (Apart j i L)]; lia.
    + unfold hi in Hl. lia.
  - unfold Au. auto.
  - intros i Hi. destruct (R i Hi) as (-> & -> & HR). apply kernel_wp; auto. unfold hi. lia.
  - intros mf m' HP M1 M2. cbn [ensures]. split.
    + intros i Hi.
      assert (exists b, b < blocks /\ lo b <= i < hi b) as (b & Hb & Hr).
      { exists (i / bs). assert (0 < bs) by (unfold bs; destruct (1 <? workers); lia).
        pose proof (N.div_mod i bs ltac:(lia)). pose proof (N.mod_lt i bs ltac:(lia)).
        split; [apply N.div_lt_upper_bound; lia|]. unfold lo, hi. lia. }
      rewrite (M1 b (ptr, i) Hb); [apply HP; auto|split; auto].
    + intros l Hl. apply M2. intros i Hi (E & Hr). apply Hl. split; auto. unfold hi in Hr. lia.
Qed.
End Exp.
