From Verif Require Import Base Arith_Model Arith_Proofs Par_Model Par_Proofs Red_Model Red_Spec
  Red_Plan Red_Proofs Red_Scan Red_Laws Red_Props Comp_Model Comp_Spec.
Local Open Scope N_scope.

Lemma range_ne_lt s e : s <= e -> e < 2 ^ 32 -> range_ne s e = range_lt s e.
Proof.
  intros Hse He. unfold range_ne, range_lt. rewrite sub32_ge by lia.
  apply map_ext_in. intros t Ht. apply in_seq in Ht. apply u32_small. lia.
Qed.

(** Active indices below [k]. *)
Definition act (xs : list Z) (k : N) : list Z :=
  filter (fun i => negb (nth (Z.to_nat i) xs 0 =? 0)%Z) (map Z.of_nat (seq 0 (N.to_nat k))).
Definition rank (xs : list Z) (k : N) : Z := Z.of_nat (length (act xs k)).

Lemma act_all xs : act xs (N.of_nat (length xs)) = active xs.
Proof. unfold act, active. now rewrite Nat2N.id. Qed.

Lemma act_snoc xs k x : nth_error xs (N.to_nat k) = Some x ->
  act xs (k + 1) = act xs k ++ (if (x =? 0)%Z then [] else [Z.of_N k]).
Proof.
  intros Hx. unfold act. replace (N.to_nat (k + 1)) with (S (N.to_nat k)) by lia.
  rewrite seq_S, map_app, filter_app. f_equal. cbn [map filter Nat.add].
  rewrite Nat2Z.id, (nth_error_nth xs _ 0%Z Hx). destruct (x =? 0)%Z; cbn; auto.
  f_equal. lia.
Qed.

Lemma act_split xs a b : a <= b -> exists ys, act xs b = act xs a ++ ys.
Proof.
  intros H. unfold act. replace (N.to_nat b) with (N.to_nat a + N.to_nat (b - a))%nat by lia.
  rewrite seq_app, map_app, filter_app. eexists. reflexivity.
Qed.

Lemma filter_len {A} (f : A -> bool) l : (length (filter f l) <= length l)%nat.
Proof. induction l; cbn; auto. destruct (f a); cbn; lia. Qed.

Lemma rank_mono xs a b : a <= b -> (rank xs a <= rank xs b)%Z.
Proof. intros H. destruct (act_split xs a b H) as [ys E]. unfold rank. rewrite E, app_length. lia. Qed.

Lemma rank_bound xs a : (0 <= rank xs a <= Z.of_N a)%Z.
Proof.
  unfold rank, act.
  pose proof (filter_len (fun i => negb (nth (Z.to_nat i) xs 0 =? 0)%Z)
                (map Z.of_nat (seq 0 (N.to_nat a)))) as H.
  rewrite map_length, seq_length in H. lia.
Qed.

Lemma act_nth xs a b j : a <= b -> (Z.of_N j < rank xs a)%Z ->
  nth_error (act xs b) (N.to_nat j) = nth_error (act xs a) (N.to_nat j).
Proof.
  intros H Hj. destruct (act_split xs a b H) as [ys ->]. apply nth_error_app1.
  unfold rank in Hj. lia.
Qed.

Lemma rank_snoc xs k x : is_mask xs -> nth_error xs (N.to_nat k) = Some x ->
  (rank xs (k + 1) = rank xs k + x)%Z.
Proof.
  intros HM Hx. unfold rank. rewrite (act_snoc xs k x Hx), app_length.
  unfold is_mask in HM. rewrite Forall_forall in HM.
  destruct (HM x (nth_error_In _ _ Hx)) as [-> | ->];
    [change (0 =? 0)%Z with true|change (1 =? 0)%Z with false]; cbn [length]; lia.
Qed.

Lemma wrap_u32 x : (0 <= x < 2 ^ 32)%Z -> it_wrap U32 x = x.
Proof. intros H. apply wrap_id; cbn; try lia. unfold it_in, it_min, it_max. cbn. lia. Qed.

Section Comp.
Variable xs : list Z.
Variables (bs blocks : N).
Notation size := (N.of_nat (length xs)).
Hypothesis HM : is_mask xs.
Hypothesis Hbs : 0 < bs.
Hypothesis Hbl : blocks = cdiv size bs.
Hypothesis Hsz : blocks * bs < 2 ^ 32.
Hypothesis Hs0 : 0 < size.

Lemma unit_range i : i < blocks ->
  comp_range bs size i = (i * bs, N.min ((i + 1) * bs) size) /\
  i * bs < size /\ i * bs < N.min ((i + 1) * bs) size < 2 ^ 32.
Proof.
  intros Hi. assert (i * bs < size).
  { apply N.nle_gt. intros C. assert (cdiv size bs <= i) by (apply cdiv_le_iff; lia). lia. }
  assert ((i + 1) * bs <= blocks * bs) by (apply N.mul_le_mono_r; lia).
  split; [|lia]. unfold comp_range.
  rewrite (u32_small (i * bs)) by lia. rewrite u32_small by lia. do 2 f_equal. lia.
Qed.

Lemma last_unit i : i < blocks ->
  N.min ((i + 1) * bs) size = size <-> i = blocks - 1.
Proof.
  intros Hi. split.
  - intros E. assert (cdiv size bs <= i + 1) by (apply cdiv_le_iff; lia). lia.
  - intros ->. assert (cdiv size bs <= blocks) as H by lia.
    apply cdiv_le_iff in H; auto. replace (blocks - 1 + 1) with blocks by lia. lia.
Qed.

Definition block_count i : Z := (rank xs (N.min ((i + 1) * bs) size) - rank xs (i * bs))%Z.

Lemma count_launch src scratch cs Q (m : mem Z) :
  src <> scratch -> holds m src xs ->
  (forall i, i < blocks -> m (scratch, i) <> None) ->
  (forall m',
     (forall i, i < blocks -> m' (scratch, i) = Some (block_count i)) ->
     (forall l, ~ (fst l = scratch /\ snd l < blocks) -> m' l = m l) ->
     ensures cs Q m') ->
  ensures (Par (units blocks (count_kernel bs size src scratch)) :: cs) Q m.
Proof.
  intros Hsd Hh Hd K.
  set (W := fun i (l : loc) => l = (scratch, i)).
  apply (units_wp _ _ (fun i l => fst l = src \/ W i l) W
           (fun i mf => mf (scratch, i) = Some (block_count i))).
  - unfold W. intros i j l Hi Hj Hij -> [E'|E']; cbn in *; congruence.
  - auto.
  - intros i Hi. unfold count_kernel.
    destruct (unit_range i Hi) as (-> & H1 & H2).
    rewrite range_ne_lt by lia.
    apply (wp_for _ _ _ (fun j acc m' => m' = m /\ acc = (rank xs j - rank xs (i * bs))%Z)).
    + lia.
    + split; auto. lia.
    + intros j acc m' kk Hj1 Hj2 [-> ->] Hkk. cbn. split; [auto|].
      destruct (nth_error xs (N.to_nat j)) as [x|] eqn:E.
      2:{ apply nth_error_None in E. lia. }
      exists x. split; [rewrite Hh; auto|]. apply Hkk. split; auto.
      rewrite (rank_snoc xs j x HM E).
      pose proof (rank_snoc xs j x HM E). pose proof (rank_bound xs (j + 1)).
      pose proof (rank_mono xs (i * bs) (j + 1) ltac:(lia)).
      pose proof (rank_bound xs (i * bs)).
      rewrite wrap_u32; lia.
    + intros acc m' [-> ->]. cbn. unfold W. split; auto. split; auto. split; auto.
      apply mset_eq.
  - intros mf m' HP M1 M2. apply K.
    + intros i Hi. rewrite (M1 i (scratch, i) Hi); [apply HP; auto|]. reflexivity.
    + intros l Hl. apply M2. intros i Hi E. apply Hl. unfold W in E. subst l. auto.
Qed.

Lemma emit_launch scratch src dst cnt cs Q (m : mem Z) :
  src <> dst -> src <> cnt -> dst <> cnt ->
  (forall b, scratch = Some b -> b <> dst /\ b <> cnt) ->
  holds m src xs ->
  match scratch with
  | Some b => forall i, i < blocks -> m (b, i) = Some (rank xs (i * bs))
  | None => blocks = 1
  end ->
  (forall j, (j < length (active xs))%nat -> m (dst, N.of_nat j) <> None) ->
  m (cnt, 0) <> None ->
  (forall m',
     (forall j, (j < length (active xs))%nat -> m' (dst, N.of_nat j) = nth_error (active xs) j) ->
     m' (cnt, 0) = Some (Z.of_nat (length (active xs))) ->
     (forall l, ~ (fst l = dst /\ (N.to_nat (snd l) < length (active xs))%nat) -> l <> (cnt, 0) ->
        m' l = m l) ->
     ensures cs Q m') ->
  ensures (Par (units blocks (emit_kernel bs size scratch src dst cnt)) :: cs) Q m.
Proof.
  intros N1 N2 N3 Hscr Hh Hscratch Hd Hc K.
  set (lo := fun i => rank xs (i * bs)).
  set (hi := fun i => rank xs (N.min ((i + 1) * bs) size)).
  set (W := fun i (l : loc) => fst l = dst /\ (lo i <= Z.of_N (snd l) < hi i)%Z \/
                               i = blocks - 1 /\ l = (cnt, 0)).
  assert (Ract : rank xs size = Z.of_nat (length (active xs))).
  { unfold rank. now rewrite act_all. }
  assert (mono : forall i j, i < j -> (hi i <= lo j)%Z).
  { intros i j Hij. unfold hi, lo. apply rank_mono.
    assert ((i + 1) * bs <= j * bs) by (apply N.mul_le_mono_r; lia). lia. }
  apply (units_wp _ _ (fun i l => (fst l = src \/ exists b, scratch = Some b /\ fst l = b) \/ W i l) W
           (fun i mf =>
              (forall j, (lo i <= Z.of_N j < hi i)%Z ->
                 mf (dst, j) = nth_error (act xs (N.min ((i + 1) * bs) size)) (N.to_nat j)) /\
              (i = blocks - 1 -> mf (cnt, 0) = Some (rank xs size)))).
  - unfold W. intros i j l Hi Hj Hij [(E & Hl)|(Ei & ->)] H.
    + destruct H as [[H|(b & Hb & H)]|[(E' & Hl')|(Ej & ->)]].
      * congruence.
      * destruct (Hscr b Hb). congruence.
      * destruct (N.lt_total i j) as [Lt|[Eq|Gt]]; [pose proof (mono i j Lt); lia|congruence|
          pose proof (mono j i Gt); lia].
      * cbn in *. congruence.
    + cbn in H. destruct H as [[H|(b & Hb & H)]|[(E' & Hl')|(Ej & _)]]; try congruence.
      destruct (Hscr b Hb). congruence.
  - auto.
  - intros i Hi. unfold emit_kernel.
    destruct (unit_range i Hi) as (-> & H1 & H2).
    set (e := N.min ((i + 1) * bs) size) in *.
    assert (go : forall go',
      wp (fun l => (fst l = src \/ (exists b, scratch = Some b /\ fst l = b)) \/ W i l) (W i)
         (go' (lo i)) (fun mf => (forall j, (lo i <= Z.of_N j < hi i)%Z ->
                 mf (dst, j) = nth_error (act xs e) (N.to_nat j)) /\
              (i = blocks - 1 -> mf (cnt, 0) = Some (rank xs size))) m ->
      wp (fun l => (fst l = src \/ (exists b, scratch = Some b /\ fst l = b)) \/ W i l) (W i)
         (match scratch with Some b => Rd (b, i) go' | None => go' 0%Z end)
         (fun mf => (forall j, (lo i <= Z.of_N j < hi i)%Z ->
                 mf (dst, j) = nth_error (act xs e) (N.to_nat j)) /\
              (i = blocks - 1 -> mf (cnt, 0) = Some (rank xs size))) m).
    { intros go' G. destruct scratch as [b|].
      - cbn. split; [eauto|]. eexists. split; [apply Hscratch; auto|]. exact G.
      - replace 0%Z with (lo i); auto. unfold lo. rewrite Hscratch in Hi.
        replace (i * bs) with 0 by nia. reflexivity. }
    apply go. clear go. rewrite range_ne_lt by lia.
    apply (wp_for _ _ _ (fun j acc m' => acc = rank xs j /\
             (forall j', (lo i <= Z.of_N j' < rank xs j)%Z ->
                m' (dst, j') = nth_error (act xs j) (N.to_nat j')) /\
             (forall l, ~ (fst l = dst /\ (lo i <= Z.of_N (snd l) < rank xs j)%Z) -> m' l = m l))).
    + lia.
    + split; auto. split; auto. intros; unfold lo in *; lia.
    + intros j acc m' kk Hj1 Hj2 (-> & I1 & I2) Hkk. cbn. split; [auto|].
      destruct (nth_error xs (N.to_nat j)) as [x|] eqn:E.
      2:{ apply nth_error_None in E. lia. }
      exists x. split.
      { rewrite I2, Hh; auto. cbn. intros [? _]. congruence. }
      pose proof (rank_snoc xs j x HM E) as RS. pose proof (act_snoc xs j x E) as AS.
      pose proof (rank_bound xs (j + 1)) as RB.
      pose proof (rank_bound xs j) as RB0.
      rewrite (wrap_u32 (rank xs j + x)) by lia. rewrite <- RS.
      assert (Hx : x = 0%Z \/ x = 1%Z).
      { unfold is_mask in HM. rewrite Forall_forall in HM. apply HM. eapply nth_error_In; eauto. }
      destruct Hx as [-> | ->];
        [change (0 =? 0)%Z with true in *|change (1 =? 0)%Z with false in *]; cbn iota in *.
      * apply Hkk. split; auto. rewrite RS, AS. cbn. rewrite app_nil_r, Z.add_0_r. auto.
      * assert (Hl1 : (lo i <= rank xs j)%Z) by (apply rank_mono; lia).
        assert (Hl2 : (rank xs (j + 1) <= hi i)%Z) by (apply rank_mono; lia).
        assert (Hl3 : (hi i <= rank xs size)%Z) by (apply rank_mono; lia).
        cbn. split.
        { right. left. cbn. split; auto. rewrite Z2N.id; lia. }
        split. { left. cbn. split; auto. rewrite Z2N.id; lia. }
        split.
        { rewrite I2.
          - specialize (Hd (Z.to_nat (rank xs j)) ltac:(lia)).
            replace (Z.to_N (rank xs j)) with (N.of_nat (Z.to_nat (rank xs j))) by lia. auto.
          - cbn. intros [_ ?]. lia. }
        apply Hkk. split; auto. split.
        -- intros j' Hj'. destruct (N.eq_dec j' (Z.to_N (rank xs j))) as [->|Ne].
           ++ rewrite mset_eq, AS. cbn.
              rewrite nth_error_app2 by (unfold rank; lia).
              replace (N.to_nat (Z.to_N (rank xs j)) - length (act xs j))%nat with O
                by (unfold rank; lia). reflexivity.
           ++ rewrite mset_neq by congruence. rewrite I1 by lia. rewrite AS.
              rewrite nth_error_app1; auto. unfold rank in *. lia.
        -- intros l Hl. rewrite mset_neq.
           ++ apply I2. intros [E1 E2]. apply Hl. split; auto. lia.
           ++ intros ->. apply Hl. cbn. split; auto. rewrite Z2N.id; lia.
    + intros acc m' (-> & I1 & I2).
      destruct (N.eqb_spec e size) as [Ee|Ne].
      * pose proof (proj1 (last_unit i Hi) Ee) as Hlast.
        cbn. split; [right; right; auto|]. split; [right; auto|]. split.
        { rewrite I2; auto. cbn. intros [? _]. congruence. }
        split.
        -- intros j Hj. rewrite mset_neq by (intros [=]; congruence). apply I1. exact Hj.
        -- intros _. rewrite mset_eq. now rewrite Ee.
      * cbn. split.
        -- intros j Hj. apply I1. exact Hj.
        -- intros C. destruct Ne. apply (last_unit i Hi); auto.
  - intros mf m' HP M1 M2.
    assert (Hb0 : 0 < blocks) by (rewrite Hbl; apply cdiv_pos; auto).
    apply K.
    + intros j Hj.
      assert (exists i, i < blocks /\ (lo i <= Z.of_nat j < hi i)%Z) as (i & Hi & Hl).
      { assert (G : forall k, k <= blocks -> (Z.of_nat j < rank xs (N.min (k * bs) size))%Z ->
                     exists i, i < blocks /\ (lo i <= Z.of_nat j < hi i)%Z).
        { intros k. induction k as [|k IH] using N.peano_ind; intros Hk Hr.
          - pose proof (rank_bound xs (N.min (0 * bs) size)). lia.
          - destruct (Z.lt_ge_cases (Z.of_nat j) (rank xs (N.min (k * bs) size))) as [L|G].
            + apply IH; auto. lia.
            + exists k. split; [lia|]. destruct (unit_range k ltac:(lia)) as (_ & U & _).
              unfold lo, hi. replace (N.min (k * bs) size) with (k * bs) in G by lia.
              rewrite N.add_1_r. lia. }
        apply (G blocks); [lia|].
        pose proof (proj2 (last_unit (blocks - 1) ltac:(lia)) eq_refl) as L.
        replace (blocks - 1 + 1) with blocks in L by lia. rewrite L. lia. }
      rewrite (M1 i (dst, N.of_nat j) Hi).
      * destruct (HP i Hi) as [P1 _]. rewrite P1 by lia.
        rewrite <- (act_nth xs (N.min ((i + 1) * bs) size) size (N.of_nat j)).
        -- rewrite Nat2N.id. now rewrite act_all.
        -- lia.
        -- unfold hi in Hl. lia.
      * left. cbn. split; auto. lia.
    + rewrite (M1 (blocks - 1) (cnt, 0)); [|lia|right; auto].
      destruct (HP (blocks - 1) ltac:(lia)) as [_ P2]. rewrite P2 by auto. now rewrite Ract.
    + intros l Hl Hc'. apply M2. intros i Hi [(E & Hr)|(_ & E)]; [|congruence].
      apply Hl. split; auto.
      assert ((hi i <= rank xs size)%Z) by (apply rank_mono; lia). lia.
Qed.
End Comp.

Lemma comp_plan_ok workers ideal size :
  1 <= workers -> 16 <= ideal -> 0 < size -> size + ideal - 1 < 2 ^ 32 ->
  exists bs blocks, comp_plan workers ideal size = Some (bs, blocks) /\
    0 < bs /\ blocks = cdiv size bs /\ blocks * bs < 2 ^ 32 /\
    (bs = size /\ blocks = 1 \/ bs = ideal) /\ (1 < blocks -> blocks + blocks - 1 < 2 ^ 32).
Proof.
  intros Hw Hi Hs Hz. unfold comp_plan. destruct (N.ltb_spec 1 workers).
  - destruct (N.eqb_spec ideal 0); [lia|]. eexists _, _. split; [reflexivity|].
    rewrite u32_small by lia. split; [lia|]. split; [reflexivity|]. split.
    + unfold cdiv. pose proof (N.mul_div_le (size + ideal - 1) ideal ltac:(lia)). lia.
    + split; [auto|]. intros _. nia.
  - eexists _, _. split; [reflexivity|]. split; [auto|]. split.
    + unfold cdiv. replace (size + size - 1) with (size - 1 + 1 * size) by lia.
      rewrite N.div_add by lia. rewrite N.div_small by lia. reflexivity.
    + split; [lia|]. split; [auto|lia].
Qed.

(** ** The whole operation *)

Definition compressed_to (xs : list Z) (dst cnt : N) (m m' : mem Z) : Prop :=
  (forall j, (j < length (active xs))%nat -> m' (dst, N.of_nat j) = nth_error (active xs) j) /\
  m' (cnt, 0) = Some (Z.of_nat (length (active xs))) /\
  (forall l, ~ (fst l = dst /\ (N.to_nat (snd l) < length (active xs))%nat) -> l <> (cnt, 0) ->
     m' l = m l).

Lemma counts_rank xs bs blocks : is_mask xs -> 0 < bs ->
  blocks = cdiv (N.of_nat (length xs)) bs ->
  let counts := map (fun t => block_count xs bs (N.of_nat t)) (seq 0 (N.to_nat blocks)) in
  forall i, i < blocks -> fold_right Z.add 0%Z (slice counts 0 i) = rank xs (i * bs).
Proof.
  intros HM Hbs Hbl counts i. induction i as [|i IH] using N.peano_ind; intros Hi.
  - reflexivity.
  - rewrite <- N.add_1_r in *.
    assert (Hn : nth_error counts (N.to_nat i) = Some (block_count xs bs i)).
    { unfold counts. rewrite nth_error_map.
      assert (E : nth_error (seq 0 (N.to_nat blocks)) (N.to_nat i) = Some (N.to_nat i)).
      { erewrite nth_error_nth' with (d := O) by (rewrite seq_length; lia).
        rewrite seq_nth by lia. reflexivity. }
      rewrite E. cbn. rewrite N2Nat.id. reflexivity. }
    rewrite (slice_snoc counts 0 i (block_count xs bs i)) by (auto; lia).
    rewrite fold_right_app. cbn [fold_right].
    assert (G : forall l a, fold_right Z.add a l = (fold_right Z.add 0 l + a)%Z).
    { clear. induction l; intros; cbn; auto. rewrite IHl. lia. }
    rewrite G, IH by lia. unfold block_count.
    assert ((i + 1) * bs < N.of_nat (length xs)).
    { apply N.nle_gt. intros C.
      assert (cdiv (N.of_nat (length xs)) bs <= i + 1) by (apply cdiv_le_iff; lia). lia. }
    replace (N.min ((i + 1) * bs) (N.of_nat (length xs))) with ((i + 1) * bs) by lia. lia.
Qed.

Theorem compress_ok workers ideal fresh cnt (xs : list Z) src dst m :
  is_mask xs -> machine workers ideal ->
  N.of_nat (length xs) + ideal - 1 < 2 ^ 32 ->
  src <> dst -> src <> cnt -> dst <> cnt ->
  src < fresh -> dst < fresh -> cnt < fresh -> fresh_from m fresh ->
  holds m src xs ->
  (forall j, (j < length (active xs))%nat -> m (dst, N.of_nat j) <> None) ->
  m (cnt, 0) = Some 0%Z ->
  exists cs,
    compress workers ideal 11 fresh cnt (N.of_nat (length xs)) src dst = Cmds cs /\
    ensures cs (compressed_to xs dst cnt m) m.
Proof.
  intros HM [Hw Hid] Hsz N1 N2 N3 F1 F2 F3 Hf Hh Hd Hc.
  unfold compress. destruct (N.eqb_spec (N.of_nat (length xs)) 0) as [E0|E0].
  { exists []. split; auto. cbn. destruct xs; [|cbn in E0; lia].
    repeat split; auto. intros j Hj. cbn in Hj. lia. }
  assert (Hs0 : 0 < N.of_nat (length xs)) by lia.
  destruct (comp_plan_ok workers ideal (N.of_nat (length xs)))
    as (bs & blocks & -> & Hbs & Hbl & Hprod & _ & Hbb); try lia.
  destruct (N.ltb_spec 1 blocks) as [Hb1|Hb1].
  - set (counts := map (fun t => block_count xs bs (N.of_nat t)) (seq 0 (N.to_nat blocks))).
    assert (Lc : N.of_nat (length counts) = blocks)
      by (unfold counts; rewrite map_length, seq_length; lia).
    assert (Hcounts : Forall (it_in U32) counts).
    { apply Forall_forall. intros c Hcc. unfold counts in Hcc. apply in_map_iff in Hcc.
      destruct Hcc as (t & <- & Ht). apply in_seq in Ht. unfold block_count.
      assert (HH := unit_range xs bs blocks Hbs Hbl Hprod Hs0 (N.of_nat t) ltac:(lia)).
      pose proof (rank_mono xs (N.of_nat t * bs) (N.min ((N.of_nat t + 1) * bs) (N.of_nat (length xs)))
                    ltac:(lia)).
      pose proof (rank_bound xs (N.min ((N.of_nat t + 1) * bs) (N.of_nat (length xs)))).
      pose proof (rank_bound xs (N.of_nat t * bs)).
      unfold it_in, it_min, it_max. cbn. lia. }
    (* the scan commands do not depend on the memory: obtain them for any memory *)
    assert (SC : forall m1, fresh_from m1 (fresh + 1) -> holds m1 fresh counts ->
      exists cs,
      block_prefix_reduce (fun x => x) (fun x => x) (iinit U32 RAdd) (ired U32 RAdd)
        (it_wrap U32 (reduce_identity U32 RAdd)) 4 workers ideal 11 (fresh + 1)
        blocks blocks true false fresh fresh = Cmds cs /\
      ensures cs (fun m' =>
        (forall j, j < blocks -> m' (fresh, j) = Some (rank xs (j * bs))) /\
        (forall l, ~ (fst l = fresh /\ snd l < blocks) -> m' l = m1 l)) m1).
    { intros m1 Hf1 Hh1.
      destruct (C18_prefix_reduce_int_partial U32 RAdd 4 workers ideal (fresh + 1) counts
                  blocks true false fresh fresh m1) as (cs & E & X); auto; try lia.
      - unfold is_int_type. cbn. auto.
      - unfold elem_size. auto.
      - split; auto.
      - intros j Hj. rewrite Hh1. apply nth_error_Some. lia.
      - rewrite Lc in E. exists cs. split; auto. eapply ensures_weaken; [|exact X].
        rewrite Lc. intros m' [R1 R2]. split; auto. intros j Hj. rewrite R1 by auto.
        unfold scan_inputs, int_reduce. rewrite N.div_small by auto.
        pose proof (counts_rank xs bs blocks HM Hbs Hbl j Hj) as CR. fold counts in CR.
        cbv zeta in CR. change (0 * blocks) with 0. rewrite CR.
        pose proof (rank_bound xs (j * bs)).
        assert (HH := unit_range xs bs blocks Hbs Hbl Hprod Hs0 j Hj).
        rewrite wrap_u32; auto. lia. }
    assert (exists cs, block_prefix_reduce (fun x => x) (fun x => x) (iinit U32 RAdd) (ired U32 RAdd)
        (it_wrap U32 (reduce_identity U32 RAdd)) 4 workers ideal 11 (fresh + 1)
        blocks blocks true false fresh fresh = Cmds cs) as [cs Ecs].
    { destruct (SC (mem_of [(fresh, counts)])) as (cs & -> & _); eauto.
      - intros b i Hb. unfold mem_of. cbn. destruct (N.eqb_spec fresh b); [lia|reflexivity].
      - intros i. unfold mem_of. cbn. now rewrite N.eqb_refl. }
    rewrite Ecs in *.
    eexists. split; [reflexivity|].
    cbn [ensures]. intros m0 (A1 & A2 & A3).
    change (ensures (Par (units blocks (count_kernel bs (N.of_nat (length xs)) src fresh)) ::
      cs ++ [Par (units blocks (emit_kernel bs (N.of_nat (length xs)) (Some fresh) src dst cnt));
             Free fresh]) (compressed_to xs dst cnt m) m0).
    apply (count_launch xs bs blocks HM Hbs Hbl Hprod Hs0).
    { lia. }
    { intros i. rewrite A3 by (cbn; lia). apply Hh. }
    { intros i Hi. destruct (A1 i Hi) as [v ->]. discriminate. }
    intros m1 C1 C2.
    apply ensures_app.
    destruct (SC m1) as (cs' & [= <-] & X).
    { intros b i Hb. rewrite C2 by (cbn; lia). rewrite A3 by (cbn; lia). apply Hf. lia. }
    { intros i. destruct (N.lt_ge_cases i blocks) as [Hi|Hi].
      - rewrite C1 by auto. unfold counts. rewrite nth_error_map.
        assert (E : nth_error (seq 0 (N.to_nat blocks)) (N.to_nat i) = Some (N.to_nat i)).
        { erewrite nth_error_nth' with (d := O) by (rewrite seq_length; lia).
          rewrite seq_nth by lia. reflexivity. }
        rewrite E. cbn. now rewrite N2Nat.id.
      - rewrite C2 by (cbn; lia). rewrite A2 by auto. symmetry. apply nth_error_None. lia. }
    eapply ensures_weaken; [|exact X]. intros m2 [R1 R2].
    assert (Hm2 : forall l, fst l <> fresh -> m2 l = m l).
    { intros l Hl. rewrite R2, C2, A3; auto; intros [? _]; auto. }
    apply (emit_launch xs bs blocks HM Hbs Hbl Hprod Hs0); auto; try lia.
    { intros b [= <-]. lia. }
    { intros i. rewrite Hm2 by (cbn; lia). apply Hh. }
    { intros j Hj. rewrite Hm2 by (cbn; lia). auto. }
    { rewrite Hm2 by (cbn; lia). rewrite Hc. discriminate. }
    intros m3 P1 P2 P3. cbn [ensures]. unfold compressed_to, mfree. cbn [fst snd].
    repeat split.
    + intros j Hj. replace (dst =? fresh) with false by lia. auto.
    + replace (cnt =? fresh) with false by lia. auto.
    + intros l Hl Hl'. destruct (N.eqb_spec (fst l) fresh) as [E|E].
      * destruct l as [b i]. cbn in E. subst b. symmetry. apply Hf. lia.
      * rewrite P3, Hm2; auto.
  - eexists. split; [reflexivity|].
    assert (0 < blocks) by (rewrite Hbl; apply cdiv_pos; lia).
    apply (emit_launch xs bs blocks HM Hbs Hbl Hprod Hs0); auto; try lia.
    { discriminate. }
    { rewrite Hc. discriminate. }
    intros m3 P1 P2 P3. cbn [ensures]. repeat split; auto.
Qed.
