(** Prefix reductions: the enqueued commands compute the scans. *)
From Verif Require Import Base Arith_Model Arith_Proofs Par_Model Par_Proofs
  Red_Model Red_Spec Red_Plan Red_Proofs.
Local Open Scope N_scope.

Section R.
Context {T Value : Type}.
Variables (up : T -> Value) (down : Value -> T).
Variables (init : Value) (rop : Value -> Value -> Value).
Notation reduces := (reduces up down init rop).
Notation acc_fold := (fold_left (fun a y => rop a (up y))).

Lemma Forall2_perm {A B} (R : A -> B -> Prop) ys zs :
  Permutation ys zs -> forall xs, Forall2 R xs ys ->
  exists xs', Permutation xs xs' /\ Forall2 R xs' zs.
Proof.
  induction 1 as [|y ys zs H IH|y z ys|ys zs ws H1 IH1 H2 IH2]; intros xs HF.
  - exists xs. split; auto.
  - inversion HF as [|x ? xs1 ? Hx Hr]; subst. destruct (IH _ Hr) as (xs' & P & F).
    exists (x :: xs'). split; auto.
  - inversion HF as [|x ? xs1 ? Hx Hr]; subst. inversion Hr as [|x' ? xs2 ? Hx' Hr']; subst.
    exists (x' :: x :: xs2). split; [constructor|auto].
  - destruct (IH1 _ HF) as (xs' & P & F). destruct (IH2 _ F) as (xs'' & P' & F').
    exists xs''. split; auto. eapply perm_trans; eauto.
Qed.

Lemma concat_perm {A} (l l' : list (list A)) : Permutation l l' -> Permutation (concat l) (concat l').
Proof.
  induction 1; cbn; auto.
  - apply Permutation_app_head; auto.
  - rewrite !app_assoc. apply Permutation_app_tail. apply Permutation_app_comm.
  - eapply perm_trans; eauto.
Qed.

(** Continue a reduction from a partial result. *)
Lemma reduces_continue zs s ys :
  reduces zs s -> reduces (zs ++ ys) (down (acc_fold ys (up s))).
Proof.
  intros H. rewrite <- (concat_singletons ys) at 1.
  change (zs ++ concat (map (fun x => [x]) ys)) with (concat (zs :: map (fun x => [x]) ys)).
  apply red_from. constructor; auto. apply singletons.
Qed.

Section Kernel.
Context (size bs : N) (p : plan_t).
Hypothesis Hp : plan_ok size bs p.
Hypothesis Hs : size + bs - 1 < 2 ^ 32.
Hypothesis Hb : 2 <= bs <= size.
Local Notation clo := (lo bs (p_chunk p) (p_cpb p)).
Local Notation chi := (hi bs (p_chunk p) (p_cpb p)).

Context (exclusive reverse : bool) (xs : list T) (acc0 : N -> Value).
Hypothesis Hl : N.of_nat (length xs) = size.

Definition scan_part (c j : N) : list T :=
  if reverse then rev (slice xs (if exclusive then j + 1 else j) (chi c))
  else slice xs (clo c) (if exclusive then j else j + 1).
Definition scan_val (c j : N) : T := down (acc_fold (scan_part c j) (acc0 c)).

Definition own (i j : N) : Prop :=
  exists c, c < p_count p /\ c / p_wus p = i /\ clo c <= j < N.min (chi c) size.

Lemma own_inj i i' j : own i j -> own i' j -> i = i'.
Proof.
  intros (c & Hc & <- & Hj) (c' & Hc' & <- & Hj').
  destruct (N.eq_dec c c') as [->|Ne]; auto.
  exfalso. apply (chunk_disjoint size bs p Hp Hs Hb c c' j); auto; lia.
Qed.

Lemma prefix_launch src dst scratch cs Q m :
  holds m src xs ->
  (forall b, scratch = Some b -> b <> dst /\
     forall c, c < p_count p -> exists s, m (b, c) = Some s /\ acc0 c = up s) ->
  (scratch = None -> forall c, c < p_count p -> acc0 c = init) ->
  (forall j, j < size -> m (dst, j) <> None) ->
  (forall m',
     (forall c j, c < p_count p -> clo c <= j < N.min (chi c) size ->
        m' (dst, j) = Some (scan_val c j)) ->
     (forall l, ~ (fst l = dst /\ snd l < size) -> m' l = m l) ->
     ensures cs Q m') ->
  ensures (Par (units (p_units p)
             (prefix_kernel up down init rop size bs p exclusive reverse src scratch dst)) :: cs) Q m.
Proof.
  intros Hh Hsc Hnone Hd K.
  set (W := fun i (l : loc) => fst l = dst /\ own i (snd l)).
  set (A := fun i (l : loc) =>
    (fst l = src /\ own i (snd l)) \/ W i l \/ (scratch = Some (fst l) /\ fst l <> dst)).
  apply (units_wp _ _ A W
           (fun i mf => forall c j, c < p_count p -> c / p_wus p = i ->
              clo c <= j < N.min (chi c) size -> mf (dst, j) = Some (scan_val c j))).
  - intros i j l Hi Hj Hij [E O] [[E' O']|[[E' O']|[E' N']]].
    + apply Hij. eapply own_inj; eauto.
    + apply Hij. eapply own_inj; eauto.
    + auto.
  - unfold A. auto.
  - intros i Hi. unfold prefix_kernel.
    destruct (unit_chunks_ok size bs p Hp Hs Hb i Hi) as (s & e & -> & Hse & Hiff).
    apply (wp_for _ _ _ (fun c _ m' =>
             (forall c' j, s <= c' < c -> clo c' <= j < N.min (chi c') size ->
                m' (dst, j) = Some (scan_val c' j)) /\
             (forall l, ~ (fst l = dst /\ exists c', s <= c' < c /\ clo c' <= snd l < N.min (chi c') size) ->
                m' l = m l))).
    + auto.
    + split; auto. intros; lia.
    + intros c [] m' kk Hc1 Hc2 [I1 I2] Hkk.
      destruct (proj1 (Hiff c) ltac:(lia)) as [Hcc Hcu].
      pose proof (po_cpb _ _ _ Hp).
      destruct (N.eqb_spec (p_cpb p) 0); [lia|].
      rewrite (chunk_bounds_ok size bs p Hp Hs Hb c Hcc).
      assert (Hown : forall j, clo c <= j < N.min (chi c) size -> own i j).
      { intros j Hj. exists c. auto. }
      assert (Hnew : forall j, clo c <= j < N.min (chi c) size ->
                ~ exists c', s <= c' < c /\ clo c' <= j < N.min (chi c') size).
      { intros j Hj (c' & Hc' & Hj'). apply (chunk_disjoint size bs p Hp Hs Hb c c' j); lia. }
      assert (Hbody : wp (A i) (W i)
        (loop (if reverse then rev (range_lt (clo c) (N.min (chi c) size))
               else range_lt (clo c) (N.min (chi c) size))
          (fun j acc k' => Rd (src, j) (fun x =>
             Wr (dst, j) (down (if exclusive then acc else rop acc (up x))) (k' (rop acc (up x)))))
          (acc0 c) (fun _ => kk tt))
        (fun mf => forall c j, c < p_count p -> c / p_wus p = i ->
              clo c <= j < N.min (chi c) size -> mf (dst, j) = Some (scan_val c j)) m').
      { assert (Hfin : forall m2,
          (forall j, clo c <= j < N.min (chi c) size -> m2 (dst, j) = Some (scan_val c j)) ->
          (forall l, ~ (fst l = dst /\ clo c <= snd l < N.min (chi c) size) -> m2 l = m' l) ->
          wp (A i) (W i) (kk tt) (fun mf => forall c j, c < p_count p -> c / p_wus p = i ->
              clo c <= j < N.min (chi c) size -> mf (dst, j) = Some (scan_val c j)) m2).
        { intros m2 J1 J2. apply Hkk. split.
          - intros c' j Hc' Hj. destruct (N.eq_dec c' c) as [->|Ne]; auto.
            rewrite J2. { apply I1; auto. lia. }
            cbn. intros [_ ?].
            apply (chunk_disjoint size bs p Hp Hs Hb c' c j Ne); lia.
          - intros l Hnl. rewrite J2.
            + apply I2. intros [E (c' & Hc' & Hj)]. apply Hnl. split; auto. exists c'. split; auto; lia.
            + intros [E Hj]. apply Hnl. split; auto. exists c. split; auto; lia. }
        destruct (N.le_gt_cases (N.min (chi c) size) (clo c)) as [Hle|Hgt].
        { rewrite range_lt_nil by auto. replace (if reverse then rev [] else []) with (@nil N)
            by (now destruct reverse). cbn. apply Hfin; auto. intros; lia. }
        destruct reverse eqn:Erev.
        - apply (wp_for_rev _ _ _ (fun j a m2 =>
             a = acc_fold (rev (slice xs j (chi c))) (acc0 c) /\
             (forall j', j <= j' < N.min (chi c) size -> m2 (dst, j') = Some (scan_val c j')) /\
             (forall l, ~ (fst l = dst /\ j <= snd l < N.min (chi c) size) -> m2 l = m' l))).
          + lia.
          + split; [|split]; auto; try (intros; lia).
            rewrite <- (slice_clamp xs _ (chi c)), Hl, slice_nil by lia. reflexivity.
          + intros j a m2 kk2 Hj1 Hj2 (-> & J1 & J2) Hkk2. cbn.
            split; [left; split; [reflexivity|cbn; apply Hown; lia]|].
            destruct (nth_error xs (N.to_nat j)) as [x|] eqn:E.
            2:{ apply nth_error_None in E. lia. }
            exists x. split.
            { rewrite J2, I2, Hh; auto.
              - cbn. intros [_ X]. revert X. apply Hnew. lia.
              - cbn. intros [_ X]. lia. }
            assert (Wj : W i (dst, j)). { split; [reflexivity|]. cbn. apply Hown. lia. }
            split; [right; left; auto|]. split; [auto|]. split.
            { rewrite J2, I2; [apply Hd; lia| |].
              - cbn. intros [_ X]. revert X. apply Hnew. lia.
              - cbn. intros [_ X]. lia. }
            assert (Es : rev (slice xs j (chi c)) = rev (slice xs (j + 1) (chi c)) ++ [x]).
            { rewrite (slice_cons xs j (chi c) x) by (auto; lia). reflexivity. }
            apply Hkk2. split; [|split].
            * rewrite Es, fold_left_app. reflexivity.
            * intros j' Hj'. destruct (N.eq_dec j' j) as [->|Ne].
              -- rewrite mset_eq. unfold scan_val, scan_part. rewrite Erev. do 2 f_equal.
                 destruct exclusive; auto. rewrite Es, fold_left_app. reflexivity.
              -- rewrite mset_neq by congruence. apply J1. lia.
            * intros l Hnl. rewrite mset_neq.
              -- apply J2. intros [X1 X2]. apply Hnl. split; auto. lia.
              -- intros ->. apply Hnl. cbn. split; auto. lia.
          + intros a m2 (_ & J1 & J2). apply Hfin; auto.
        - apply (wp_for _ _ _ (fun j a m2 =>
             a = acc_fold (slice xs (clo c) j) (acc0 c) /\
             (forall j', clo c <= j' < j -> m2 (dst, j') = Some (scan_val c j')) /\
             (forall l, ~ (fst l = dst /\ clo c <= snd l < j) -> m2 l = m' l))).
          + lia.
          + split; [|split]; auto; try (intros; lia).
            rewrite slice_nil by lia. reflexivity.
          + intros j a m2 kk2 Hj1 Hj2 (-> & J1 & J2) Hkk2. cbn.
            split; [left; split; [reflexivity|cbn; apply Hown; lia]|].
            destruct (nth_error xs (N.to_nat j)) as [x|] eqn:E.
            2:{ apply nth_error_None in E. lia. }
            exists x. split.
            { rewrite J2, I2, Hh; auto.
              - cbn. intros [_ X]. revert X. apply Hnew. lia.
              - cbn. intros [_ X]. lia. }
            assert (Wj : W i (dst, j)). { split; [reflexivity|]. cbn. apply Hown. lia. }
            split; [right; left; auto|]. split; [auto|]. split.
            { rewrite J2, I2; [apply Hd; lia| |].
              - cbn. intros [_ X]. revert X. apply Hnew. lia.
              - cbn. intros [_ X]. lia. }
            assert (Es : slice xs (clo c) (j + 1) = slice xs (clo c) j ++ [x])
              by (apply slice_snoc; auto; lia).
            apply Hkk2. split; [|split].
            * rewrite Es, fold_left_app. reflexivity.
            * intros j' Hj'. destruct (N.eq_dec j' j) as [->|Ne].
              -- rewrite mset_eq. unfold scan_val, scan_part. rewrite Erev. do 2 f_equal.
                 destruct exclusive; auto. rewrite Es, fold_left_app. reflexivity.
              -- rewrite mset_neq by congruence. apply J1. lia.
            * intros l Hnl. rewrite mset_neq.
              -- apply J2. intros [X1 X2]. apply Hnl. split; auto. lia.
              -- intros ->. apply Hnl. cbn. split; auto. lia.
          + intros a m2 (_ & J1 & J2). apply Hfin; auto. }
      destruct scratch as [b|].
      * destruct (Hsc b eq_refl) as [Hbd Hsv]. destruct (Hsv c Hcc) as (sv & Es & Ea).
        cbn [wp]. split; [right; right; cbn; auto|]. exists sv. split.
        { rewrite I2; auto. cbn. intros [X _]. congruence. }
        rewrite <- Ea. exact Hbody.
      * rewrite <- (Hnone eq_refl c Hcc). exact Hbody.
    + intros [] m' [I1 I2]. cbn. intros c j Hc Hcu Hj. apply I1; auto. apply Hiff. auto.
  - intros mf m' HP M1 M2. apply K.
    + intros c j Hc Hj. pose proof (chunk_unit size bs p Hp Hs Hb c Hc) as Hu.
      rewrite (M1 (c / p_wus p) (dst, j) Hu).
      * apply HP; auto.
      * split; auto. cbn. exists c. auto.
    + intros l Hnl. apply M2. intros i Hi (E & c & Hc & _ & Hj). apply Hnl. split; auto. lia.
Qed.

End Kernel.

Section Totals.
Context (size bs : N) (p : plan_t).
Hypothesis Hp : plan_ok size bs p.
Hypothesis Hs : size + bs - 1 < 2 ^ 32.
Hypothesis Hb : 2 <= bs <= size.
Local Notation clo := (lo bs (p_chunk p) (p_cpb p)).
Local Notation chi := (hi bs (p_chunk p) (p_cpb p)).
Context (xs : list T).

(** The chunks [n1 .. n2-1] of block [b] concatenate to a slice. *)
Lemma chunks_range b n1 n2 :
  n1 <= n2 -> n2 <= p_cpb p ->
  concat (map (fun t => slice xs (clo (b * p_cpb p + N.of_nat t)) (chi (b * p_cpb p + N.of_nat t)))
            (seq (N.to_nat n1) (N.to_nat (n2 - n1))))
  = slice xs (b * bs + N.min (n1 * p_chunk p) bs) (b * bs + N.min (n2 * p_chunk p) bs).
Proof.
  intros H1 H2.
  pose proof (chunks_of_block size bs p Hp Hs Hb xs b n1 ltac:(lia)) as E1.
  pose proof (chunks_of_block size bs p Hp Hs Hb xs b n2 ltac:(lia)) as E2.
  replace (N.to_nat n2) with (N.to_nat n1 + N.to_nat (n2 - n1))%nat in E2 by lia.
  rewrite seq_app, map_app, concat_app, E1 in E2. cbn [Nat.add] in E2.
  assert (L : n1 * p_chunk p <= n2 * p_chunk p) by (apply N.mul_le_mono_r; auto).
  rewrite <- (slice_app xs (b * bs) (b * bs + N.min (n1 * p_chunk p) bs)
             (b * bs + N.min (n2 * p_chunk p) bs)) in E2 by lia.
  apply app_inv_head in E2. exact E2.
Qed.

(** Chunk totals in a range of chunks. *)
Lemma totals_range (ys : list T) b n1 n2 :
  n1 <= n2 -> n2 <= p_cpb p -> b < nblocks size bs ->
  (forall c, c < p_count p -> nth_error ys (N.to_nat c) = Some (chunk_red up down init rop bs p xs c)) ->
  Forall2 reduces
    (map (fun t => slice xs (clo (b * p_cpb p + N.of_nat t)) (chi (b * p_cpb p + N.of_nat t)))
       (seq (N.to_nat n1) (N.to_nat (n2 - n1))))
    (slice ys (b * p_cpb p + n1) (b * p_cpb p + n2)).
Proof.
  intros H1 H2 Hbb Hys. pose proof (po_count _ _ _ Hp) as Hcnt.
  remember (N.to_nat (n2 - n1)) as k eqn:Ek. revert n2 H1 H2 Ek.
  induction k as [|k IH]; intros n2 H1 H2 Ek.
  - rewrite slice_nil by lia. constructor.
  - rewrite seq_S, map_app. cbn [map].
    replace (b * p_cpb p + n2) with (b * p_cpb p + (n2 - 1) + 1) by lia.
    rewrite (slice_snoc ys _ (b * p_cpb p + (n2 - 1))
               (chunk_red up down init rop bs p xs (b * p_cpb p + (n2 - 1)))).
    + apply Forall2_app.
      * apply IH; lia.
      * constructor; [|constructor].
        replace (b * p_cpb p + N.of_nat (N.to_nat n1 + k)) with (b * p_cpb p + (n2 - 1)) by lia.
        apply reduces_fold.
    + lia.
    + apply Hys. rewrite Hcnt. nia.
Qed.

End Totals.

Variables (ident : T) (tsize workers ideal : N).
Hypothesis Hid : ident = down init.
Hypothesis Hts : tsize = 1 \/ tsize = 2 \/ tsize = 4 \/ tsize = 8.
Hypothesis Hw : 1 <= workers < 2 ^ 32.
Hypothesis Hi : 16 <= ideal <= 2 ^ 31.

Notation scanned := (scanned up down init rop).

(** Effect of a prefix reduction of [xs] into [dst]. *)
Definition scanned_to (xs : list T) (bs : N) (exclusive reverse : bool) (dst : N)
    (m m' : mem T) : Prop :=
  (forall j, j < N.of_nat (length xs) ->
     exists v, m' (dst, j) = Some v /\ scanned xs bs exclusive reverse j v) /\
  (forall l, ~ (fst l = dst /\ snd l < N.of_nat (length xs)) -> m' l = m l).

Lemma block_prefix_reduce_ok fuel : forall fresh xs bs exclusive reverse src dst m,
  N.of_nat (length xs) + bs - 1 < 2 ^ 32 ->
  0 < bs <= N.of_nat (length xs) ->
  (bs = 1 -> exclusive = false -> src <> dst -> N.of_nat (length xs) * tsize < 2 ^ 32) ->
  bs < 8 ^ N.of_nat (S fuel) ->
  src < fresh -> dst < fresh ->
  fresh_from m fresh -> holds m src xs ->
  (forall j, j < N.of_nat (length xs) -> m (dst, j) <> None) ->
  exists cs,
    block_prefix_reduce up down init rop ident tsize workers ideal fuel fresh
      (N.of_nat (length xs)) bs exclusive reverse src dst = Cmds cs /\
    ensures cs (scanned_to xs bs exclusive reverse dst m) m.
Proof.
  induction fuel as [|fuel IH];
    intros fresh xs bs exclusive reverse src dst m Hsz Hbs Hone Hfuel Hsf Hdf Hfr Hh Hd.
  all: cbn [block_prefix_reduce].
  all: destruct (N.eqb_spec (N.of_nat (length xs)) 0); [lia|].
  all: destruct (N.eqb_spec bs 0); [lia|]; destruct (N.ltb_spec (N.of_nat (length xs)) bs); [lia|].
  all: cbn [orb].
  all: destruct (N.eqb_spec bs 1) as [E1|Hb1].
  1,3: eexists; split; [reflexivity|]; subst bs.
  1,2: assert (Hin : forall j x, nth_error xs (N.to_nat j) = Some x ->
                 scan_inputs xs 1 exclusive reverse j = if exclusive then [] else [x])
         by (intros j x Hx; unfold scan_inputs; rewrite N.div_1_r;
             destruct exclusive, reverse; rewrite ?N.mul_1_r;
             [apply slice_nil; lia|apply slice_nil; lia
             |rewrite (slice_snoc xs j j x), slice_nil by (auto; lia); reflexivity
             |rewrite (slice_snoc xs j j x), slice_nil by (auto; lia); reflexivity]).
  1,2: assert (Hsc : forall j x, nth_error xs (N.to_nat j) = Some x ->
                 scanned xs 1 exclusive reverse j (if exclusive then down init else x))
         by (intros j x Hx; unfold Red_Spec.scanned; rewrite (Hin j x Hx);
             assert (reduces (if exclusive then [] else [x]) (if exclusive then down init else x))
               by (destruct exclusive; [exact (red_parts up down init rop [] [] (Forall2_nil _))|apply red_one]);
             destruct reverse; [exists (if exclusive then [] else [x]); auto|auto]).
  1,2: assert (Hnth : forall j, j < N.of_nat (length xs) -> exists x, nth_error xs (N.to_nat j) = Some x)
         by (intros j Hj; destruct (nth_error xs (N.to_nat j)) as [x|] eqn:E;
             [eauto|apply nth_error_None in E; lia]).
  1,2: destruct exclusive.
  1,3: apply fill_launch; auto; intros m' M1 M2; cbn; split; auto;
       intros j Hj; destruct (Hnth j Hj) as [x Hx]; exists ident; split; [auto|];
       rewrite Hid; apply (Hsc j x Hx).
  1,2: destruct (N.eqb_spec src dst) as [<-|Hne];
       [cbn; split; auto; intros j Hj; destruct (Hnth j Hj) as [x Hx]; exists x;
        split; [rewrite Hh; auto|apply (Hsc j x Hx)]|].
  1,2: assert (Ed : u32 (N.of_nat (length xs) * tsize) / tsize = N.of_nat (length xs))
         by (rewrite u32_small by (apply Hone; auto); apply N.div_mul; lia).
  1,2: apply copy_launch with (xs := xs); rewrite ?Ed; auto; [lia|];
       intros m' M1 M2; cbn; split; auto;
       intros j Hj; destruct (Hnth j Hj) as [x Hx]; exists x;
       split; [rewrite M1; auto|apply (Hsc j x Hx)].
  (* general case *)
  all: destruct (plan_correct workers ideal (N.of_nat (length xs)) bs) as (p & Ep & Hp); auto; try lia.
  all: rewrite Ep.
  all: assert (Hs : N.of_nat (length xs) + bs - 1 < 2 ^ 32) by auto.
  all: assert (Hb : 2 <= bs <= N.of_nat (length xs)) by lia.
  all: destruct (N.ltb_spec 1 (p_cpb p)) as [Hc|Hc].
  1: { exfalso. destruct (po_split _ _ _ Hp Hc) as [? _].
       change (8 ^ N.of_nat 1) with 8 in Hfuel. lia. }
  (* one chunk per block *)
  1,3: assert (Hc1 : p_cpb p = 1) by (pose proof (po_cpb _ _ _ Hp); lia).
  1,2: eexists; split; [reflexivity|].
  1,2: apply (prefix_launch _ _ _ Hp Hs Hb exclusive reverse xs (fun _ => init) eq_refl);
       auto; try (intros; discriminate).
  1,2: intros m' M1 M2; cbn; split; auto.
  1,2: intros j Hj; destruct (chunk_exists _ _ _ Hp Hs Hb j Hj) as (c & Hcc & Hcj).
  1,2: rewrite (M1 c j) by (auto; lia); eexists; split; [reflexivity|].
  1,2: pose proof (chunk_of_elem bs (p_chunk p) (p_cpb p) c j ltac:(lia) Hcj) as Eb.
  1,2: pose proof (po_cover _ _ _ Hp) as Hcov; rewrite Hc1 in *.
  1,2: unfold Red_Spec.scanned, scan_val, scan_part, scan_inputs.
  1,2: rewrite Eb, Hc1 in *; unfold lo, hi in *; rewrite N.div_1_r, N.mod_1_r in *.
  1,2: replace (c * bs + 0 * p_chunk p) with (c * bs) in * by lia;
       replace (c * bs + N.min ((0 + 1) * p_chunk p) bs) with ((c + 1) * bs) in * by lia.
  1,2: destruct reverse;
       [eexists; split; [|apply reduces_fold]; symmetry; apply Permutation_rev
       |apply reduces_fold].
  (* several chunks per block *)
  destruct (po_split _ _ _ Hp Hc) as (S1 & S2 & S3).
  pose proof (po_count _ _ _ Hp) as Hcnt.
  set (nb := nblocks (N.of_nat (length xs)) bs) in *.
  assert (Hnb : 0 < nb).
  { unfold nb. rewrite nblocks_cdiv. apply cdiv_pos; lia. }
  assert (Hcount : p_cpb p <= p_count p) by nia.
  set (ys := map (fun t => chunk_red up down init rop bs p xs (N.of_nat t)) (seq 0 (N.to_nat (p_count p)))).
  assert (Hys : N.of_nat (length ys) = p_count p).
  { unfold ys. rewrite map_length, seq_length. lia. }
  assert (Hyn : forall c, c < p_count p ->
            nth_error ys (N.to_nat c) = Some (chunk_red up down init rop bs p xs c)).
  { intros c Hcc. unfold ys. rewrite nth_error_map, (nth_error_nth' _ O) by (rewrite seq_length; lia).
    rewrite seq_nth by lia. cbn. do 2 f_equal. lia. }
  set (m1 := fun l : loc => if (fst l =? fresh) then nth_error ys (N.to_nat (snd l)) else m l).
  assert (X : forall m2,
     (forall c, c < p_count p -> m2 (fresh, c) = Some (chunk_red up down init rop bs p xs c)) ->
     (forall c, p_count p <= c -> m2 (fresh, c) = None) ->
     (forall l, fst l <> fresh -> m2 l = m l) ->
     exists cs, block_prefix_reduce up down init rop ident tsize workers ideal fuel (fresh + 1)
                  (p_count p) (p_cpb p) true reverse fresh fresh = Cmds cs /\
                ensures cs (scanned_to ys (p_cpb p) true reverse fresh m2) m2).
  { intros m2 A1 A2 A3. rewrite <- Hys.
    apply IH; try lia.
    - rewrite Nat2N.inj_succ, N.pow_succ_r' in Hfuel. lia.
    - intros b i Hbi. rewrite A3 by (cbn; lia). apply Hfr. lia.
    - intros i. destruct (N.lt_ge_cases i (p_count p)).
      + rewrite A1, Hyn; auto.
      + rewrite A2 by auto. symmetry. apply nth_error_None. lia.
    - intros j Hj. rewrite A1 by lia. discriminate. }
  assert (Xm1 : exists cs, block_prefix_reduce up down init rop ident tsize workers ideal fuel (fresh + 1)
                  (p_count p) (p_cpb p) true reverse fresh fresh = Cmds cs).
  { destruct (X m1) as (cs & E & _); eauto.
    - intros c Hcc. unfold m1. cbn. rewrite N.eqb_refl. auto.
    - intros c Hcc. unfold m1. cbn. rewrite N.eqb_refl. apply nth_error_None. lia.
    - intros l Hl. unfold m1. destruct (N.eqb_spec (fst l) fresh); congruence. }
  destruct Xm1 as [cs Ecs]. rewrite Ecs. eexists; split; [reflexivity|].
  unfold alloc_elems. rewrite (alloc_elems_n tsize Hts) by lia.
  intros m0 (A1 & A2 & A3).
  apply reduce_launch with (xs := xs); auto; try lia.
  { intros i. rewrite A3 by (cbn; lia). apply Hh. }
  { intros c Hcc. destruct (A1 c Hcc) as [v ->]. discriminate. }
  intros m2 B1 B2. apply ensures_app.
  destruct (X m2) as (cs' & E' & HX); auto.
  { intros c Hcc. rewrite B2; auto. cbn. lia. }
  { intros l Hl. rewrite B2 by tauto. auto. }
  rewrite Ecs in E'. injection E' as <-.
  eapply ensures_weaken; [|exact HX].
  intros m3 [R1 R2]. rewrite Hys in R1, R2.
  assert (Hm3 : forall l, fst l <> fresh -> m3 l = m l).
  { intros l Hl. rewrite R2 by tauto. rewrite B2 by tauto. auto. }
  set (acc0 := fun c => match m3 (fresh, c) with Some s => up s | None => init end).
  apply (prefix_launch _ _ _ Hp Hs Hb exclusive reverse xs acc0 eq_refl).
  { intros i. rewrite Hm3 by (cbn; lia). apply Hh. }
  { intros b Eb. injection Eb as <-. split; [lia|]. intros c Hcc.
    destruct (R1 c Hcc) as (v & Ev & _). exists v. split; auto. unfold acc0. now rewrite Ev. }
  { discriminate. }
  { intros j Hj. rewrite Hm3 by (cbn; lia). auto. }
  intros m4 M1 M2. cbn. split.
  - intros j Hj. destruct (chunk_exists _ _ _ Hp Hs Hb j Hj) as (c & Hcc & Hcj).
    exists (scan_val bs p exclusive reverse xs acc0 c j).
    split.
    { unfold mfree. cbn. destruct (N.eqb_spec dst fresh); [lia|]. apply M1; auto. lia. }
    destruct (R1 c Hcc) as (s & Es & Hsc).
    pose proof (chunk_of_elem bs (p_chunk p) (p_cpb p) c j ltac:(lia) Hcj) as Eb.
    pose proof (chunk_block _ _ _ Hp Hs Hb c Hcc) as Hbb.
    pose proof (chunk_within _ _ _ Hp Hs Hb c) as Hwi.
    pose proof (N.div_mod c (p_cpb p) ltac:(lia)) as Dm.
    pose proof (po_cover _ _ _ Hp) as Hcov.
    unfold scan_val. replace (acc0 c) with (up s) by (unfold acc0; now rewrite Es).
    unfold Red_Spec.scanned, scan_inputs, scan_part in *. rewrite Eb.
    set (b := c / p_cpb p) in *. set (w := c mod p_cpb p) in *.
    pose proof (chunk_rel _ _ _ Hp Hs Hb c) as Hrel. fold w in Hrel.
    destruct reverse.
    + destruct Hsc as (zs & Pz & Rz).
      pose proof (totals_range _ _ _ Hp Hs Hb xs ys b (w + 1) (p_cpb p)
                    ltac:(lia) ltac:(lia) Hbb Hyn) as F.
      replace (b * p_cpb p + (w + 1)) with (c + 1) in F by lia.
      replace (b * p_cpb p + p_cpb p) with ((b + 1) * p_cpb p) in F by lia.
      apply Permutation_sym in Pz.
      destruct (Forall2_perm _ _ _ Pz _ F) as (xss' & Px & F').
      eexists. split; [|apply reduces_continue; eapply reduces_subst; eauto].
      apply concat_perm in Px.
      rewrite (chunks_range _ _ _ Hp Hs Hb xs b (w + 1) (p_cpb p)) in Px by lia.
      eapply perm_trans.
      { apply Permutation_app; [symmetry; exact Px|apply Permutation_sym, Permutation_rev]. }
      eapply perm_trans; [apply Permutation_app_comm|].
      unfold hi. fold b w.
      rewrite slice_app.
      * replace (b * bs + N.min (p_cpb p * p_chunk p) bs) with ((b + 1) * bs) by lia. reflexivity.
      * unfold hi in Hcj. fold b w in Hcj. destruct exclusive; lia.
      * assert ((w + 1) * p_chunk p <= p_cpb p * p_chunk p) by (apply N.mul_le_mono_r; lia). lia.
    + pose proof (totals_range _ _ _ Hp Hs Hb xs ys b 0 w
                    ltac:(lia) ltac:(lia) Hbb Hyn) as F.
      replace (b * p_cpb p + 0) with (b * p_cpb p) in F by lia.
      replace (b * p_cpb p + w) with c in F by lia.
      pose proof (reduces_subst up down init rop _ _ Hsc _ F) as Rz.
      rewrite (chunks_range _ _ _ Hp Hs Hb xs b 0 w) in Rz by lia.
      pose proof (reduces_continue _ _ (slice xs (lo bs (p_chunk p) (p_cpb p) c)
                                          (if exclusive then j else j + 1)) Rz) as Rc.
      unfold lo in *. fold b w in Rc, Hcj |- *.
      replace (b * bs + N.min (0 * p_chunk p) bs) with (b * bs) in Rc by lia.
      replace (b * bs + N.min (w * p_chunk p) bs) with (b * bs + w * p_chunk p) in Rc by lia.
      rewrite slice_app in Rc; [exact Rc|lia|]. destruct exclusive; lia.
  - intros l Hl. unfold mfree. destruct (N.eqb_spec (fst l) fresh) as [E|E].
    + symmetry. destruct l as [lb li]. cbn in E. subst lb. apply Hfr. lia.
    + rewrite M2 by auto. auto.
Qed.

End R.
