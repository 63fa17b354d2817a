(** Index arithmetic of the work division, loops over ranges, slices. *)
From Verif Require Import Base Arith_Model Arith_Proofs Par_Model Par_Proofs Red_Model Red_Spec.
Local Open Scope N_scope.

Lemma nblocks_cdiv n bs : nblocks n bs = cdiv n bs.
Proof. reflexivity. Qed.

(** ** Ranges *)

Lemma range_lt_length s e : length (range_lt s e) = N.to_nat (e - s).
Proof. unfold range_lt. now rewrite map_length, seq_length. Qed.

Lemma range_lt_nil s e : e <= s -> range_lt s e = [].
Proof. intros H. unfold range_lt. replace (e - s) with 0 by lia. reflexivity. Qed.

Lemma range_lt_snoc s j : s <= j -> range_lt s (j + 1) = range_lt s j ++ [j].
Proof.
  intros H. unfold range_lt.
  replace (N.to_nat (j + 1 - s)) with (S (N.to_nat (j - s))) by lia.
  rewrite seq_S, map_app. cbn [map]. do 2 f_equal. lia.
Qed.

Lemma range_lt_cons s e : s < e -> range_lt s e = s :: range_lt (s + 1) e.
Proof.
  intros H. unfold range_lt.
  replace (N.to_nat (e - s)) with (S (N.to_nat (e - (s + 1)))) by lia.
  cbn [seq map]. f_equal; [lia|]. rewrite <- seq_shift, map_map.
  apply map_ext. intros. lia.
Qed.

Lemma range_lt_In s e j : In j (range_lt s e) <-> s <= j < e.
Proof.
  unfold range_lt. rewrite in_map_iff. split.
  - intros (t & <- & H). apply in_seq in H. lia.
  - intros H. exists (N.to_nat (j - s)). rewrite in_seq. lia.
Qed.

(** A loop over a range by an invariant indexed by the loop variable. *)
Lemma wp_for {V S} (A W : loc -> Prop) (body : N -> S -> (S -> prog V) -> prog V)
    (I : N -> S -> mem V -> Prop) s e (k : S -> prog V) Q st m :
  s <= e -> I s st m ->
  (forall j st m kk, s <= j -> j < e -> I j st m ->
     (forall st' m', I (j + 1) st' m' -> wp A W (kk st') Q m') ->
     wp A W (body j st kk) Q m) ->
  (forall st' m', I e st' m' -> wp A W (k st') Q m') ->
  wp A W (loop (range_lt s e) body st k) Q m.
Proof.
  intros Hse H0 Hb Hk.
  remember (N.to_nat (e - s)) as n eqn:En.
  revert s st m Hse H0 En Hb. induction n as [|n IH]; intros s st m Hse H0 En Hb.
  - assert (s = e) by lia. subst s. rewrite range_lt_nil by lia. cbn. auto.
  - rewrite range_lt_cons by lia. cbn [loop]. eapply Hb; eauto; try lia.
    intros st' m' H'. apply IH; auto; try lia.
    intros. eapply Hb; eauto. lia.
Qed.

Lemma wp_for_rev {V S} (A W : loc -> Prop) (body : N -> S -> (S -> prog V) -> prog V)
    (I : N -> S -> mem V -> Prop) s e (k : S -> prog V) Q st m :
  s <= e -> I e st m ->
  (forall j st m kk, s <= j -> j < e -> I (j + 1) st m ->
     (forall st' m', I j st' m' -> wp A W (kk st') Q m') ->
     wp A W (body j st kk) Q m) ->
  (forall st' m', I s st' m' -> wp A W (k st') Q m') ->
  wp A W (loop (rev (range_lt s e)) body st k) Q m.
Proof.
  intros Hse H0 Hb Hk.
  remember (N.to_nat (e - s)) as n eqn:En.
  revert e st m Hse H0 En Hb. induction n as [|n IH]; intros e st m Hse H0 En Hb.
  - assert (s = e) by lia. subst s. rewrite range_lt_nil by lia. cbn. auto.
  - replace e with ((e - 1) + 1) by lia. rewrite range_lt_snoc by lia.
    rewrite rev_app_distr. cbn [rev app loop].
    eapply Hb; try lia.
    + replace (e - 1 + 1) with e by lia. exact H0.
    + intros st' m' H'. apply IH; auto; try lia.
      intros. eapply Hb; eauto. lia.
Qed.

(** ** Slices *)

Lemma slice_length {A} (xs : list A) a b :
  length (slice xs a b) = N.to_nat (N.min b (N.of_nat (length xs)) - a).
Proof. unfold slice. rewrite firstn_length, skipn_length. lia. Qed.

Lemma skipn_add {A} (xs : list A) a b : skipn a (skipn b xs) = skipn (b + a) xs.
Proof. revert b. induction xs; intros [|b]; cbn; auto. destruct a; auto. Qed.

Lemma slice_app {A} (xs : list A) a b c :
  a <= b -> b <= c -> slice xs a b ++ slice xs b c = slice xs a c.
Proof.
  intros Hab Hbc. unfold slice.
  replace (N.to_nat (c - a)) with (N.to_nat (b - a) + N.to_nat (c - b))%nat by lia.
  rewrite <- (firstn_skipn (N.to_nat (b - a)) (skipn (N.to_nat a) xs)) at 2.
  destruct (Nat.le_gt_cases (N.to_nat (b - a)) (length (skipn (N.to_nat a) xs))).
  - rewrite firstn_app, firstn_firstn, firstn_length.
    replace (Nat.min _ (N.to_nat (b - a))) with (N.to_nat (b - a)) by lia.
    replace (_ - _)%nat with (N.to_nat (c - b)) by lia. f_equal. f_equal.
    rewrite skipn_add. f_equal. lia.
  - rewrite (skipn_all2 (skipn (N.to_nat a) xs)) by lia. rewrite app_nil_r.
    rewrite firstn_firstn.
    rewrite (skipn_all2 xs (n := N.to_nat b)).
    + rewrite firstn_nil, app_nil_r. f_equal. lia.
    + rewrite skipn_length in H. lia.
Qed.

Lemma slice_nil {A} (xs : list A) a b : b <= a -> slice xs a b = [].
Proof. intros H. unfold slice. replace (b - a) with 0 by lia. reflexivity. Qed.

Lemma slice_snoc {A} (xs : list A) a j x :
  a <= j -> nth_error xs (N.to_nat j) = Some x ->
  slice xs a (j + 1) = slice xs a j ++ [x].
Proof.
  intros Ha Hx. rewrite <- (slice_app xs a j (j + 1)) by lia. f_equal.
  unfold slice. replace (N.to_nat (j + 1 - j)) with 1%nat by lia.
  revert Hx. generalize (N.to_nat j). clear. induction xs as [|y xs IH]; intros [|n] H; cbn in *;
    try discriminate; auto. congruence.
Qed.

Lemma slice_cons {A} (xs : list A) j b x :
  j < b -> nth_error xs (N.to_nat j) = Some x ->
  slice xs j b = x :: slice xs (j + 1) b.
Proof.
  intros Hj Hx. rewrite <- (slice_app xs j (j + 1) b) by lia.
  rewrite (slice_snoc xs j j x) by (auto; lia). rewrite slice_nil by lia. reflexivity.
Qed.

Lemma slice_clamp {A} (xs : list A) a b :
  slice xs a (N.min b (N.of_nat (length xs))) = slice xs a b.
Proof.
  unfold slice. destruct (N.le_gt_cases b (N.of_nat (length xs))).
  - f_equal. lia.
  - rewrite !firstn_all2; auto; rewrite skipn_length; lia.
Qed.

Lemma slice_all {A} (xs : list A) b : N.of_nat (length xs) <= b -> slice xs 0 b = xs.
Proof.
  intros H. unfold slice. change (N.to_nat 0) with O. cbn [skipn].
  apply firstn_all2. lia.
Qed.

Lemma nth_error_slice {A} (xs : list A) a b k :
  a + N.of_nat k < b -> nth_error (slice xs a b) k = nth_error xs (N.to_nat a + k).
Proof.
  intros H. unfold slice.
  assert (forall (l : list A) n, (k < n)%nat -> nth_error (firstn n l) k = nth_error l k) as F.
  { clear. induction k; intros [|x l] [|n] H; cbn; auto; try lia. apply IHk. lia. }
  rewrite F by lia.
  generalize (N.to_nat a). clear. induction xs; intros [|n]; cbn; auto.
  destruct k; auto.
Qed.

(** ** The work division *)

(** Exact element range of chunk [c]. *)
Definition lo (bs chunk cpb c : N) : N := c / cpb * bs + c mod cpb * chunk.
Definition hi (bs chunk cpb c : N) : N :=
  c / cpb * bs + N.min ((c mod cpb + 1) * chunk) bs.

Record plan_ok (size bs : N) (p : plan_t) : Prop := {
  po_chunk : 0 < p_chunk p;
  po_cpb : 0 < p_cpb p;
  po_cover : bs <= p_cpb p * p_chunk p;
  po_tight : (p_cpb p - 1) * p_chunk p < bs;
  po_count : p_count p = nblocks size bs * p_cpb p;
  po_wus : 0 < p_wus p;
  po_units : p_count p <= p_units p * p_wus p;
  po_last : (p_units p - 1) * p_wus p < p_count p;
  po_small : p_count p + p_wus p < 2 ^ 32;
  po_size : nblocks size bs * bs <= size + bs - 1;
  po_split : 1 < p_cpb p -> p_cpb p * 8 <= bs /\ p_count p * 8 < 2 ^ 32 /\ p_count p + p_cpb p - 1 < 2 ^ 32;
  po_sum : bs + p_chunk p <= 2 ^ 32
}.

Lemma plan_correct workers ideal size bs :
  1 <= workers < 2 ^ 32 -> 16 <= ideal <= 2 ^ 31 -> 2 <= bs <= size ->
  size + bs - 1 < 2 ^ 32 ->
  exists p, plan workers ideal size bs = Some p /\ plan_ok size bs p.
Proof.
  intros Hw Hi Hb Hs.
  assert (Hbs : bs <= 2 ^ 31) by lia.
  pose proof (cdiv_ge size bs ltac:(lia)) as B1.
  pose proof (cdiv_upper size bs ltac:(lia)) as B2.
  pose proof (cdiv_pos size bs ltac:(lia) ltac:(lia)) as B3.
  set (bc := cdiv size bs) in *.
  unfold plan. rewrite ceil_div_small by lia. cbn [bind].
  fold bc.
  set (chunk := if (_ && _)%bool then ideal else bs).
  assert (Hc : (chunk = bs) \/ (chunk = ideal /\ (bs <= ideal \/ 2 * ideal < bs))).
  { unfold chunk. destruct (N.ltb_spec (u32 (2 * ideal)) bs); cbn [andb]; auto.
    destruct (_ <? _); cbn [andb]; auto. right. split; auto.
    destruct (N.eq_dec ideal (2 ^ 31)); [left; lia|].
    rewrite u32_small in H by lia. auto. }
  assert (Hc0 : 0 < chunk <= 2 ^ 31) by lia.
  clearbody chunk.
  rewrite ceil_div_small by lia. cbn [bind].
  pose proof (cdiv_ge bs chunk ltac:(lia)) as C1.
  pose proof (cdiv_upper bs chunk ltac:(lia)) as C2.
  pose proof (cdiv_pos bs chunk ltac:(lia) ltac:(lia)) as C3.
  assert (C4 : cdiv bs chunk = 1 \/ (1 < cdiv bs chunk /\ chunk = ideal /\ 2 * ideal < bs)).
  { destruct (N.eq_dec (cdiv bs chunk) 1); auto. right.
    destruct Hc as [->|[-> [H|H]]].
    - exfalso. apply n. pose proof (proj2 (cdiv_le_iff bs bs 1 ltac:(lia))). lia.
    - exfalso. apply n. pose proof (proj2 (cdiv_le_iff bs ideal 1 ltac:(lia))). lia.
    - split; [lia|auto]. }
  set (cpb := cdiv bs chunk) in *.
  assert (C5 : cpb * 8 <= bs \/ cpb = 1).
  { destruct C4 as [|(H & -> & Hb2)]; auto. left. nia. }
  assert (Hcount : bc * cpb < 2 ^ 31 + 1).
  { destruct C5 as [H|H]; [|rewrite H; nia].
    assert (bc * (cpb * 8) <= bc * bs) by (apply N.mul_le_mono_l; auto). lia. }
  assert (Hcount0 : 1 <= bc * cpb) by nia.
  assert (Hsplit : 1 < cpb -> cpb * 8 <= bs /\ bc * cpb * 8 < 2 ^ 32 /\ bc * cpb + cpb - 1 < 2 ^ 32).
  { intros H. destruct C5 as [H5|]; [|lia].
    assert (bc * (cpb * 8) <= bc * bs) by (apply N.mul_le_mono_l; auto). lia. }
  rewrite (u32_small (bc * cpb)) by lia.
  set (count := bc * cpb) in *.
  assert (Htight : (cpb - 1) * chunk < bs).
  { destruct C4 as [->|C4]; [lia|]. nia. }
  destruct (N.ltb_spec 1 workers).
  - rewrite ceil_div_small by lia. cbn [bind].
    pose proof (cdiv_pos ideal chunk ltac:(lia) ltac:(lia)) as D1.
    set (wus := N.min (cdiv ideal chunk) count).
    assert (D2 : 1 <= wus <= count) by lia.
    assert (D3 : count + wus - 1 < 2 ^ 32).
    { destruct (N.eq_dec count (2 ^ 31)); lia. }
    rewrite ceil_div_small by lia. cbn [bind].
    pose proof (cdiv_ge count wus ltac:(lia)) as E1.
    pose proof (cdiv_upper count wus ltac:(lia)) as E2.
    pose proof (cdiv_pos count wus ltac:(lia) ltac:(lia)) as E3.
    eexists; split; [reflexivity|].
    constructor; cbn [p_chunk p_cpb p_count p_units p_wus]; auto; try lia.
    (* count + wus < 2^32 *)
    + destruct (N.eq_dec count (2 ^ 31)); [|lia].
      assert (wus <= cdiv ideal chunk) by lia.
      assert (cdiv ideal chunk <= ideal) by (apply cdiv_le_self; lia).
      (* chunk >= 2 *)
      assert (2 <= chunk) by lia.
      assert (cdiv ideal chunk <= 2 ^ 30) by (apply cdiv_le_iff; lia). lia.
  - eexists; split; [reflexivity|].
    constructor; cbn [p_chunk p_cpb p_count p_units p_wus]; auto; try lia.
    destruct (N.eq_dec count (2 ^ 31)); [|lia].
    exfalso.
    (* count = 2^31 is impossible: count <= (size + bs - 1) / 2 < 2^31 *)
    destruct C5 as [H5|H5].
    + assert (bc * (cpb * 8) <= bc * bs) by (apply N.mul_le_mono_l; auto). lia.
    + assert (count = bc) by (unfold count; rewrite H5; lia).
      assert (bc * 2 <= bc * bs) by (apply N.mul_le_mono_l; lia). lia.
Qed.

Section Chunks.
Context (size bs : N) (p : plan_t).
Hypothesis Hp : plan_ok size bs p.
Hypothesis Hs : size + bs - 1 < 2 ^ 32.
Hypothesis Hb : 2 <= bs <= size.
Local Notation chunk := (p_chunk p).
Local Notation cpb := (p_cpb p).

Lemma chunk_block c : c < p_count p -> c / cpb < nblocks size bs.
Proof.
  intros Hc. rewrite (po_count _ _ _ Hp) in Hc. pose proof (po_cpb _ _ _ Hp).
  apply N.div_lt_upper_bound; [lia|]. lia.
Qed.

Lemma chunk_within c : c mod cpb < cpb.
Proof. apply N.mod_lt. pose proof (po_cpb _ _ _ Hp). lia. Qed.

Lemma chunk_off c : c < p_count p -> (c / cpb + 1) * bs <= size + bs - 1.
Proof.
  intros Hc. pose proof (chunk_block c Hc). pose proof (po_size _ _ _ Hp).
  assert ((c / cpb + 1) * bs <= nblocks size bs * bs) by (apply N.mul_le_mono_r; lia). lia.
Qed.

Lemma chunk_rel c : c mod cpb * chunk < bs.
Proof.
  pose proof (chunk_within c). pose proof (po_tight _ _ _ Hp).
  assert (c mod cpb * chunk <= (cpb - 1) * chunk) by (apply N.mul_le_mono_r; lia). lia.
Qed.

Lemma chunk_bounds_ok c :
  c < p_count p ->
  chunk_bounds size bs p c = (lo bs chunk cpb c, N.min (hi bs chunk cpb c) size).
Proof.
  intros Hc. pose proof (chunk_off c Hc). pose proof (chunk_rel c). pose proof (po_sum _ _ _ Hp).
  pose proof (po_chunk _ _ _ Hp).
  unfold chunk_bounds, lo, hi.
  rewrite (u32_small (c mod cpb * chunk)) by lia.
  rewrite (u32_small (c / cpb * bs)) by lia.
  rewrite (u32_small (c mod cpb * chunk + chunk)) by lia.
  replace (c mod cpb * chunk + chunk) with ((c mod cpb + 1) * chunk) by lia.
  rewrite !u32_small by lia. f_equal; lia.
Qed.

Lemma lo_lt_hi c : lo bs chunk cpb c < hi bs chunk cpb c.
Proof.
  pose proof (chunk_rel c). pose proof (po_chunk _ _ _ Hp). unfold lo, hi. lia.
Qed.

(** Chunks are ordered and do not overlap. *)
Lemma hi_le_lo c c' : c < c' -> hi bs chunk cpb c <= lo bs chunk cpb c'.
Proof.
  intros H. pose proof (po_cpb _ _ _ Hp) as H0. unfold lo, hi.
  assert (c / cpb <= c' / cpb) by (apply N.div_le_mono; lia).
  destruct (N.eq_dec (c / cpb) (c' / cpb)) as [E|E].
  - rewrite <- E.
    assert (c mod cpb + 1 <= c' mod cpb).
    { pose proof (N.div_mod c cpb ltac:(lia)). pose proof (N.div_mod c' cpb ltac:(lia)).
      rewrite E in *. lia. }
    assert ((c mod cpb + 1) * chunk <= c' mod cpb * chunk) by (apply N.mul_le_mono_r; auto).
    lia.
  - assert ((c / cpb + 1) * bs <= c' / cpb * bs) by (apply N.mul_le_mono_r; lia). lia.
Qed.

Lemma chunk_disjoint c c' j :
  c <> c' -> lo bs chunk cpb c <= j < hi bs chunk cpb c ->
  ~ lo bs chunk cpb c' <= j < hi bs chunk cpb c'.
Proof.
  intros H H1 H2. destruct (N.lt_total c c') as [L|[L|L]]; auto.
  - pose proof (hi_le_lo _ _ L). lia.
  - pose proof (hi_le_lo _ _ L). lia.
Qed.

(** Every element lies in a chunk. *)
Lemma chunk_exists j : j < size ->
  exists c, c < p_count p /\ lo bs chunk cpb c <= j < hi bs chunk cpb c.
Proof.
  intros Hj. pose proof (po_cpb _ _ _ Hp) as H0. pose proof (po_chunk _ _ _ Hp) as H1.
 
  pose proof (N.div_mod j bs ltac:(lia)) as D. pose proof (N.mod_lt j bs ltac:(lia)) as M.
  set (b := j / bs) in *. set (r := j mod bs) in *.
  pose proof (N.div_mod r chunk ltac:(lia)) as D2.
  pose proof (N.mod_lt r chunk ltac:(lia)) as M2.
  assert (Q : r / chunk < cpb).
  { apply N.div_lt_upper_bound; [lia|]. pose proof (po_cover _ _ _ Hp). lia. }
  exists (b * cpb + r / chunk).
  assert (E1 : (b * cpb + r / chunk) / cpb = b).
  { rewrite N.div_add_l by lia. rewrite (N.div_small (r / chunk)) by auto. lia. }
  assert (E2 : (b * cpb + r / chunk) mod cpb = r / chunk).
  { rewrite N.add_comm, N.mod_add by lia. apply N.mod_small. auto. }
  split.
  - rewrite (po_count _ _ _ Hp).
    assert (b < nblocks size bs).
    { rewrite nblocks_cdiv. apply N.nle_gt. rewrite cdiv_le_iff by lia. lia. }
    nia.
  - unfold lo, hi. rewrite E1, E2. lia.
Qed.

Lemma unit_chunks_ok i :
  i < p_units p ->
  exists s e, unit_chunks p i = range_lt s e /\ s <= e /\
    (forall c, s <= c < e <-> c < p_count p /\ c / p_wus p = i).
Proof.
  intros Hi. pose proof (po_wus _ _ _ Hp). pose proof (po_last _ _ _ Hp).
  pose proof (po_small _ _ _ Hp).
  assert (i * p_wus p <= (p_units p - 1) * p_wus p) by (apply N.mul_le_mono_r; lia).
  unfold unit_chunks. rewrite (u32_small (i * p_wus p)) by lia.
  rewrite u32_small by lia.
  eexists _, _. split; [reflexivity|]. split; [lia|].
  intros c. split.
  - intros Hc. split; [lia|]. symmetry. apply (N.div_unique c (p_wus p) i (c - i * p_wus p)); lia.
  - intros [Hc Hd]. pose proof (N.div_mod c (p_wus p) ltac:(lia)).
    pose proof (N.mod_lt c (p_wus p) ltac:(lia)). rewrite Hd in *. lia.
Qed.

Lemma chunk_unit c : c < p_count p -> c / p_wus p < p_units p.
Proof.
  intros Hc. pose proof (po_wus _ _ _ Hp). pose proof (po_units _ _ _ Hp).
  apply N.div_lt_upper_bound; lia.
Qed.

(** The chunks of a block, concatenated, are the block. *)
Lemma chunks_of_block {A} (xs : list A) b n :
  n <= cpb ->
  concat (map (fun t => slice xs (lo bs chunk cpb (b * cpb + N.of_nat t))
                                 (hi bs chunk cpb (b * cpb + N.of_nat t)))
            (seq 0 (N.to_nat n)))
  = slice xs (b * bs) (b * bs + N.min (n * chunk) bs).
Proof.
  pose proof (po_cpb _ _ _ Hp) as H0.
  pose proof (po_tight _ _ _ Hp) as H1.
  intros Hn. rewrite <- (N2Nat.id n) in *. set (k := N.to_nat n) in *. clearbody k.
  rewrite Nat2N.id. clear n. induction k as [|k IH].
  - cbn [seq map concat]. rewrite slice_nil; auto. lia.
  - rewrite seq_S, map_app, concat_app. cbn [map concat Nat.add].
    rewrite app_nil_r, IH by lia.
    assert (E1 : (b * cpb + N.of_nat k) / cpb = b).
    { rewrite N.div_add_l by lia. rewrite (N.div_small (N.of_nat k)) by lia. lia. }
    assert (E2 : (b * cpb + N.of_nat k) mod cpb = N.of_nat k).
    { rewrite N.add_comm, N.mod_add by lia. apply N.mod_small. lia. }
    unfold lo at 1, hi at 1. rewrite E1, E2.
    assert (N.of_nat k * chunk < bs).
    { assert (N.of_nat k * chunk <= (cpb - 1) * chunk) by (apply N.mul_le_mono_r; lia). lia. }
    replace (N.min (N.of_nat k * chunk) bs) with (N.of_nat k * chunk) by lia.
    rewrite slice_app by lia. f_equal; lia.
Qed.

End Chunks.

(** ** Copying *)

Lemma copy_launch {T} tsize bytes (xs : list T) src dst cs Q (m : mem T) :
  src <> dst -> holds m src xs -> bytes / tsize <= N.of_nat (length xs) ->
  (forall j, j < bytes / tsize -> m (dst, j) <> None) ->
  (forall m',
     (forall j, j < bytes / tsize -> m' (dst, j) = nth_error xs (N.to_nat j)) ->
     (forall l, ~ (fst l = dst /\ snd l < bytes / tsize) -> m' l = m l) ->
     ensures cs Q m') ->
  ensures (copy_cmd tsize src dst bytes :: cs) Q m.
Proof.
  intros Hsd Hh Hlen Hd K. unfold copy_cmd.
  set (n := bytes / tsize) in *.
  set (W := fun (l : loc) => fst l = dst /\ snd l < n).
  eapply (par_wp (fun _ l => fst l = src \/ W l) (fun _ => W)
           (fun _ mf => (forall j, j < n -> mf (dst, j) = nth_error xs (N.to_nat j)))).
  - cbn [length]. intros; lia.
  - auto.
  - intros [|i] q Hq; cbn in Hq; [|destruct i; discriminate]. injection Hq as <-.
    apply (wp_for _ _ _ (fun j _ m' =>
             (forall j', j' < j -> m' (dst, j') = nth_error xs (N.to_nat j')) /\
             (forall l, ~ (fst l = dst /\ snd l < j) -> m' l = m l))).
    + lia.
    + split; auto. intros; lia.
    + intros j [] m' kk Hj1 Hj2 [I1 I2] Hkk. cbn.
      split; [auto|].
      destruct (nth_error xs (N.to_nat j)) as [x|] eqn:E.
      2:{ apply nth_error_None in E. lia. }
      exists x. split.
      { rewrite I2, Hh; auto. cbn. intros []; congruence. }
      split; [right; split; auto|]. split; [split; auto|]. split.
      { rewrite I2; auto. cbn. lia. }
      apply Hkk. split.
      * intros j' Hj'. destruct (N.eq_dec j' j) as [->|Ne].
        -- rewrite mset_eq. auto.
        -- rewrite mset_neq by congruence. apply I1. lia.
      * intros l Hl. rewrite mset_neq.
        -- apply I2. intros [? ?]. apply Hl. split; auto. lia.
        -- intros ->. apply Hl. cbn. split; auto. lia.
    + intros [] m' [I1 I2]. cbn. auto.
  - cbn [length]. intros mf m' HP [M1 M2]. apply K.
    + intros j Hj. rewrite (M1 O (dst, j)); auto. split; auto.
    + intros l Hl. apply M2. intros i Hi [? ?]. apply Hl; auto.
Qed.

Lemma fill_launch {T} (v : T) size dst cs Q (m : mem T) :
  (forall j, j < size -> m (dst, j) <> None) ->
  (forall m',
     (forall j, j < size -> m' (dst, j) = Some v) ->
     (forall l, ~ (fst l = dst /\ snd l < size) -> m' l = m l) ->
     ensures cs Q m') ->
  ensures (fill_cmd dst size v :: cs) Q m.
Proof.
  intros Hd K. unfold fill_cmd.
  set (W := fun (l : loc) => fst l = dst /\ snd l < size).
  eapply (par_wp (fun _ => W) (fun _ => W)
           (fun _ mf => (forall j, j < size -> mf (dst, j) = Some v))).
  - cbn [length]. intros; lia.
  - auto.
  - intros [|i] q Hq; cbn in Hq; [|destruct i; discriminate]. injection Hq as <-.
    apply (wp_for _ _ _ (fun j _ m' =>
             (forall j', j' < j -> m' (dst, j') = Some v) /\
             (forall l, ~ (fst l = dst /\ snd l < j) -> m' l = m l))).
    + lia.
    + split; auto. intros; lia.
    + intros j [] m' kk Hj1 Hj2 [I1 I2] Hkk. cbn.
      split; [split; auto|]. split; [split; auto|]. split.
      { rewrite I2; auto. cbn. lia. }
      apply Hkk. split.
      * intros j' Hj'. destruct (N.eq_dec j' j) as [->|Ne].
        -- rewrite mset_eq. auto.
        -- rewrite mset_neq by congruence. apply I1. lia.
      * intros l Hl. rewrite mset_neq.
        -- apply I2. intros [? ?]. apply Hl. split; auto. lia.
        -- intros ->. apply Hl. cbn. split; auto. lia.
    + intros [] m' [I1 I2]. cbn. auto.
  - cbn [length]. intros mf m' HP [M1 M2]. apply K.
    + intros j Hj. rewrite (M1 O (dst, j)); auto. split; auto.
    + intros l Hl. apply M2. intros i Hi [? ?]. apply Hl; auto.
Qed.


Lemma alloc_elems_n tsize (Hts : tsize = 1 \/ tsize = 2 \/ tsize = 4 \/ tsize = 8) count :
  count * 8 < 2 ^ 32 -> u32 (tsize * count) / tsize = count.
Proof.
  intros H. rewrite u32_small by (destruct Hts as [->|[->|[->| ->]]]; lia).
  rewrite N.mul_comm. apply N.div_mul. lia.
Qed.

Lemma nblocks_mul k bs : 0 < bs -> nblocks (k * bs) bs = k.
Proof.
  intros H. unfold nblocks. symmetry.
  apply (N.div_unique _ bs k (bs - 1)); lia.
Qed.

Lemma chunk_of_elem bs chunk cpb c j :
  0 < bs -> lo bs chunk cpb c <= j < hi bs chunk cpb c -> j / bs = c / cpb.
Proof.
  intros H0 Hj. unfold lo, hi in Hj. symmetry.
  apply (N.div_unique j bs (c / cpb) (j - c / cpb * bs)); lia.
Qed.

