(** Block reduction: the enqueued commands compute the block reductions. *)
From Verif Require Import Base Arith_Model Arith_Proofs Par_Model Par_Proofs Red_Model Red_Spec Red_Plan.
Local Open Scope N_scope.

Section R.
Context {T Value : Type}.
Variables (up : T -> Value) (down : Value -> T).
Variables (init : Value) (rop : Value -> Value -> Value).
Notation reduces := (reduces up down init rop).
Notation acc_fold := (fold_left (fun a y => rop a (up y))).

(** ** Bracketings compose *)

Lemma Forall2_concat_split {A B} (R : list A -> B -> Prop) (yss : list (list B)) :
  forall xss, Forall2 R xss (concat yss) ->
  exists xsss, concat xsss = xss /\ Forall2 (Forall2 R) xsss yss.
Proof.
  induction yss as [|ys yss IH]; intros xss H; cbn in H.
  - inversion H. exists []. split; [reflexivity|constructor].
  - apply Forall2_app_inv_r in H as (l1 & l2 & H1 & H2 & ->).
    destruct (IH _ H2) as (xsss & <- & H3). exists (l1 :: xsss). split; auto.
Qed.

Lemma concat_concat' {A} (l : list (list (list A))) : concat (concat l) = concat (map (@concat A) l).
Proof. induction l as [|x l IH]; cbn; auto. rewrite concat_app. now rewrite IH. Qed.

Section Ind.
Variable P : list T -> T -> Prop.
Hypothesis H1 : forall x, P [x] x.
Hypothesis H2 : forall xss ys, Forall2 reduces xss ys -> Forall2 P xss ys ->
  P (concat xss) (down (acc_fold ys init)).
Hypothesis H3 : forall xss y ys, Forall2 reduces xss (y :: ys) -> Forall2 P xss (y :: ys) ->
  P (concat xss) (down (acc_fold ys (up y))).

Fixpoint reduces_ind' xs v (H : reduces xs v) {struct H} : P xs v :=
  let fix all xss ys (F : Forall2 reduces xss ys) {struct F} : Forall2 P xss ys :=
    match F in Forall2 _ xss ys return Forall2 P xss ys with
    | Forall2_nil _ => Forall2_nil _
    | Forall2_cons a b h t => Forall2_cons _ _ (reduces_ind' _ _ h) (all _ _ t)
    end in
  match H in Red_Spec.reduces _ _ _ _ xs v return P xs v with
  | red_one _ _ _ _ x => H1 x
  | red_parts _ _ _ _ xss ys F => H2 xss ys F (all xss ys F)
  | red_from _ _ _ _ xss y ys F => H3 xss y ys F (all xss (y :: ys) F)
  end.
End Ind.

Lemma reduces_subst_list (yss : list (list T)) (zs : list T) :
  Forall2 (fun ys v => forall xss, Forall2 reduces xss ys -> reduces (concat xss) v) yss zs ->
  forall xsss, Forall2 (Forall2 reduces) xsss yss ->
  Forall2 reduces (map (@concat T) xsss) zs.
Proof.
  induction 1 as [|ys z yss zs H _ IH]; intros xsss HX; inversion HX; subst; cbn; constructor; auto.
Qed.

Lemma reduces_subst ys v :
  reduces ys v -> forall xss, Forall2 reduces xss ys -> reduces (concat xss) v.
Proof.
  intros H.
  refine (reduces_ind' (fun ys v => forall xss, Forall2 reduces xss ys -> reduces (concat xss) v)
            _ _ _ ys v H); clear.
  - intros x xss HX. inversion HX as [|a b l l' Ha Hl]; subst. inversion Hl; subst. cbn. now rewrite app_nil_r.
  - intros yss zs HF IH xss HX.
    apply Forall2_concat_split in HX as (xsss & <- & HX).
    rewrite concat_concat'. apply red_parts. eapply reduces_subst_list; eauto.
  - intros yss z zs HF IH xss HX.
    apply Forall2_concat_split in HX as (xsss & <- & HX).
    rewrite concat_concat'. apply red_from. eapply reduces_subst_list; eauto.
Qed.

Lemma singletons (xs : list T) : Forall2 reduces (map (fun x => [x]) xs) xs.
Proof. induction xs; cbn; constructor; auto. apply red_one. Qed.

Lemma concat_singletons (xs : list T) : concat (map (fun x => [x]) xs) = xs.
Proof. induction xs; cbn; congruence. Qed.

Lemma reduces_fold xs : reduces xs (down (acc_fold xs init)).
Proof.
  rewrite <- (concat_singletons xs) at 1. apply red_parts. apply singletons.
Qed.

(** ** The reduction kernel *)

Section Kernel.
Context (size bs : N) (p : plan_t).
Hypothesis Hp : plan_ok size bs p.
Hypothesis Hs : size + bs - 1 < 2 ^ 32.
Hypothesis Hb : 2 <= bs <= size.
Local Notation clo := (lo bs (p_chunk p) (p_cpb p)).
Local Notation chi := (hi bs (p_chunk p) (p_cpb p)).

Definition chunk_red (xs : list T) (c : N) : T :=
  down (acc_fold (slice xs (clo c) (chi c)) init).

(** The inner accumulation loop. *)
Lemma wp_accum (A W : loc -> Prop) src xs s e acc (k : Value -> prog T) Q m :
  N.of_nat (length xs) = size ->
  (forall j, s <= j < e -> A (src, j)) ->
  holds m src xs ->
  wp A W (k (acc_fold (slice xs s e) acc)) Q m ->
  wp A W (loop (range_lt s (N.min e size))
            (fun j acc k' => Rd (src, j) (fun x => k' (rop acc (up x)))) acc k) Q m.
Proof.
  intros Hl HA Hh Hk.
  destruct (N.le_gt_cases (N.min e size) s) as [Hle|Hgt].
  - rewrite range_lt_nil by auto. cbn.
    rewrite <- (slice_clamp xs s e), Hl in Hk. rewrite slice_nil in Hk by auto. exact Hk.
  - apply (wp_for A W _ (fun j a m' => m' = m /\ a = acc_fold (slice xs s j) acc)).
    + lia.
    + split; auto. now rewrite slice_nil by lia.
    + intros j a m' kk Hj1 Hj2 [-> ->] Hkk. cbn.
      split; [apply HA; lia|].
      destruct (nth_error xs (N.to_nat j)) as [x|] eqn:E.
      2:{ apply nth_error_None in E. lia. }
      exists x. split; [rewrite Hh; auto|]. apply Hkk. split; auto.
      rewrite (slice_snoc xs s j x) by (auto; lia). now rewrite fold_left_app.
    + intros a m' [-> ->]. rewrite <- Hl, slice_clamp. auto.
Qed.

Lemma reduce_launch xs src dst cs Q m :
  N.of_nat (length xs) = size -> src <> dst ->
  holds m src xs ->
  (forall c, c < p_count p -> m (dst, c) <> None) ->
  (forall m',
     (forall c, c < p_count p -> m' (dst, c) = Some (chunk_red xs c)) ->
     (forall l, ~ (fst l = dst /\ snd l < p_count p) -> m' l = m l) ->
     ensures cs Q m') ->
  ensures (Par (units (p_units p) (reduce_kernel up down init rop size bs p src dst)) :: cs) Q m.
Proof.
  intros Hl Hsd Hh Hd K.
  set (W := fun i (l : loc) => fst l = dst /\ snd l < p_count p /\ snd l / p_wus p = i).
  apply (units_wp _ _ (fun i l => fst l = src \/ W i l) W
           (fun i mf => forall c, c < p_count p -> c / p_wus p = i ->
                          mf (dst, c) = Some (chunk_red xs c))).
  - intros i j l Hi Hj Hij (E & Hc & Hu) [E'|(_ & _ & Hu')]; congruence.
  - auto.
  - intros i Hi. unfold reduce_kernel.
    destruct (unit_chunks_ok size bs p Hp Hs Hb i Hi) as (s & e & -> & Hse & Hiff).
    apply (wp_for _ _ _ (fun c _ m' =>
             (forall c', s <= c' < c -> m' (dst, c') = Some (chunk_red xs c')) /\
             (forall l, ~ (fst l = dst /\ s <= snd l < c) -> m' l = m l))).
    + auto.
    + split; auto. intros; lia.
    + intros c [] m' kk Hc1 Hc2 [I1 I2] Hkk.
      destruct (proj1 (Hiff c) ltac:(lia)) as [Hcc Hcu].
      pose proof (po_cpb _ _ _ Hp).
      destruct (N.eqb_spec (p_cpb p) 0); [lia|].
      rewrite (chunk_bounds_ok size bs p Hp Hs Hb c Hcc).
      apply wp_accum with (xs := xs); auto.
      { intros i0. rewrite I2; auto. cbn. intros [? _]. congruence. }
      cbn. split; [right; repeat split; auto|]. split; [repeat split; auto|].
      split.
      { rewrite I2; [apply Hd; auto|]. cbn. intros [_ ?]. lia. }
      apply Hkk. split.
      * intros c' Hc'. destruct (N.eq_dec c' c) as [->|Ne].
        -- apply mset_eq.
        -- rewrite mset_neq by congruence. apply I1. lia.
      * intros l Hl'. rewrite mset_neq.
        -- apply I2. intros [E ?]. apply Hl'. split; auto. lia.
        -- intros ->. apply Hl'. cbn. split; auto. lia.
    + intros [] m' [I1 I2]. cbn. intros c Hc Hcu. apply I1. apply Hiff. auto.
  - intros mf m' HP M1 M2. apply K.
    + intros c Hc. pose proof (chunk_unit size bs p Hp Hs Hb c Hc) as Hu.
      rewrite (M1 (c / p_wus p) (dst, c) Hu).
      * apply HP; auto.
      * repeat split; auto.
    + intros l Hl'. apply M2. intros i Hi (E & Hc & _). apply Hl'. auto.
Qed.

(** Reductions of chunk results are reductions of the elements. *)
Lemma chunks_reduce xs b n v ys :
  n <= p_cpb p -> b < nblocks size bs ->
  (forall t, t < n -> nth_error ys (N.to_nat (b * p_cpb p + t)) = Some (chunk_red xs (b * p_cpb p + t))) ->
  reduces (slice ys (b * p_cpb p) (b * p_cpb p + n)) v ->
  reduces (slice xs (b * bs) (b * bs + N.min (n * p_chunk p) bs)) v.
Proof.
  intros Hn Hbb Hys Hv.
  rewrite <- (chunks_of_block size bs p Hp Hs Hb xs b n Hn).
  eapply reduces_subst; eauto.
  rewrite <- (N2Nat.id n) in *. set (k := N.to_nat n) in *. clearbody k. clear Hv.
  rewrite Nat2N.id. clear n.
  induction k as [|k IH].
  - rewrite slice_nil by lia. constructor.
  - rewrite seq_S, map_app. cbn [map Nat.add].
    replace (b * p_cpb p + N.of_nat (S k)) with (b * p_cpb p + N.of_nat k + 1) by lia.
    rewrite (slice_snoc ys _ (b * p_cpb p + N.of_nat k) (chunk_red xs (b * p_cpb p + N.of_nat k))).
    + apply Forall2_app.
      * apply IH; try lia. intros t Ht. apply Hys. lia.
      * constructor; [|constructor]. apply reduces_fold.
    + lia.
    + apply Hys. lia.
Qed.

End Kernel.

(** ** The host function *)

(** Effect of a block reduction of [xs] into buffer [dst]. *)
Definition reduced_to (xs : list T) (bs dst : N) (m m' : mem T) : Prop :=
  (forall b, b < nblocks (N.of_nat (length xs)) bs ->
     exists v, m' (dst, b) = Some v /\ reduces (block xs bs b) v) /\
  (forall l, ~ (fst l = dst /\ snd l < nblocks (N.of_nat (length xs)) bs) -> m' l = m l).

Variables (tsize workers ideal : N).
Hypothesis Hts : tsize = 1 \/ tsize = 2 \/ tsize = 4 \/ tsize = 8.
Hypothesis Hw : 1 <= workers < 2 ^ 32.
Hypothesis Hi : 16 <= ideal <= 2 ^ 31.

Lemma block_reduce_ok fuel : forall fresh xs bs src dst m,
  N.of_nat (length xs) + bs - 1 < 2 ^ 32 ->
  0 < bs <= N.of_nat (length xs) ->
  bs < 8 ^ N.of_nat (S fuel) ->
  src <> dst -> src < fresh -> dst < fresh ->
  fresh_from m fresh -> holds m src xs ->
  (forall b, b < nblocks (N.of_nat (length xs)) bs -> m (dst, b) <> None) ->
  exists cs,
    block_reduce up down init rop tsize workers ideal fuel fresh (N.of_nat (length xs)) bs src dst
      = Cmds cs /\
    ensures cs (reduced_to xs bs dst m) m.
Proof.
  induction fuel as [|fuel IH]; intros fresh xs bs src dst m Hsz Hbs Hfuel Hsd Hsf Hdf Hfr Hh Hd.
  all: cbn [block_reduce].
  all: destruct (N.eqb_spec (N.of_nat (length xs)) 0); [lia|].
  all: destruct (N.eqb_spec bs 0); [lia|]; destruct (N.ltb_spec (N.of_nat (length xs)) bs); [lia|].
  all: cbn [orb].
  all: destruct (N.eqb_spec bs 1) as [->|Hb1].
  1,3: eexists; split; [reflexivity|].
  1,2: assert (Ed : N.of_nat (length xs) * tsize / tsize = N.of_nat (length xs))
         by (apply N.div_mul; lia).
  1,2: assert (En : nblocks (N.of_nat (length xs)) 1 = N.of_nat (length xs))
         by (unfold nblocks; rewrite N.div_1_r; lia).
  1,2: apply copy_launch with (xs := xs); rewrite ?Ed; auto; [lia| |].
  1,3: intros j Hj; apply Hd; rewrite En; auto.
  1,2: intros m' M1 M2; cbn; split; rewrite En; auto.
  1,2: intros b Hb; rewrite M1 by auto.
  1,2: destruct (nth_error xs (N.to_nat b)) as [x|] eqn:E;
       [|apply nth_error_None in E; lia].
  1,2: exists x; split; auto; unfold block;
       replace ((b + 1) * 1) with (b * 1 + 1) by lia;
       rewrite (slice_snoc xs (b * 1) (b * 1) x);
       [rewrite slice_nil by lia; apply red_one|lia|].
  1,2: rewrite N.mul_1_r; auto.
  (* general case *)
  all: destruct (plan_correct workers ideal (N.of_nat (length xs)) bs) as (p & Ep & Hp); auto; try lia.
  all: rewrite Ep.
  all: destruct (N.ltb_spec 1 (p_cpb p)) as [Hc|Hc].
  1: { exfalso. destruct (po_split _ _ _ Hp Hc) as [? _].
       change (8 ^ N.of_nat 1) with 8 in Hfuel. lia. }
  (* one chunk per block *)
  1,3: assert (Hc1 : p_cpb p = 1) by (pose proof (po_cpb _ _ _ Hp); lia).
  1,2: assert (Hcnt : p_count p = nblocks (N.of_nat (length xs)) bs)
         by (rewrite (po_count _ _ _ Hp), Hc1; lia).
  1,2: eexists; split; [reflexivity|].
  1,2: apply reduce_launch with (xs := xs); auto; try lia; [rewrite Hcnt; auto|].
  1,2: intros m' M1 M2; cbn; split; rewrite <- Hcnt; auto.
  1,2: intros b Hb; rewrite M1 by auto; eexists; split; [reflexivity|].
  1,2: unfold chunk_red, lo, hi, block; rewrite Hc1, N.div_1_r, N.mod_1_r.
  1,2: pose proof (po_cover _ _ _ Hp) as Hcov; rewrite Hc1 in Hcov.
  1,2: replace (b * bs + 0 * p_chunk p) with (b * bs) by lia.
  1,2: replace (b * bs + N.min ((0 + 1) * p_chunk p) bs) with ((b + 1) * bs) by lia.
  1,2: apply reduces_fold.
  (* several chunks per block *)
  destruct (po_split _ _ _ Hp Hc) as (S1 & S2 & S3).
  pose proof (po_count _ _ _ Hp) as Hcnt.
  set (nb := nblocks (N.of_nat (length xs)) bs) in *.
  assert (Hnb : 0 < nb).
  { unfold nb. rewrite nblocks_cdiv. apply cdiv_pos; lia. }
  assert (Hcount : p_cpb p <= p_count p) by nia.
  assert (Hlen2 : forall ys : list T, N.of_nat (length ys) = p_count p ->
            nblocks (N.of_nat (length ys)) (p_cpb p) = nb).
  { intros ys Hy. rewrite Hy, Hcnt. apply nblocks_mul. lia. }
  set (ys := map (fun t => chunk_red bs p xs (N.of_nat t)) (seq 0 (N.to_nat (p_count p)))).
  assert (Hys : N.of_nat (length ys) = p_count p).
  { unfold ys. rewrite map_length, seq_length. lia. }
  assert (Hyn : forall c, c < p_count p -> nth_error ys (N.to_nat c) = Some (chunk_red bs p xs c)).
  { intros c Hcc. unfold ys. rewrite nth_error_map, (nth_error_nth' _ O) by (rewrite seq_length; lia).
    rewrite seq_nth by lia. cbn. do 2 f_equal. lia. }
  (* memory after the first task *)
  set (m1 := fun l : loc => if (fst l =? fresh) then nth_error ys (N.to_nat (snd l)) else m l).
  assert (X : forall m2,
     (forall c, c < p_count p -> m2 (fresh, c) = Some (chunk_red bs p xs c)) ->
     (forall c, p_count p <= c -> m2 (fresh, c) = None) ->
     (forall l, fst l <> fresh -> m2 l = m l) ->
     exists cs, block_reduce up down init rop tsize workers ideal fuel (fresh + 1)
                  (p_count p) (p_cpb p) fresh dst = Cmds cs /\
                ensures cs (reduced_to ys (p_cpb p) dst m2) m2).
  { intros m2 A1 A2 A3. rewrite <- Hys.
    apply IH; try lia.
    - rewrite Nat2N.inj_succ, N.pow_succ_r' in Hfuel. lia.
    - intros b i Hbi. rewrite A3 by (cbn; lia). apply Hfr. lia.
    - intros i. destruct (N.lt_ge_cases i (p_count p)).
      + rewrite A1, Hyn; auto.
      + rewrite A2 by auto. symmetry. apply nth_error_None. lia.
    - intros b Hbb. rewrite Hlen2 in Hbb by auto. rewrite A3 by (cbn; lia). apply Hd; auto. }
  assert (Xm1 : exists cs, block_reduce up down init rop tsize workers ideal fuel (fresh + 1)
                  (p_count p) (p_cpb p) fresh dst = Cmds cs).
  { destruct (X m1) as (cs & E & _); eauto.
    - intros c Hcc. unfold m1. cbn. rewrite N.eqb_refl. auto.
    - intros c Hcc. unfold m1. cbn. rewrite N.eqb_refl. apply nth_error_None. lia.
    - intros l Hl. unfold m1. destruct (N.eqb_spec (fst l) fresh); congruence. }
  destruct Xm1 as [cs Ecs]. rewrite Ecs. eexists; split; [reflexivity|].
  unfold alloc_elems. rewrite (alloc_elems_n tsize Hts) by lia.
  intros m0 (A1 & A2 & A3).
  apply reduce_launch with (xs := xs); auto; try lia.
  { intros i. rewrite A3 by (cbn; lia). apply Hh. }
  { intros c Hcc. destruct (A1 c Hcc) as [v ->]. discriminate. }
  intros m2 B1 B2. apply ensures_app.
  destruct (X m2) as (cs' & E' & HX); auto.
  { intros c Hcc. rewrite B2; auto. cbn. lia. }
  { intros l Hl. rewrite B2 by tauto. auto. }
  rewrite Ecs in E'. injection E' as <-.
  eapply ensures_weaken; [|exact HX].
  intros m3 [R1 R2]. cbn. unfold reduced_to. rewrite Hlen2 in R1, R2 by auto.
  split.
  - intros b Hbb. destruct (R1 b Hbb) as (v & Ev & Rv).
    exists v. split.
    + unfold mfree. cbn. destruct (N.eqb_spec dst fresh); [lia|auto].
    + unfold block in *.
      pose proof (po_cover _ _ _ Hp) as Hcov.
      replace ((b + 1) * bs) with (b * bs + N.min (p_cpb p * p_chunk p) bs) by lia.
      eapply (chunks_reduce (N.of_nat (length xs)) bs p Hp) with (ys := ys); auto; try lia.
      * intros t Ht. apply Hyn. rewrite Hcnt. nia.
      * replace (b * p_cpb p + p_cpb p) with ((b + 1) * p_cpb p) by lia. auto.
  - intros l Hl. unfold mfree. destruct (N.eqb_spec (fst l) fresh) as [E|E].
    + symmetry. destruct l as [lb li]. cbn in E. subst lb. apply Hfr. lia.
    + rewrite R2 by auto. rewrite B2 by tauto. auto.
Qed.

End R.
