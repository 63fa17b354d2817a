(** The whole operation. *)
From Verif Require Import Base Arith_Model Arith_Proofs Par_Model Par_Proofs Red_Model
  Red_Plan Comp_Proofs Mkperm_Model Mkperm_Spec Mkperm_Sort Mkperm_Proofs.
Local Open Scope N_scope.

Lemma allocs_ok {V} (L : N -> N) B cs Q ts : forall m : mem V,
  (forall m', (forall t b, In t ts -> b < B -> m' (L t, b) <> None) ->
     (forall l, (forall t, In t ts -> fst l <> L t) -> m' l = m l) -> ensures cs Q m') ->
  ensures (map (fun t => Alloc (L t) B) ts ++ cs) Q m.
Proof.
  induction ts as [|t ts IH]; intros m K; cbn.
  - apply K; auto; intros t b [].
  - intros m1 (A1 & A2 & A3). apply IH. intros m' H1 H2. apply K.
    + intros u b Hu Hb. destruct (in_dec N.eq_dec (L u) (map L ts)) as [I|NI].
      * apply in_map_iff in I. destruct I as (v & <- & Hv). auto.
      * destruct Hu as [->|Hu]; [|exfalso; apply NI, in_map; auto].
        rewrite H2.
        -- destruct (A1 b Hb) as [v ->]. discriminate.
        -- cbn. intros v Hv E. apply NI. rewrite E. apply in_map. auto.
    + intros l Hl. rewrite H2.
      * apply A3. apply Hl. left. auto.
      * intros u Hu. apply Hl. right. auto.
Qed.

Lemma frees_ok {V} (L : N -> N) cs Q ts : forall m : mem V,
  (forall m', (forall l, (exists t, In t ts /\ fst l = L t) -> m' l = None) ->
     (forall l, (forall t, In t ts -> fst l <> L t) -> m' l = m l) -> ensures cs Q m') ->
  ensures (map (fun t => Free (L t)) ts ++ cs) Q m.
Proof.
  induction ts as [|t ts IH]; intros m K; cbn.
  - apply K; auto. intros l (t & [] & _).
  - apply IH. intros m' H1 H2. apply K.
    + intros l (u & Hu & El). destruct (in_dec N.eq_dec (fst l) (map L ts)) as [I|NI].
      * apply H1. apply in_map_iff in I. destruct I as (v & E & Hv). eauto.
      * destruct Hu as [->|Hu]; [|exfalso; apply NI; rewrite El; apply in_map; auto].
        rewrite H2.
        -- unfold mfree. now rewrite El, N.eqb_refl.
        -- intros v Hv E. apply NI. rewrite E. apply in_map. auto.
    + intros l Hl. rewrite H2.
      * unfold mfree. destruct (N.eqb_spec (fst l) (L t)) as [E|E]; auto.
        exfalso. apply (Hl t); auto. left. auto.
      * intros u Hu. apply Hl. right. auto.
Qed.

(** Contents afterwards. *)
Definition permuted_to (xs : list N) (bs B perm : N) (offsets : option N) (uc : N)
    (m m' : mem N) : Prop :=
  let size := N.of_nat (length xs) in
  let tab := match offsets with
             | Some _ => if size <=? bs then bucket_table xs B 0 size else []
             | None => []
             end in
  (forall g k, g * bs + k < size -> k < bs ->
     m' (perm, g * bs + k) =
     nth_error (bucket_sorted xs B (g * bs) (N.min ((g + 1) * bs) size)) (N.to_nat k)) /\
  m' (uc, 0) = Some (N.of_nat (length tab) / 4) /\
  (forall o k, offsets = Some o -> k < N.of_nat (length tab) ->
     m' (o, k) = nth_error tab (N.to_nat k)) /\
  (forall l, ~ (fst l = perm /\ snd l < size) -> l <> (uc, 0) ->
     (forall o, offsets = Some o -> ~ (fst l = o /\ snd l < N.of_nat (length tab))) ->
     m' l = m l).

Lemma one_group xs bs B n tpg task : mk_ok xs bs B n tpg task ->
  n = 1 <-> N.of_nat (length xs) <= bs.
Proof.
  intros OK. pose proof (ok_bs _ _ _ _ _ _ OK). pose proof (n_pos _ _ _ _ _ _ OK).
  rewrite (ok_n _ _ _ _ _ _ OK) in *. split.
  - intros E. assert (C : cdiv (N.of_nat (length xs)) bs <= 1) by lia.
    apply cdiv_le_iff in C; auto. lia.
  - intros E. assert (C : cdiv (N.of_nat (length xs)) bs <= 1) by (apply cdiv_le_iff; lia). lia.
Qed.

Theorem mk_cmds_ok xs src perm offsets uc fresh bs B n tpg task m :
  mk_ok xs bs B n tpg task ->
  src < fresh -> perm < fresh -> uc < fresh ->
  (forall o, offsets = Some o -> o < fresh /\ o <> src /\ o <> perm /\ o <> uc /\ 4 * B < 2 ^ 32) ->
  src <> perm -> src <> uc -> perm <> uc ->
  fresh_from m fresh -> holds m src xs ->
  (forall i, i < N.of_nat (length xs) -> m (perm, i) <> None) ->
  m (uc, 0) <> None ->
  (forall o k, offsets = Some o ->
     k < N.of_nat (length (bucket_table xs B 0 (N.of_nat (length xs)))) -> m (o, k) <> None) ->
  ensures (mk_cmds src perm offsets uc fresh (N.of_nat (length xs)) bs B n tpg task)
    (permuted_to xs bs B perm offsets uc m) m.
Proof.
  intros OK S1 S2 S3 So N1 N2 N3 Hf Hh Hperm Huc Hoff.
  assert (Hsep : src < fresh /\ perm < fresh /\ uc < fresh /\
            (forall o, offsets = Some o -> o < fresh)).
  { repeat split; auto. intros o Ho. apply So; auto. }
  unfold mk_cmds. rewrite (total_eq xs bs B n tpg task OK).
  pose proof (n_pos _ _ _ _ _ _ OK) as Hn0.
  set (tot := n * tpg) in *.
  set (tab := match offsets with
             | Some _ => if N.of_nat (length xs) <=? bs
                         then bucket_table xs B 0 (N.of_nat (length xs)) else []
             | None => []
             end).
  assert (Etab : utable xs offsets bs B n = tab).
  { unfold utable, table, tab. destruct offsets; auto.
    pose proof (one_group _ _ _ _ _ _ OK) as OG.
    destruct (N.eqb_spec n 1) as [En|En], (N.leb_spec (N.of_nat (length xs)) bs) as [El|El]; auto; try lia.
    change (0 =? 0) with true. cbn iota. unfold bucket_table.
    assert (G : gl xs bs 0 = range_lt 0 (N.of_nat (length xs))).
    { unfold gl, gs, ge. f_equal; lia. }
    unfold row. rewrite G. reflexivity. }
  cbn [ensures]. intros m0 (A1 & A2 & A3).
  change (ensures (map (fun t => Alloc (local fresh t) B) (range_lt 0 tot) ++
    Par (units tot (hist_kernel src fresh (N.of_nat (length xs)) bs B tpg task))
  :: Par [accum_kernel offsets uc fresh bs B n tpg]
  :: Par (units tot (emit_kernel src perm fresh (N.of_nat (length xs)) bs tpg task))
  :: map (fun t => Free (local fresh t)) (range_lt 0 tot)
  ++ [Free fresh]) (permuted_to xs bs B perm offsets uc m) m0).
  apply allocs_ok. intros m1 L1 L2.
  assert (M1 : forall l, fst l < fresh -> m1 l = m l).
  { intros l Hl. rewrite L2, A3; auto; [lia|]. intros t _. unfold local. lia. }
  assert (P1 : forall t, t < tot -> m1 (fresh, t) <> None).
  { intros t Ht. rewrite L2; [destruct (A1 t Ht) as [v ->]; discriminate|].
    intros u _. cbn. unfold local. lia. }
  apply (hist_launch xs src fresh bs B n tpg task OK); auto.
  { intros i. rewrite M1 by auto. apply Hh. }
  { intros t b Ht Hb. apply L1; auto. apply range_lt_In. fold tot in Ht. lia. }
  intros m2 Hp2 Hh2 F2.
  assert (M2 : forall l, fst l < fresh -> m2 l = m l).
  { intros l Hl. rewrite F2 by (left; auto). auto. }
  apply (accum_launch xs src perm offsets uc fresh bs B n tpg task OK Hsep); auto.
  { intros Ho. destruct offsets as [o|]; [apply (So o eq_refl)|congruence]. }
  { intros o Ho. split; [intros ->; destruct (So uc Ho) as (_ & _ & _ & C & _); auto|].
    intros j Hj. rewrite M2 by (cbn; apply So; auto). apply Hoff; auto.
    rewrite Etab in Hj. unfold tab in Hj. rewrite Ho in Hj.
    destruct (_ <=? bs); [auto|cbn in Hj; lia]. }
  { rewrite M2 by auto. auto. }
  rewrite Etab. intros m3 Hf3 Huc3 Ho3 F3.
  assert (NL : forall b, b < fresh + 1 -> forall t, t < tot -> b <> local fresh t)
    by (unfold local; intros; lia).
  assert (Soff : forall b i, (forall o, offsets = Some o -> b <> o) ->
     forall o, offsets = Some o -> ~ (b = o /\ i < N.of_nat (length tab)))
    by (intros b i H o Ho [E _]; apply (H o Ho E)).
  apply (emit_launch xs src perm offsets uc fresh bs B n tpg task OK Hsep); auto.
  { intros i. rewrite F3; [rewrite M2 by auto; apply Hh|cbn; apply NL; lia|congruence|].
    cbn. apply Soff. intros o Ho. specialize (So o Ho). lia. }
  { intros i Hi. rewrite F3; [rewrite M2 by auto; auto|cbn; apply NL; lia|congruence|].
    cbn. apply Soff. intros o Ho. specialize (So o Ho). lia. }
  { intros t Ht. rewrite F3; [auto|cbn; apply NL; lia|intros [=]; lia|].
    cbn. apply Soff. intros o Ho. specialize (So o Ho). lia. }
  intros m4 Hpos F4.
  apply frees_ok. intros m5 Z5 F5. cbn [ensures].
  assert (M5 : forall l, fst l < fresh -> mfree m5 fresh l = m4 l).
  { intros l Hl. unfold mfree. destruct (N.eqb_spec (fst l) fresh); [lia|].
    apply F5. intros t _. unfold local. lia. }
  unfold permuted_to. fold tab. repeat split.
  - intros g k Hgk Hk. rewrite M5 by auto.
    set (e := N.min ((g + 1) * bs) (N.of_nat (length xs))).
    assert (Hgp : Permutation (bucket_sorted xs B (g * bs) e) (range_lt (g * bs) e)).
    { apply (group_perm (fun i => nth (N.to_nat i) xs 0)). intros i Hi.
      apply (f_lt xs bs B n tpg task OK). unfold e in Hi. lia. }
    assert (Hlen : (N.to_nat k < length (bucket_sorted xs B (g * bs) e))%nat).
    { rewrite (Permutation_length Hgp), range_lt_length. unfold e. lia. }
    destruct (nth_error (bucket_sorted xs B (g * bs) e) (N.to_nat k)) as [i|] eqn:E.
    2:{ apply nth_error_None in E. lia. }
    destruct (gpos_surj (fun i => nth (N.to_nat i) xs 0) B (g * bs) e) with (k := k) (i := i)
      as [Hi Hp]; auto.
    { intros j Hj. apply (f_lt xs bs B n tpg task OK). unfold e in Hj. lia. }
    assert (Gi : grp bs i = g) by (apply (grp_unique xs src perm offsets uc fresh bs Hsep); exact Hi).
    rewrite <- (Hpos i) by (unfold e in Hi; lia). f_equal. f_equal.
    unfold pos. rewrite Gi. unfold gs, ge. fold e. rewrite Hp. reflexivity.
  - rewrite M5 by auto. rewrite F4; auto; [cbn; apply NL; lia|cbn; intros [? _]; congruence].
  - intros o k Ho Hk. rewrite M5 by (cbn; apply So; auto).
    rewrite F4; auto; [cbn; apply NL; specialize (So o Ho); lia|].
    cbn. intros [E _]. specialize (So o Ho). lia.
  - intros l Hl1 Hl2 Hl3. destruct (N.lt_ge_cases (fst l) fresh) as [L|G].
    + rewrite M5 by auto. rewrite F4; auto; [|intros; apply NL; lia].
      rewrite F3; auto. intros; apply NL; lia.
    + assert (Hm : m l = None) by (destruct l as [b i]; apply Hf; exact G). rewrite Hm.
      unfold mfree. destruct (N.eqb_spec (fst l) fresh) as [|Ne]; auto.
      destruct (N.le_gt_cases (fst l) (fresh + tot)) as [Le|Gt].
      * apply Z5. exists (fst l - fresh - 1). rewrite range_lt_In. unfold local. lia.
      * assert (Out : forall t, t < tot -> fst l <> local fresh t)
          by (unfold local; intros; lia).
        rewrite F5, F4, F3, F2, L2, A3; auto; try lia.
        -- intros t Ht. apply range_lt_In in Ht. apply Out. lia.
        -- right. exact Gt.
        -- intros t Ht. apply range_lt_In in Ht. apply Out. lia.
Qed.

(** Division of the work. *)
Lemma mk_plan_ok workers ideal (xs : list N) bs B :
  1 <= workers <= 2 ^ 28 -> 16 <= ideal <= 2 ^ 31 ->
  0 < bs < 2 ^ 31 -> 0 < N.of_nat (length xs) ->
  N.of_nat (length xs) + N.max ideal bs < 2 ^ 32 ->
  B < 2 ^ 32 -> Forall (fun x => x < B) xs ->
  workers = 1 \/ bs <= ideal \/ N.of_nat (length xs) mod bs = 0 ->
  exists n tpg task, mk_plan workers ideal (N.of_nat (length xs)) bs = Some (n, tpg, task) /\
    mk_ok xs bs B n tpg task.
Proof.
  intros Hw Hi Hbs Hs Hsz HB HV HR. set (size := N.of_nat (length xs)) in *.
  assert (Hn : ceil_div size bs = Some (cdiv size bs)).
  { rewrite ceil_div_small; auto; lia. }
  pose proof (cdiv_pos size bs ltac:(lia) ltac:(lia)) as Hn0.
  assert (Hlast : (cdiv size bs - 1) * bs < size).
  { apply N.nle_gt. intros C. apply cdiv_le_iff in C; lia. }
  assert (Hmod : size mod bs = 0 -> cdiv size bs * bs = size).
  { intros E. assert (Ed : size = size / bs * bs) by (pose proof (N.div_mod size bs ltac:(lia)); lia).
    assert (cdiv size bs <= size / bs) by (apply cdiv_le_iff; lia).
    assert (cdiv size bs * bs <= size / bs * bs) by (apply N.mul_le_mono_r; auto).
    assert (size <= cdiv size bs * bs).
    { assert (C : cdiv size bs <= cdiv size bs) by lia. apply cdiv_le_iff in C; lia. }
    lia. }
  assert (Hcs : cdiv size bs <= size) by (apply cdiv_le_self; lia).
  unfold mk_plan. rewrite Hn. cbn [bind].
  destruct (N.ltb_spec 1 workers) as [W1|W1].
  - rewrite (u32_small (workers * 4)) by lia.
    destruct (N.eqb_spec (workers * 4) 0); [lia|].
    rewrite (u32_small (bs + workers * 4)) by lia.
    replace (u32 (bs + workers * 4 + 2 ^ 32 - 1)) with (bs + workers * 4 - 1).
    2:{ unfold u32. replace (bs + workers * 4 + 2 ^ 32 - 1) with (bs + workers * 4 - 1 + 1 * 2 ^ 32) by lia.
        rewrite N.mod_add by lia. symmetry. apply N.mod_small. lia. }
    set (t0 := (bs + workers * 4 - 1) / (workers * 4)).
    assert (Ht0 : t0 <= bs).
    { unfold t0. fold (cdiv bs (workers * 4)). apply cdiv_le_self; lia. }
    set (task := N.max ideal t0).
    assert (Hts : 16 <= task <= N.max ideal bs) by (unfold task; lia).
    destruct (N.eqb_spec task 0); [lia|].
    rewrite (u32_small (bs + task)) by lia.
    replace (u32 (bs + task + 2 ^ 32 - 1)) with (bs + task - 1).
    2:{ unfold u32. replace (bs + task + 2 ^ 32 - 1) with (bs + task - 1 + 1 * 2 ^ 32) by lia.
        rewrite N.mod_add by lia. symmetry. apply N.mod_small. lia. }
    fold (cdiv bs task). eexists _, _, _. split; [reflexivity|].
    assert (Ht1 : (cdiv bs task - 1) * task < bs).
    { apply N.nle_gt. intros C. apply cdiv_le_iff in C; try lia.
      pose proof (cdiv_pos bs task ltac:(lia) ltac:(lia)). lia. }
    assert (Ht2 : bs <= cdiv bs task * task).
    { assert (C : cdiv bs task <= cdiv bs task) by lia. apply cdiv_le_iff in C; lia. }
    pose proof (cdiv_pos bs task ltac:(lia) ltac:(lia)) as Ht3.
    assert (Hone : bs <= ideal -> cdiv bs task = 1).
    { intros L. assert (cdiv bs task <= 1) by (apply cdiv_le_iff; lia). lia. }
    constructor; try lia; try (fold size; lia); auto.
    + fold size. destruct (N.eq_dec (cdiv bs task) 1) as [->|Ne]; [lia|].
      assert (cdiv size bs * (cdiv bs task) <= cdiv size bs * bs) by
        (apply N.mul_le_mono_l; apply cdiv_le_self; lia).
      assert (cdiv size bs * bs < size + bs) by nia. lia.
    + fold size. destruct HR as [R|[R|R]]; [lia| |].
      * rewrite (Hone R). lia.
      * specialize (Hmod R). nia.
  - eexists _, _, _. split; [reflexivity|].
    constructor; fold size; auto; lia.
Qed.
