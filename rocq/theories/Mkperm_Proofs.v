From Verif Require Import Base Arith_Model Arith_Proofs Par_Model Par_Proofs Red_Model
  Red_Plan Comp_Proofs Mkperm_Model Mkperm_Spec Mkperm_Sort.
Local Open Scope N_scope.

(** A launch of a single unit. *)
Lemma single_launch {V} (p : prog V) (P : mem V -> Prop) cs Q m :
  wp (fun _ => True) (fun _ => True) p P m ->
  (forall mf m', P mf -> (forall l, m' l = mf l) -> ensures cs Q m') ->
  ensures (Par [p] :: cs) Q m.
Proof.
  intros H K.
  apply (par_wp (fun _ _ => True) (fun _ _ => True) (fun _ => P)).
  - cbn [length]. intros; lia.
  - auto.
  - intros [|i] q Hq; cbn in Hq; [|destruct i; discriminate]. injection Hq as <-. exact H.
  - cbn [length]. intros mf m' HP [M1 M2]. apply (K (mf O)); auto.
Qed.

Section Mk.
Variable xs : list N.
Variables (src perm : N) (offsets : option N) (uc fresh : N).
Variables (bs B n tpg task : N).
Notation size := (N.of_nat (length xs)).
Notation f := (fun i => nth (N.to_nat i) xs 0).
Notation loc_ := (local fresh).

Record mk_ok : Prop := {
  ok_s : 0 < size;
  ok_bs : 0 < bs;
  ok_n : n = cdiv size bs;
  ok_bnd : size + bs < 2 ^ 32;
  ok_bnd2 : size + task < 2 ^ 32;
  ok_tpg : 0 < tpg;
  ok_task : 0 < task;
  ok_cover : (tpg - 1) * task < bs <= tpg * task;
  ok_total : n * tpg < 2 ^ 32;
  ok_reg : (n - 1) * bs + (tpg - 1) * task <= size;
  ok_B : B < 2 ^ 32;
  ok_val : Forall (fun x => x < B) xs }.
Hypothesis OK : mk_ok.

Definition gs (g : N) : N := g * bs.
Definition ge (g : N) : N := N.min ((g + 1) * bs) size.
Definition st (g j : N) : N := N.min (gs g + j * task) (ge g).

Lemma total_eq : total_tasks n tpg = n * tpg.
Proof. unfold total_tasks. apply u32_small. apply (ok_total OK). Qed.

Lemma n_pos : 0 < n.
Proof. rewrite (ok_n OK). apply cdiv_pos; [apply (ok_bs OK)|apply (ok_s OK)]. Qed.

Lemma group_lt g : g < n -> gs g < size.
Proof.
  intros H. unfold gs. apply N.nle_gt. intros C.
  assert (cdiv size bs <= g) by (apply cdiv_le_iff; [apply (ok_bs OK)|lia]).
  rewrite <- (ok_n OK) in H0. lia.
Qed.

Lemma group_bound g : g < n -> gs g < ge g <= size /\ ge g <= gs g + bs /\
  (g + 1 < n -> ge g = gs g + bs).
Proof.
  intros H. pose proof (group_lt g H). pose proof (ok_bs OK). unfold ge, gs in *. repeat split; try lia.
  intros Hn. pose proof (group_lt (g + 1) Hn). unfold gs in *. lia.
Qed.

Lemma groups_apart g h : g < h -> ge g <= gs h.
Proof.
  intros H. unfold ge, gs. assert ((g + 1) * bs <= h * bs) by (apply N.mul_le_mono_r; lia). lia.
Qed.

Lemma start_reg g j : g < n -> j < tpg -> gs g + j * task <= ge g.
Proof.
  intros Hg Hj. pose proof (group_bound g Hg) as (H1 & H2 & H3).
  assert (j * task <= (tpg - 1) * task) by (apply N.mul_le_mono_r; lia).
  pose proof (ok_cover OK). pose proof (ok_reg OK).
  destruct (N.lt_ge_cases (g + 1) n) as [L|G].
  - rewrite H3 by auto. lia.
  - assert (g = n - 1) by lia. subst g.
    unfold gs, ge in *. replace (n - 1 + 1) with n in * by lia. nia.
Qed.

Lemma st_0 g : g < n -> st g 0 = gs g.
Proof. intros H. pose proof (group_bound g H). unfold st. lia. Qed.
Lemma st_tpg g : g < n -> st g tpg = ge g.
Proof.
  intros H. pose proof (group_bound g H). pose proof (ok_cover OK). unfold st. lia.
Qed.
Lemma st_mono g j k : j <= k -> st g j <= st g k.
Proof. intros H. unfold st. assert (j * task <= k * task) by (apply N.mul_le_mono_r; lia). lia. Qed.
Lemma st_range g j : g < n -> gs g <= st g j <= ge g.
Proof. intros H. pose proof (group_bound g H). unfold st. lia. Qed.

Lemma task_split t : t < n * tpg -> t / tpg < n /\ t mod tpg < tpg /\ t = t / tpg * tpg + t mod tpg.
Proof.
  intros H. pose proof (ok_tpg OK). repeat split.
  - apply N.div_lt_upper_bound; lia.
  - apply N.mod_lt. lia.
  - rewrite (N.div_mod t tpg) at 1 by lia. lia.
Qed.

Definition s_ t := st (t / tpg) (t mod tpg).
Definition e_ t := st (t / tpg) (t mod tpg + 1).

Lemma task_range_ok t : t < n * tpg ->
  task_range size bs tpg task t = (s_ t, e_ t) /\ s_ t <= e_ t /\ e_ t <= size /\ e_ t < 2 ^ 32.
Proof.
  intros H. destruct (task_split t H) as (Hg & Hj & _).
  pose proof (group_bound _ Hg) as (H1 & H2 & H3). pose proof (start_reg _ _ Hg Hj) as R.
  pose proof (ok_bnd OK). pose proof (ok_bnd2 OK).
  assert (s_ t = gs (t / tpg) + t mod tpg * task) as Es by (unfold s_, st; lia).
  assert (e_ t = N.min (gs (t / tpg) + t mod tpg * task + task) (ge (t / tpg))) as Ee.
  { unfold e_, st. f_equal. lia. }
  split; [|split; [lia|split; lia]].
  unfold task_range. fold (gs (t / tpg)).
  rewrite (u32_small (gs _)) by lia. rewrite (u32_small (t mod tpg * task)) by lia.
  rewrite (u32_small (gs _ + t mod tpg * task)) by lia.
  rewrite (u32_small (_ + task)) by lia.
  rewrite (u32_small (gs _ + bs)) by lia.
  rewrite Es, Ee. f_equal. f_equal. unfold ge, gs. f_equal. lia.
Qed.

Lemma tasks_apart t u i : t < n * tpg -> u < n * tpg -> t <> u ->
  s_ t <= i < e_ t -> s_ u <= i < e_ u -> False.
Proof.
  intros Ht Hu Ne It Iu.
  destruct (task_split t Ht) as (Hg & Hj & Et). destruct (task_split u Hu) as (Hg' & Hj' & Eu).
  pose proof (st_range (t / tpg) (t mod tpg) Hg). pose proof (st_range (u / tpg) (u mod tpg) Hg').
  pose proof (st_range (t / tpg) (t mod tpg + 1) Hg). pose proof (st_range (u / tpg) (u mod tpg + 1) Hg').
  unfold s_, e_ in *.
  destruct (N.lt_total (t / tpg) (u / tpg)) as [L|[E|G]].
  - pose proof (groups_apart _ _ L). lia.
  - rewrite <- E in *.
    destruct (N.lt_total (t mod tpg) (u mod tpg)) as [L|[E'|G]].
    + pose proof (st_mono (t / tpg) (t mod tpg + 1) (u mod tpg) ltac:(lia)). lia.
    + apply Ne. congruence.
    + pose proof (st_mono (t / tpg) (u mod tpg + 1) (t mod tpg) ltac:(lia)). lia.
  - pose proof (groups_apart _ _ G). lia.
Qed.

Lemma f_lt i : i < size -> f i < B.
Proof.
  intros H. pose proof (ok_val OK) as V. rewrite Forall_forall in V. apply V. apply nth_In. lia.
Qed.
Lemma src_read m i : holds m src xs -> i < size -> m (src, i) = Some (f i).
Proof.
  intros Hh H. rewrite Hh. cbv beta.
  erewrite (nth_error_nth' xs 0) by lia. reflexivity.
Qed.

Lemma cnt_len b l : cnt f b l <= N.of_nat (length l).
Proof. unfold cnt. induction l as [|a l IH]; cbn [filter length]; try lia. destruct (_ =? b); cbn [length]; lia. Qed.
Lemma cnt_range b s e : cnt f b (range_lt s e) <= e - s.
Proof. pose proof (cnt_len b (range_lt s e)). rewrite range_lt_length in H. lia. Qed.

(** ** Phase 1 *)

(** Locations that are not temporary. *)
Definition outside (l : loc) : Prop := fst l < fresh \/ fresh + n * tpg < fst l.

Definition hist t b : N := cnt f b (range_lt (s_ t) (e_ t)).

Lemma hist_launch cs Q (m : mem N) :
  src < fresh -> holds m src xs ->
  (forall t, t < n * tpg -> m (fresh, t) <> None) ->
  (forall t b, t < n * tpg -> b < B -> m (loc_ t, b) <> None) ->
  (forall m',
     (forall t, t < n * tpg -> m' (fresh, t) = Some (loc_ t)) ->
     (forall t b, t < n * tpg -> b < B -> m' (loc_ t, b) = Some (hist t b)) ->
     (forall l, outside l -> m' l = m l) ->
     ensures cs Q m') ->
  ensures (Par (units (n * tpg) (hist_kernel src fresh size bs B tpg task)) :: cs) Q m.
Proof.
  intros Hsf Hh Hp Hl K.
  set (W := fun t (l : loc) => fst l = loc_ t /\ snd l < B \/ l = (fresh, t)).
  apply (units_wp _ _ (fun t l => fst l = src \/ W t l) W
           (fun t mf => mf (fresh, t) = Some (loc_ t) /\
                        forall b, b < B -> mf (loc_ t, b) = Some (hist t b))).
  - unfold W, local. intros t u l Ht Hu Ne [(E & _)|E] [E'|[(E' & _)|E']]; subst; cbn in *; try lia;
      injection E'; lia.
  - auto.
  - intros t Ht. unfold hist_kernel. destruct (task_range_ok t Ht) as (-> & H1 & H2 & H3).
    rewrite range_ne_lt by lia.
    apply (wp_for _ _ _ (fun b _ m' =>
             (forall b', b' < b -> m' (loc_ t, b') = Some 0) /\
             (forall l, ~ (fst l = loc_ t /\ snd l < b) -> m' l = m l))).
    + lia.
    + split; auto. intros; lia.
    + intros b [] m' kk Hb1 Hb2 [I1 I2] Hkk. cbn.
      split; [right; left; auto|]. split; [left; auto|]. split.
      { rewrite I2; auto. cbn. lia. }
      apply Hkk. split.
      * intros b' Hb'. destruct (N.eq_dec b' b) as [->|Ne]; [apply mset_eq|].
        rewrite mset_neq by congruence. apply I1. lia.
      * intros l Hl'. rewrite mset_neq.
        -- apply I2. intros [? ?]. apply Hl'. split; auto. lia.
        -- intros ->. apply Hl'. cbn. split; auto. lia.
    + intros [] m1 [Z1 Z2].
      apply (wp_for _ _ _ (fun i _ m' =>
             (forall b', b' < B -> m' (loc_ t, b') = Some (cnt f b' (range_lt (s_ t) i))) /\
             (forall l, ~ (fst l = loc_ t /\ snd l < B) -> m' l = m l))).
      * auto.
      * split; auto. intros b Hb. rewrite Z1 by auto. now rewrite range_lt_nil by lia.
      * intros i [] m' kk Hi1 Hi2 [I1 I2] Hkk. cbn. split; auto.
        exists (f i). split.
        { rewrite I2 by (cbn; unfold local; lia). apply src_read; auto. lia. }
        pose proof (f_lt i ltac:(lia)) as Hfi. cbv beta in Hfi.
        split; [right; left; auto|].
        exists (cnt f (f i) (range_lt (s_ t) i)). split; [apply I1; auto|].
        split; [right; left; auto|]. split; [left; auto|]. split.
        { rewrite I1 by auto. discriminate. }
        apply Hkk. split.
        -- intros b' Hb'. rewrite range_lt_snoc, cnt_app, cnt_one by auto.
           pose proof (cnt_range b' (s_ t) i).
           destruct (N.eqb_spec (f i) b') as [->|Ne].
           ++ rewrite mset_eq. rewrite u32_small; auto. lia.
           ++ rewrite mset_neq by congruence. rewrite N.add_0_r. auto.
        -- intros l Hl'. rewrite mset_neq; auto. intros ->. apply Hl'. cbn. auto.
      * intros [] m' [I1 I2]. cbn. split; [right; right; auto|]. split; [right; auto|]. split.
        { rewrite I2 by (cbn; unfold local; lia). auto. }
        split; [apply mset_eq|]. intros b Hb. rewrite mset_neq by (unfold local; intros [=]; lia).
        apply I1; auto.
  - intros mf m' HP M1 M2.
    apply K.
    + intros t Ht. rewrite (M1 t (fresh, t) Ht) by (right; reflexivity). apply HP; auto.
    + intros t b Ht Hb. rewrite (M1 t (loc_ t, b) Ht) by (left; auto). apply HP; auto.
    + intros l Hl'. apply M2. unfold W, local, outside in *.
      intros t Ht [(E & _)|E]; [lia|]. subst l. cbn in Hl'. lia.
Qed.

(** ** Accumulation *)

Definition gl g := range_lt (gs g) (ge g).
Definition fin t b : N :=
  gs (t / tpg) + clt f b (gl (t / tpg)) + cnt f b (range_lt (gs (t / tpg)) (s_ t)).

(** Value of a histogram entry when the loops are at group [g], bucket [i], task [j]. *)
Definition entry g i j t b : N :=
  if (t / tpg <? g) || (t / tpg =? g) && ((b <? i) || (b =? i) && (t mod tpg <? j))
  then fin t b else hist t b.

Definition row b : list N :=
  if cnt f b (gl 0) =? 0 then [] else [b; clt f b (gl 0); cnt f b (gl 0); 0].
Definition table g i : list N :=
  match offsets with
  | Some _ => if n =? 1 then flat_map row (range_lt 0 (if g =? 0 then i else B)) else []
  | None => []
  end.

Lemma row_len b : (length (row b) <= 4)%nat.
Proof. unfold row. destruct (_ =? 0); cbn; lia. Qed.

Lemma table_len g i : g < n -> i <= B -> N.of_nat (length (table g i)) <= 4 * B.
Proof.
  intros Hg Hi. unfold table. destruct offsets; [|cbn; lia]. destruct (N.eqb_spec n 1); [|cbn; lia].
  assert (g = 0) by lia. subst g. change (0 =? 0) with true. cbn iota. revert Hi.
  assert (G : N.of_nat (length (flat_map row (range_lt 0 i))) <= 4 * i).
  { induction i as [|i IH] using N.peano_ind; [rewrite range_lt_nil by lia; cbn [flat_map length]; lia|].
    rewrite <- N.add_1_r, range_lt_snoc, flat_map_app, app_length by lia. cbn [flat_map].
    rewrite app_nil_r. pose proof (row_len i). lia. }
  lia.
Qed.

Definition acc_inv (m : mem N) g i j (ucl : N) (m' : mem N) : Prop :=
  (forall t b, t < n * tpg -> b < B -> m' (loc_ t, b) = Some (entry g i j t b)) /\
  ucl * 4 = N.of_nat (length (table g i)) /\
  (forall o k, offsets = Some o -> k < N.of_nat (length (table g i)) ->
     m' (o, k) = nth_error (table g i) (N.to_nat k)) /\
  (forall l, (forall t, t < n * tpg -> fst l <> loc_ t) ->
     (forall o, offsets = Some o -> ~ (fst l = o /\ snd l < N.of_nat (length (table g i)))) ->
     m' l = m l).

Lemma entry_same g i j g' i' j' t b :
  ((t / tpg < g \/ t / tpg = g /\ (b < i \/ b = i /\ t mod tpg < j)) <->
   (t / tpg < g' \/ t / tpg = g' /\ (b < i' \/ b = i' /\ t mod tpg < j'))) ->
  entry g i j t b = entry g' i' j' t b.
Proof.
  intros H. unfold entry.
  destruct (N.ltb_spec (t / tpg) g), (N.eqb_spec (t / tpg) g), (N.ltb_spec b i), (N.eqb_spec b i),
    (N.ltb_spec (t mod tpg) j),
    (N.ltb_spec (t / tpg) g'), (N.eqb_spec (t / tpg) g'), (N.ltb_spec b i'), (N.eqb_spec b i'),
    (N.ltb_spec (t mod tpg) j'); cbn; auto; lia.
Qed.

Hypothesis Hsep : src < fresh /\ perm < fresh /\ uc < fresh /\
  (forall o, offsets = Some o -> o < fresh).

Lemma inner_wp (m : mem N) g i go ucl k P m0 :
  g < n -> i < B -> go = clt f i (gl g) ->
  (forall t, t < n * tpg -> m (fresh, t) = Some (loc_ t)) ->
  acc_inv m g i 0 ucl m0 ->
  (forall m1, acc_inv m g i tpg ucl m1 ->
     wp (fun _ => True) (fun _ => True) (k (cnt f i (gl g))) P m1) ->
  wp (fun _ => True) (fun _ => True) (accum_inner fresh bs tpg g i go k) P m0.
Proof.
  intros Hg Hi -> Hptr I0 K. unfold accum_inner.
  pose proof (group_bound g Hg) as (G1 & G2 & _). pose proof (ok_bnd OK) as Bn.
  pose proof (clt_le f i (gl g)) as CL. unfold gl in CL. rewrite range_lt_length in CL.
  assert (Htot : forall j, j < tpg -> g * tpg + j < n * tpg).
  { intros j Hj. assert ((g + 1) * tpg <= n * tpg) by (apply N.mul_le_mono_r; lia). lia. }
  assert (Hdiv : forall j, j < tpg -> (g * tpg + j) / tpg = g /\ (g * tpg + j) mod tpg = j).
  { intros j Hj. split.
    - symmetry. apply (N.div_unique _ _ _ j); auto. lia.
    - symmetry. apply (N.mod_unique _ _ g); auto. lia. }
  pose proof (ok_total OK) as Tot. pose proof (ok_tpg OK) as Tp.
  apply (wp_for _ _ _ (fun j sum m1 => sum = cnt f i (range_lt (gs g) (st g j)) /\
           acc_inv m g i j ucl m1)).
  - lia.
  - split; auto. rewrite st_0 by auto. now rewrite range_lt_nil by lia.
  - intros j sum m1 kk Hj1 Hj2 [-> (I1 & I2 & I3 & I4)] Hkk.
    pose proof (Htot j Hj2) as Ht. destruct (Hdiv j Hj2) as [Dg Dm].
    rewrite (u32_small (g * tpg + j)) by lia.
    cbn [wp]. split; auto. exists (loc_ (g * tpg + j)). split.
    { rewrite I4; [apply Hptr; auto| |].
      - unfold local. cbn. intros; lia.
      - intros o Ho [E _]. cbn in E. destruct Hsep as (_ & _ & _ & S). specialize (S o Ho). lia. }
    split; auto. exists (hist (g * tpg + j) i). split.
    { rewrite I1 by auto. unfold entry. rewrite Dg, Dm, !N.ltb_irrefl, N.eqb_refl. cbn.
      rewrite N.eqb_refl. cbn. reflexivity. }
    split; auto. split; auto. split. { rewrite I1 by auto. discriminate. }
    pose proof (st_mono g j (j + 1) ltac:(lia)) as SM.
    pose proof (st_range g j Hg) as SR. pose proof (st_range g (j + 1) Hg) as SR'.
    assert (Hist : hist (g * tpg + j) i = cnt f i (range_lt (st g j) (st g (j + 1)))).
    { unfold hist, s_, e_. now rewrite Dg, Dm. }
    pose proof (cnt_range i (gs g) (st g j)) as C1.
    pose proof (cnt_range i (st g j) (st g (j + 1))) as C2.
    assert (Cs : clt f i (gl g) + cnt f i (gl g) <= ge g - gs g).
    { rewrite <- clt_succ. pose proof (clt_le f (i + 1) (gl g)) as C. unfold gl in C at 2.
      rewrite range_lt_length in C. lia. }
    assert (Cp : cnt f i (range_lt (gs g) (st g j)) <= cnt f i (gl g)).
    { unfold gl. rewrite (range_app (gs g) (st g j) (ge g)) by lia. rewrite cnt_app. lia. }
    fold (gs g). rewrite (u32_small (gs g)) by lia.
    rewrite (u32_small (gs g + _)) by lia. rewrite (u32_small (gs g + _ + _)) by lia.
    apply Hkk. split.
    { rewrite Hist, u32_small by lia.
      rewrite (range_app (gs g) (st g j) (st g (j + 1))) by lia. now rewrite cnt_app. }
    split; [|split; [auto|split]].
    + intros t b Htt Hb.
      destruct (N.eq_dec t (g * tpg + j)) as [->|Ne].
      * destruct (N.eq_dec b i) as [->|Nb].
        -- rewrite mset_eq. f_equal. unfold entry. rewrite Dg, Dm, !N.ltb_irrefl, !N.eqb_refl.
           replace (j <? j + 1) with true by lia. cbn.
           unfold fin, s_. rewrite Dg, Dm. reflexivity.
        -- rewrite mset_neq by congruence. rewrite I1 by auto. f_equal. apply entry_same. lia.
      * rewrite mset_neq by (unfold local; intros [=]; lia). rewrite I1 by auto. f_equal.
        apply entry_same. pose proof (task_split t Htt) as (_ & _ & E).
        assert (t / tpg = g -> t mod tpg <> j) by (intros E1 E2; rewrite E1, E2 in E; auto). lia.
    + intros o k0 Ho Hk0. rewrite mset_neq; [auto|].
      destruct Hsep as (_ & _ & _ & S). specialize (S o Ho). unfold local. intros [=]. lia.
    + intros l L1 L2. rewrite mset_neq; [auto|]. intros ->. apply (L1 _ Ht). reflexivity.
  - intros sum m1 [-> I]. rewrite st_tpg by auto. apply K. auto.
Qed.

Lemma table_next g i : g < n -> table g (i + 1) = table g i ++
  match offsets with Some _ => if n =? 1 then row i else [] | None => [] end.
Proof.
  intros Hg. unfold table. destruct offsets; auto. destruct (N.eqb_spec n 1); auto.
  assert (g = 0) by lia. subst g. change (0 =? 0) with true. cbn iota. rewrite range_lt_snoc by lia.
  rewrite flat_map_app. cbn. now rewrite app_nil_r.
Qed.

Lemma mid_wp (m : mem N) g ucl k P m0 :
  g < n ->
  (offsets <> None -> 4 * B < 2 ^ 32) ->
  (forall o, offsets = Some o -> forall j, j < N.of_nat (length (table 0 B)) -> m (o, j) <> None) ->
  (forall t, t < n * tpg -> m (fresh, t) = Some (loc_ t)) ->
  acc_inv m g 0 0 ucl m0 ->
  (forall ucl' m1, acc_inv m g B 0 ucl' m1 ->
     wp (fun _ => True) (fun _ => True) (k ucl') P m1) ->
  wp (fun _ => True) (fun _ => True) (accum_mid offsets fresh bs B n tpg g ucl k) P m0.
Proof.
  intros Hg H4 Hoff Hptr I0 K. unfold accum_mid.
  pose proof (group_bound g Hg) as (G1 & G2 & _). pose proof (ok_bnd OK) as Bn.
  apply (wp_for _ _ _ (fun i s m1 => fst s = clt f i (gl g) /\ acc_inv m g i 0 (snd s) m1)).
  - lia.
  - cbn [fst snd]. split; auto. now rewrite clt_0.
  - intros i [go u] m1 kk Hi1 Hi2 [Ego I] Hkk. cbn [fst snd] in *.
    apply (inner_wp m g i go u); auto. intros m2 (J1 & J2 & J3 & J4).
    assert (Cs : clt f i (gl g) + cnt f i (gl g) <= ge g - gs g).
    { rewrite <- clt_succ. pose proof (clt_le f (i + 1) (gl g)) as C. unfold gl in C at 2.
      rewrite range_lt_length in C. lia. }
    assert (Loc : forall t b, t < n * tpg -> b < B ->
              m2 (loc_ t, b) = Some (entry g (i + 1) 0 t b)).
    { intros t b Ht Hb. rewrite J1 by auto. f_equal. apply entry_same.
      pose proof (task_split t Ht) as (_ & ? & _). lia. }
    assert (Ego' : u32 (go + cnt f i (gl g)) = clt f (i + 1) (gl g)).
    { rewrite u32_small by lia. rewrite clt_succ. lia. }
    pose proof (table_next g i Hg) as TN.
    assert (Tlen := table_len g (i + 1) Hg ltac:(lia)).
    assert (Skip : table g (i + 1) = table g i ->
      wp (fun _ => True) (fun _ => True) (kk (u32 (go + cnt f i (gl g)), u)) P m2).
    { intros E. apply Hkk. cbn [fst snd]. split; auto. unfold acc_inv. rewrite E.
      split; auto. }
    destruct offsets as [o|] eqn:Eo; [|apply Skip; rewrite TN; apply app_nil_r].
    destruct (N.eqb_spec n 1) as [En|En]; [|apply Skip; rewrite TN; apply app_nil_r].
    cbn [andb]. assert (g = 0) by lia. subst g.
    destruct (N.ltb_spec 0 (cnt f i (gl 0))) as [Pos|Zero].
    2:{ apply Skip. rewrite TN. unfold row. replace (cnt f i (gl 0)) with 0 by lia.
        cbn. apply app_nil_r. }
    assert (Er : row i = [i; clt f i (gl 0); cnt f i (gl 0); 0]).
    { unfold row. destruct (N.eqb_spec (cnt f i (gl 0)) 0); [lia|reflexivity]. }
    rewrite Er in TN.
    assert (L4 : N.of_nat (length (table 0 (i + 1))) = N.of_nat (length (table 0 i)) + 4).
    { rewrite TN, app_length. cbn [length]. lia. }
    specialize (H4 ltac:(discriminate)).
    rewrite (u32_small (u * 4)) by lia. rewrite (u32_small (u * 4 + 1)) by lia.
    rewrite (u32_small (u * 4 + 2)) by lia. rewrite (u32_small (u * 4 + 3)) by lia.
    rewrite (u32_small (u + 1)) by lia.
    assert (Ho : o < fresh) by (apply Hsep; auto).
    assert (Lpre : N.of_nat (length (table 0 (i + 1))) <= N.of_nat (length (table 0 B))).
    { unfold table. rewrite Eo. rewrite En. change (1 =? 1) with true. change (0 =? 0) with true. cbn iota.
      rewrite (range_app 0 (i + 1) B) by lia. rewrite flat_map_app, app_length. lia. }
    assert (Al : forall d, d < 4 -> m2 (o, u * 4 + d) <> None).
    { intros d Hd. rewrite J4.
      - apply (Hoff o); auto. lia.
      - cbn. unfold local. intros; lia.
      - intros o' Ho' [_ C]. cbn in C. lia. }
    cbn [wp]. pose proof (Al 0 ltac:(lia)) as Al0. rewrite N.add_0_r in Al0.
    split; auto. split; auto. split; auto.
    split; auto. split; auto. split; [rewrite mset_neq by (intros [=]; lia); apply Al; lia|].
    split; auto. split; auto.
    split; [rewrite !mset_neq by (intros [=]; lia); apply Al; lia|].
    split; auto. split; auto.
    split; [rewrite !mset_neq by (intros [=]; lia); apply Al; lia|].
    apply Hkk. cbn [fst snd]. split; auto.
    split; [|split; [lia|split]].
    + intros t b Ht Hb. rewrite !mset_neq by (unfold local; intros [=]; lia). auto.
    + intros o' k0 Ho' Hk0. assert (o' = o) by congruence. subst o'. rewrite L4 in Hk0. rewrite TN, <- Ego.
      destruct (N.lt_ge_cases k0 (u * 4)) as [L|G].
      * rewrite !mset_neq by (intros [=]; lia). rewrite (J3 o) by (auto; lia).
        rewrite nth_error_app1 by lia. reflexivity.
      * rewrite nth_error_app2 by lia.
        assert (E : k0 = u * 4 + 3 \/ k0 = u * 4 + 2 \/ k0 = u * 4 + 1 \/ k0 = u * 4) by lia.
        destruct E as [-> | [-> | [-> | ->]]].
        -- rewrite mset_eq. replace (_ - _)%nat with 3%nat by lia. reflexivity.
        -- rewrite mset_neq by (intros [=]; lia). rewrite mset_eq.
           replace (_ - _)%nat with 2%nat by lia. reflexivity.
        -- do 2 rewrite mset_neq by (intros [=]; lia).
           rewrite mset_eq. replace (_ - _)%nat with 1%nat by lia. reflexivity.
        -- do 3 rewrite mset_neq by (intros [=]; lia). rewrite mset_eq.
           replace (_ - _)%nat with O by lia. reflexivity.
    + intros l L1 L2. specialize (L2 o Eo).
      rewrite !mset_neq; try (intros ->; apply L2; cbn; lia).
      apply J4; auto. intros o' Ho' [E1 E2]. assert (o' = o) by congruence. subst o'.
      apply L2. split; auto. lia.
  - intros [go u] m1 [_ I]. cbn [fst snd] in *. apply K. auto.
Qed.

Definition utable : list N := table 0 B.

Lemma table_group g : g < n -> table g B = table (g + 1) 0.
Proof.
  intros Hg. unfold table. destruct offsets; auto. destruct (n =? 1); auto.
  destruct (N.eqb_spec g 0), (N.eqb_spec (g + 1) 0); auto; lia.
Qed.
Lemma table_last : table n 0 = utable.
Proof.
  unfold utable, table. pose proof n_pos. destruct offsets; auto. destruct (n =? 1); auto.
  destruct (N.eqb_spec n 0); [lia|reflexivity].
Qed.

Lemma accum_launch cs Q (m : mem N) :
  (offsets <> None -> 4 * B < 2 ^ 32) ->
  (forall o, offsets = Some o -> o <> uc /\ forall j, j < N.of_nat (length utable) -> m (o, j) <> None) ->
  m (uc, 0) <> None ->
  (forall t, t < n * tpg -> m (fresh, t) = Some (loc_ t)) ->
  (forall t b, t < n * tpg -> b < B -> m (loc_ t, b) = Some (hist t b)) ->
  (forall m',
     (forall t b, t < n * tpg -> b < B -> m' (loc_ t, b) = Some (fin t b)) ->
     m' (uc, 0) = Some (N.of_nat (length utable) / 4) ->
     (forall o k, offsets = Some o -> k < N.of_nat (length utable) ->
        m' (o, k) = nth_error utable (N.to_nat k)) ->
     (forall l, (forall t, t < n * tpg -> fst l <> loc_ t) -> l <> (uc, 0) ->
        (forall o, offsets = Some o -> ~ (fst l = o /\ snd l < N.of_nat (length utable))) ->
        m' l = m l) ->
     ensures cs Q m') ->
  ensures (Par [accum_kernel offsets uc fresh bs B n tpg] :: cs) Q m.
Proof.
  intros H4 Hoff Huc Hptr Hh K.
  apply (single_launch _ (fun mf =>
     (forall t b, t < n * tpg -> b < B -> mf (loc_ t, b) = Some (fin t b)) /\
     mf (uc, 0) = Some (N.of_nat (length utable) / 4) /\
     (forall o k, offsets = Some o -> k < N.of_nat (length utable) ->
        mf (o, k) = nth_error utable (N.to_nat k)) /\
     (forall l, (forall t, t < n * tpg -> fst l <> loc_ t) -> l <> (uc, 0) ->
        (forall o, offsets = Some o -> ~ (fst l = o /\ snd l < N.of_nat (length utable))) ->
        mf l = m l))).
  2:{ intros mf m' (P1 & P2 & P3 & P4) E. apply K; intros; rewrite E; auto. }
  unfold accum_kernel.
  apply (wp_for _ _ _ (fun g u m1 => acc_inv m g 0 0 u m1)).
  - lia.
  - assert (T0 : table 0 0 = []).
    { unfold table. change (0 =? 0) with true. cbn iota. rewrite range_lt_nil by lia.
      destruct offsets; auto. destruct (n =? 1); auto. }
    split; [|rewrite T0; split; [reflexivity|split]].
    + intros t b Ht Hb. rewrite Hh by auto. f_equal. unfold entry.
      replace (t / tpg <? 0) with false by (symmetry; apply N.ltb_ge, N.le_0_l).
      replace (b <? 0) with false by (symmetry; apply N.ltb_ge, N.le_0_l).
      replace (t mod tpg <? 0) with false by (symmetry; apply N.ltb_ge, N.le_0_l). cbn. now rewrite !andb_false_r.
    + cbn. intros; lia.
    + auto.
  - intros g u m1 kk Hg1 Hg2 I Hkk. apply (mid_wp m g u); auto.
    { intros o Ho. apply Hoff; auto. }
    intros u' m2 (J1 & J2 & J3 & J4). apply Hkk. unfold acc_inv. rewrite <- table_group by auto.
    split; auto. intros t b Ht Hb. rewrite J1 by auto. f_equal. apply entry_same.
    pose proof (task_split t Ht). lia.
  - intros u m1 (I1 & I2 & I3 & I4). rewrite table_last in *. cbn [wp].
    assert (Nuc : forall t, t < n * tpg -> uc <> loc_ t) by (unfold local; intros; lia).
    split; auto. split; auto. split.
    { rewrite I4; auto. intros o Ho [E _]. cbn in E. destruct (Hoff o Ho). congruence. }
    repeat split.
    + intros t b Ht Hb. rewrite mset_neq by (intros [=]; eapply Nuc; eauto). rewrite I1 by auto.
      f_equal. unfold entry. pose proof (task_split t Ht).
      replace (t / tpg <? n) with true by lia. reflexivity.
    + rewrite mset_eq. f_equal. rewrite <- I2, N.div_mul; auto. lia.
    + intros o k0 Ho Hk. rewrite mset_neq by (intros [=]; destruct (Hoff o Ho); congruence). auto.
    + intros l L1 L2 L3. rewrite mset_neq by auto. auto.
Qed.

(** ** Phase 2 *)

Definition grp i := i / bs.
Definition pos i := gs (grp i) + gpos f (gs (grp i)) (ge (grp i)) i.

Lemma grp_of i : i < size -> grp i < n /\ gs (grp i) <= i < ge (grp i).
Proof.
  intros Hi. pose proof (ok_bs OK). pose proof (N.div_mod i bs ltac:(lia)).
  pose proof (N.mod_lt i bs ltac:(lia)).
  assert (gs (grp i) <= i < gs (grp i) + bs) by (unfold gs, grp; lia).
  split.
  - apply N.nle_gt. intros C. rewrite (ok_n OK) in C. apply cdiv_le_iff in C; auto.
    unfold gs in *. lia.
  - unfold ge, gs in *. lia.
Qed.

Lemma grp_unique g i : gs g <= i < ge g -> grp i = g.
Proof.
  intros H. unfold grp. symmetry. unfold gs, ge in H. apply (N.div_unique _ _ _ (i - g * bs)); lia.
Qed.

Lemma group_vals g i : gs g <= i < ge g -> f i < B.
Proof. intros H. apply f_lt. unfold ge in H. lia. Qed.

Lemma pos_bound i : i < size -> gs (grp i) <= pos i < ge (grp i).
Proof.
  intros Hi. destruct (grp_of i Hi) as [Hg R].
  pose proof (gpos_bound f B _ _ (group_vals (grp i)) i R). unfold pos. lia.
Qed.

Lemma pos_inj i j : i < size -> j < size -> pos i = pos j -> i = j.
Proof.
  intros Hi Hj E. destruct (grp_of i Hi) as [Hg R]. destruct (grp_of j Hj) as [Hg' R'].
  pose proof (pos_bound i Hi) as Bi. pose proof (pos_bound j Hj) as Bj.
  assert (EG : grp i = grp j).
  { rewrite <- (grp_unique _ _ Bi), <- (grp_unique _ _ Bj). congruence. }
  unfold pos in E. rewrite <- EG in *.
  eapply (gpos_inj f B _ _ (group_vals (grp i))); eauto. lia.
Qed.

Lemma task_of i : i < size -> exists t, t < n * tpg /\ s_ t <= i < e_ t.
Proof.
  intros Hi. destruct (grp_of i Hi) as [Hg R].
  assert (G : forall k, k <= tpg -> i < st (grp i) k -> exists t, t < n * tpg /\ s_ t <= i < e_ t).
  { intros k. induction k as [|k IH] using N.peano_ind; intros Hk H.
    - rewrite st_0 in H by auto. lia.
    - destruct (N.lt_ge_cases i (st (grp i) k)) as [L|G]; [apply IH; auto; lia|].
      exists (grp i * tpg + k). split.
      + assert ((grp i + 1) * tpg <= n * tpg) by (apply N.mul_le_mono_r; lia). lia.
      + unfold s_, e_.
        replace ((grp i * tpg + k) / tpg) with (grp i) by (apply (N.div_unique _ _ _ k); lia).
        replace ((grp i * tpg + k) mod tpg) with k by (apply (N.mod_unique _ _ (grp i)); lia).
        rewrite N.add_1_r. lia. }
  apply (G tpg); [lia|]. rewrite st_tpg; auto. lia.
Qed.

Lemma emit_launch cs Q (m : mem N) :
  src <> perm -> holds m src xs ->
  (forall i, i < size -> m (perm, i) <> None) ->
  (forall t, t < n * tpg -> m (fresh, t) = Some (loc_ t)) ->
  (forall t b, t < n * tpg -> b < B -> m (loc_ t, b) = Some (fin t b)) ->
  (forall m',
     (forall i, i < size -> m' (perm, pos i) = Some i) ->
     (forall l, (forall t, t < n * tpg -> fst l <> loc_ t) ->
        ~ (fst l = perm /\ snd l < size) -> m' l = m l) ->
     ensures cs Q m') ->
  ensures (Par (units (n * tpg) (emit_kernel src perm fresh size bs tpg task)) :: cs) Q m.
Proof.
  intros Hsp Hh Hperm Hptr Hfin K. destruct Hsep as (S1 & S2 & _ & _).
  set (W := fun t (l : loc) => fst l = loc_ t /\ snd l < B \/
                               exists i, s_ t <= i < e_ t /\ l = (perm, pos i)).
  assert (Hes : forall t, t < n * tpg -> e_ t <= size) by (intros t Ht; apply task_range_ok; auto).
  apply (units_wp _ _ (fun t l => (fst l = src \/ fst l = fresh) \/ W t l) W
           (fun t mf => forall i, s_ t <= i < e_ t -> mf (perm, pos i) = Some i)).
  - unfold W, local. intros t u l Ht Hu Ne [(E & _)|(i & Ri & ->)] [[E'|E']|[(E' & _)|(i' & Ri' & E')]];
      subst; cbn in *; try lia.
    + injection E' as E'. apply pos_inj in E'; [|specialize (Hes t Ht); lia|specialize (Hes u Hu); lia].
      subst i'. apply (tasks_apart t u i); auto.
  - auto.
  - intros t Ht. unfold emit_kernel. destruct (task_range_ok t Ht) as (-> & H1 & H2 & H3).
    destruct (task_split t Ht) as (Hg & Hj & _).
    pose proof (st_range (t / tpg) (t mod tpg) Hg) as R1.
    pose proof (st_range (t / tpg) (t mod tpg + 1) Hg) as R2.
    fold (s_ t) in R1. fold (e_ t) in R2.
    pose proof (group_bound _ Hg) as (G1 & G2 & _). pose proof (ok_bnd OK) as Bn.
    cbn [wp]. split; auto. exists (loc_ t). split; auto.
    rewrite range_ne_lt by lia.
    apply (wp_for _ _ _ (fun i _ m' =>
             (forall b, b < B -> m' (loc_ t, b) = Some (gs (t / tpg) + clt f b (gl (t / tpg)) +
                cnt f b (range_lt (gs (t / tpg)) i))) /\
             (forall i', s_ t <= i' < i -> m' (perm, pos i') = Some i') /\
             (forall l, fst l <> loc_ t -> (forall i', s_ t <= i' < i -> l <> (perm, pos i')) ->
                m' l = m l))).
    + auto.
    + split; [intros b Hb; apply Hfin; auto|]. split; auto. intros; lia.
    + intros i [] m' kk Hi1 Hi2 (I1 & I2 & I3) Hkk. cbn [wp].
      split; auto. exists (f i). split.
      { rewrite I3; [apply src_read; auto; lia|cbn; unfold local; lia|].
        intros i' _ [=]. congruence. }
      pose proof (f_lt i ltac:(lia)) as Hfi. cbv beta in Hfi.
      split; [right; left; auto|].
      assert (Gi : grp i = t / tpg) by (apply grp_unique; lia).
      assert (Ep : gs (t / tpg) + clt f (f i) (gl (t / tpg)) +
                   cnt f (f i) (range_lt (gs (t / tpg)) i) = pos i).
      { unfold pos, gpos. rewrite Gi. fold (gl (t / tpg)). lia. }
      exists (pos i). split; [rewrite I1 by auto; cbv beta in Ep; rewrite Ep; auto|].
      pose proof (pos_bound i ltac:(lia)) as PB. rewrite Gi in PB.
      split; [right; left; auto|]. split; [left; auto|]. split.
      { rewrite I1 by auto. discriminate. }
      assert (Wp : W t (perm, pos i)) by (right; exists i; split; auto; lia).
      split; [right; auto|]. split; [auto|]. split.
      { rewrite mset_neq by (unfold local; intros [=]; lia). rewrite I3.
        - apply Hperm. lia.
        - cbn. unfold local. lia.
        - intros i' Hi' [=]. apply pos_inj in H0; lia. }
      apply Hkk. split; [|split].
      * intros b Hb. rewrite mset_neq by (unfold local; intros [=]; lia).
        rewrite range_lt_snoc, cnt_app, cnt_one by lia.
        destruct (N.eqb_spec (f i) b) as [<-|Nb].
        -- rewrite mset_eq. f_equal. rewrite u32_small by lia. rewrite <- Ep. lia.
        -- rewrite mset_neq by congruence. rewrite I1 by auto. f_equal. lia.
      * intros i' Hi'. destruct (N.eq_dec i' i) as [->|Ne]; [apply mset_eq|].
        rewrite !mset_neq.
        -- apply I2. lia.
        -- unfold local. intros [=]. lia.
        -- intros [=]. apply pos_inj in H0; lia.
      * intros l L1 L2. rewrite !mset_neq.
        -- apply I3; auto. intros i' Hi'. apply L2. lia.
        -- intros ->. apply L1. reflexivity.
        -- apply L2. lia.
    + intros [] m' (I1 & I2 & I3). cbn [wp]. auto.
  - intros mf m' HP M1 M2. apply K.
    + intros i Hi. destruct (task_of i Hi) as (t & Ht & Ri).
      rewrite (M1 t (perm, pos i) Ht); [apply HP; auto|]. right. eauto.
    + intros l L1 L2. apply M2. intros t Ht [(E & _)|(i & Ri & ->)]; [eapply L1; eauto|].
      apply L2. cbn. split; auto. specialize (Hes t Ht).
      pose proof (pos_bound i ltac:(lia)). unfold ge in *. lia.
Qed.
End Mk.
