From Verif Require Import Base Gemm_Model Gemm_Spec Gemm_Base.
Local Open Scope N_scope.
#[local] Ltac Zify.zify_post_hook ::= idtac.

Lemma radix_inj : forall b k m k' m', m < b -> m' < b -> k * b + m = k' * b + m' -> k = k' /\ m = m'.
Proof.
  intros b k m k' m' L L' E. assert (X : k = k').
  { destruct (N.lt_trichotomy k k') as [H|[H|H]]; [|exact H|]; exfalso; [assert (k * b + b <= k' * b) by nia|assert (k' * b + b <= k * b) by nia]; lia. }
  subst. split; [reflexivity|lia].
Qed.
Lemma lane : forall n l, 0 < l -> n / l * l + n mod l = n.
Proof. intros n l L. pose proof (N.div_mod n l ltac:(lia)). lia. Qed.
Lemma lane_le : forall n l, 0 < l -> n / l * l <= n.
Proof. intros n l L. pose proof (lane n l L). lia. Qed.
Lemma quot : forall b k m, m < b -> (k * b + m) / b = k.
Proof. intros b k m L. rewrite N.add_comm, N.div_add by lia. rewrite N.div_small by exact L. reflexivity. Qed.

Section P.
Context {T Acc : Type}.
Variables (widen : T -> Acc) (narrow : Acc -> T) (zero : Acc) (mac : Acc -> Acc -> Acc -> Acc) (junk : Acc).
Variables MR NR lanes KC NCmax : N.
Hypothesis ht : tiles MR NR lanes KC NCmax.
Let MR0 : 0 < MR. Proof. apply ht. Qed.
Let NR0 : 0 < NR. Proof. apply ht. Qed.
Let L0 : 0 < lanes. Proof. apply ht. Qed.
Let MN : MR * NR <= 2 ^ 32. Proof. apply ht. Qed.

Lemma pack_a_ok : forall (m0 : mem Acc) At A M K i_start kc0 kc_len m_valid k m, M <= 2 ^ 32 -> kc0 + kc_len <= 2 ^ 32 -> m_valid <= M - i_start ->
  k < kc_len -> m < MR -> m < m_valid ->
  puts m0 (pack_a widen zero MR At A M K i_start kc0 kc_len m_valid) (k * MR + m) = widen (A (a_at At M K (i_start + m) (kc0 + k))).
Proof.
  intros m0 At A M K i_start kc0 kc_len m_valid k m HM HK HV Lk Lm Lv. unfold pack_a, a_at. destruct At; rewrite grid_map; apply puts_at.
  - rewrite map_map. apply in_map_iff. exists (k, m). split; [reflexivity|]. apply in_prod; apply in_upto; assumption.
  - intros w W E. apply in_map_iff in W. destruct W as ([k' m'] & <- & I). apply in_prod_iff in I. rewrite !in_upto in I. cbn [fst snd] in *. destruct I as [I1 I2].
    destruct (radix_inj MR k' m' k m I2 Lm E) as [-> ->]. rewrite (proj2 (N.ltb_lt m m_valid) Lv). rewrite (u32_small (kc0 + k)) by lia. do 2 f_equal. lia.
  - rewrite map_map. apply in_map_iff. exists (m, k). split; [reflexivity|]. apply in_prod; apply in_upto; assumption.
  - intros w W E. apply in_map_iff in W. destruct W as ([m' k'] & <- & I). apply in_prod_iff in I. rewrite !in_upto in I. cbn [fst snd] in *. destruct I as [I1 I2].
    destruct (radix_inj MR k' m' k m I1 Lm E) as [-> ->]. rewrite (proj2 (N.ltb_lt m m_valid) Lv). rewrite (u32_small (i_start + m)) by lia. do 2 f_equal. lia.
Qed.

(** what is known of a write of [pack_b] *)
Lemma pack_b_in : forall Bt (B : mem T) o Nc K j_start kc0 kc_len n_valid w, In w (pack_b widen zero NR Bt B o Nc K j_start kc0 kc_len n_valid) ->
  Nc <= 2 ^ 32 -> kc0 + kc_len <= 2 ^ 32 -> n_valid <= Nc - j_start ->
  exists k n, k < kc_len /\ n < NR /\ fst w = o + (k * NR + n) /\ (n < n_valid -> snd w = widen (B (b_at Bt Nc K (kc0 + k) (j_start + n)))).
Proof.
  intros Bt B o Nc K j_start kc0 kc_len n_valid w I HN HK HV. unfold pack_b in I. destruct Bt; rewrite grid_map in I; apply in_map_iff in I; destruct I as ([x y] & <- & I);
    apply in_prod_iff in I; rewrite !in_upto in I; cbn [fst snd] in *; destruct I as [I1 I2].
  - exists y, x. split; [exact I2|]. split; [exact I1|]. split; [reflexivity|]. intros L. rewrite (proj2 (N.ltb_lt x n_valid) L). rewrite (u32_small (j_start + x)) by lia. unfold b_at. do 2 f_equal. lia.
  - exists x, y. split; [exact I1|]. split; [exact I2|]. split; [reflexivity|]. intros L. rewrite (proj2 (N.ltb_lt y n_valid) L). rewrite (u32_small (kc0 + x)) by lia. unfold b_at. do 2 f_equal. lia.
Qed.
Lemma pack_b_has : forall Bt (B : mem T) o Nc K j_start kc0 kc_len n_valid k n, k < kc_len -> n < NR ->
  In (o + (k * NR + n)) (map fst (pack_b widen zero NR Bt B o Nc K j_start kc0 kc_len n_valid)).
Proof.
  intros Bt B o Nc K j_start kc0 kc_len n_valid k n Lk Ln. unfold pack_b. destruct Bt; rewrite grid_map, map_map; apply in_map_iff.
  - exists (n, k). split; [reflexivity|]. apply in_prod; apply in_upto; assumption.
  - exists (k, n). split; [reflexivity|]. apply in_prod; apply in_upto; assumption.
Qed.

Variables (At Bt : bool) (A B : mem T) (M Nc K jc pc kc n_panel slabs tail cbase obase : N) (first : bool).
Hypothesis hM : M <= 2 ^ 32.
Hypothesis hMN : M * Nc < 2 ^ 32.
Hypothesis hN : Nc <= 2 ^ 32.
Hypothesis hp : jc + n_panel <= Nc.
Hypothesis hk : pc + kc <= 2 ^ 32.
Hypothesis hkc : kc <= KC.
Hypothesis hs : slabs = (n_panel + NR - 1) / NR.
Hypothesis htail : tail = n_panel mod NR.

Lemma n_valid_ok : forall s, s < slabs -> (if (0 <? tail) && (s =? slabs - 1) then tail else NR) = N.min NR (n_panel - s * NR).
Proof.
  intros s L. rewrite hs in *. pose proof (proj1 (ceil_spec n_panel NR s NR0) L) as L1.
  assert (NZ : NR <> 0) by lia. pose proof (N.div_mod n_panel NR NZ) as D. pose proof (N.mod_lt n_panel NR NZ) as ML. rewrite <- htail in D, ML.
  destruct (N.ltb_spec 0 tail) as [P|P]; cbn [andb].
  - destruct (N.eqb_spec s ((n_panel + NR - 1) / NR - 1)) as [E|E].
    + assert (G : ~ (s + 1 < (n_panel + NR - 1) / NR)) by lia. rewrite ceil_spec in G by exact NR0.
      assert (s = n_panel / NR). { revert D G L1. generalize (n_panel / NR). intros q D G L1. destruct (N.lt_trichotomy s q) as [H|[H|H]]; [|exact H|]; exfalso; [assert ((s + 1) * NR <= NR * q) by nia|assert (NR * q + NR <= s * NR) by nia]; lia. }
      subst s. rewrite N.min_r; nia.
    + assert (G : s + 1 < (n_panel + NR - 1) / NR) by lia. rewrite ceil_spec in G by exact NR0. rewrite N.min_l; [reflexivity|]. rewrite N.mul_add_distr_r in G. lia.
  - assert (tail = 0) by lia. rewrite N.min_l; [reflexivity|]. assert (s < n_panel / NR) by nia. assert (s * NR + NR <= NR * (n_panel / NR)) by nia. lia.
Qed.

(** ** Packing B, tasks in any order *)
Definition n_valid (s : N) : N := N.min NR (n_panel - s * NR).
Lemma packed : forall (pb0 : mem Acc) tasks, Permutation tasks (upto slabs) ->
  let pb := puts pb0 (flat_map (fun idx => pack_b widen zero NR Bt B (idx * KC * NR) Nc K (jc + idx * NR) pc kc (if (0 <? tail) && (idx =? slabs - 1) then tail else NR)) tasks) in
  forall s k n, s < slabs -> k < kc -> n < n_valid s -> pb (s * KC * NR + (k * NR + n)) = widen (B (b_at Bt Nc K (pc + k) (jc + s * NR + n))).
Proof.
  intros pb0 tasks PT pb s k n Ls Lk Ln. assert (Ln' : n < NR) by (unfold n_valid in Ln; lia). unfold pb. apply puts_at.
  - rewrite map_flat_map. apply in_flat_map. exists s. split; [apply (Permutation_in _ (Permutation_sym PT)), in_upto, Ls|]. apply pack_b_has; assumption.
  - intros w W E. apply in_flat_map in W. destruct W as (s' & Is & W). apply (Permutation_in _ PT), in_upto in Is.
    rewrite (n_valid_ok s' Is) in W. pose proof (proj1 (ceil_spec n_panel NR s' NR0) ltac:(rewrite <- hs; exact Is)) as Q.
    destruct (pack_b_in _ _ _ _ _ _ _ _ _ w W hN hk ltac:(lia)) as (k' & n' & Lk' & Ln2 & F & V). rewrite F in E.
    assert (X : (s' * KC + k') * NR + n' = (s * KC + k) * NR + n) by lia. destruct (radix_inj NR _ _ _ _ Ln2 Ln' X) as [Y ->].
    destruct (radix_inj KC s' k' s k ltac:(lia) ltac:(lia) Y) as [-> ->]. apply V. unfold n_valid in Ln. lia.
Qed.

(** ** One tile *)
Definition cell (base i j : N) : N := base + i * Nc + j.
Definition ext (i j : N) (v : Acc) : Acc :=
  fold_left (fun acc k => mac acc (widen (A (a_at At M K i (pc + k)))) (widen (B (b_at Bt Nc K (pc + k) j)))) (upto kc) (if first then zero else v).
Definition in_tile (r s i j : N) : Prop := i < M /\ i / MR = r /\ jc <= j < jc + n_panel /\ (j - jc) / NR = s.
Lemma in_tile_iff : forall r s i j, in_tile r s i j <-> exists m n, m < N.min MR (M - r * MR) /\ n < n_valid s /\ i = r * MR + m /\ j = jc + s * NR + n.
Proof.
  intros r s i j. unfold in_tile, n_valid. split.
  - intros (H1 & <- & H2 & <-). assert (Z1 : MR <> 0) by lia. assert (Z2 : NR <> 0) by lia. pose proof (N.div_mod i MR Z1) as D1. pose proof (N.mod_lt i MR Z1). pose proof (N.div_mod (j - jc) NR Z2) as D2. pose proof (N.mod_lt (j - jc) NR Z2).
    exists (i mod MR), ((j - jc) mod NR). repeat split; lia.
  - intros (m & n & H1 & H2 & -> & ->). split; [lia|]. split; [apply quot; lia|]. split; [lia|]. replace (jc + s * NR + n - jc) with (s * NR + n) by lia. apply quot. lia.
Qed.
Lemma cell_inj : forall base i j i' j', j < Nc -> j' < Nc -> cell base i j = cell base i' j' -> i = i' /\ j = j'.
Proof. intros base i j i' j' L L' E. unfold cell in E. apply (radix_inj Nc); try assumption. lia. Qed.

Variables (pa pb : mem Acc) (r s : N).
Hypothesis hr : r * MR < M.
Hypothesis hsl : s < slabs.
Hypothesis hpa : forall k m, k < kc -> m < N.min MR (M - r * MR) -> pa (k * MR + m) = widen (A (a_at At M K (r * MR + m) (pc + k))).
Hypothesis hpb : forall k n, k < kc -> n < n_valid s -> pb (s * KC * NR + (k * NR + n)) = widen (B (b_at Bt Nc K (pc + k) (jc + s * NR + n))).
Lemma micro_fold : forall m n v, m < N.min MR (M - r * MR) -> n < n_valid s ->
  fold_left (fun acc k => mac acc (pa (k * MR + m)) (pb (s * KC * NR + (k * NR + n / lanes * lanes + n mod lanes)))) (upto kc) (if first then zero else v) = ext (r * MR + m) (jc + s * NR + n) v.
Proof.
  intros m n v Lm Ln. unfold ext. generalize (if first then zero else v). assert (F : Forall (fun k => k < kc) (upto kc)) by (apply Forall_forall; intros k I; apply in_upto, I).
  induction F as [|k l Lk F IH]; intros a; [reflexivity|]. cbn [fold_left]. rewrite IH. rewrite hpa by assumption. replace (k * NR + n / lanes * lanes + n mod lanes) with (k * NR + n) by (pose proof (lane n lanes L0); lia). rewrite hpb by assumption. reflexivity.
Qed.
Lemma micro_fold' : forall m n (x : Acc), m < N.min MR (M - r * MR) -> n < n_valid s -> forall v, (first = false -> x = v) ->
  fold_left (fun acc k => mac acc (pa (k * MR + m)) (pb (s * KC * NR + (k * NR + n / lanes * lanes + n mod lanes)))) (upto kc) (if first then zero else x) = ext (r * MR + m) (jc + s * NR + n) v.
Proof. intros m n x Lm Ln v E. rewrite micro_fold by assumption. unfold ext. destruct first; [reflexivity|]. rewrite E by reflexivity. reflexivity. Qed.

Lemma col_lt : forall n, n < n_valid s -> jc + s * NR + n < Nc.
Proof. intros n L. unfold n_valid in L. lia. Qed.
Lemma row_fits : forall m n, m < M - r * MR -> n < n_valid s -> m * Nc + n < 2 ^ 32.
Proof. intros m n Lm Ln. pose proof (col_lt n Ln). assert (m * Nc + Nc <= M * Nc) by nia. lia. Qed.

Lemma tile_sum : forall st : state, let st' := tile narrow zero mac junk MR NR lanes KC pa pb cbase obase M Nc (r * MR) jc kc slabs tail first false st s in
  snd st' = snd st /\ (forall i j, in_tile r s i j -> fst st' (cell cbase i j) = ext i j (fst st (cell cbase i j))) /\
  (forall x, (forall i j, in_tile r s i j -> x <> cell cbase i j) -> fst st' x = fst st x).
Proof.
  intros [acc out]. cbn [fst snd]. unfold tile. rewrite (n_valid_ok s hsl). fold (n_valid s). rewrite andb_true_r.
  destruct ((N.min MR (M - r * MR) =? MR) && (n_valid s =? NR)) eqn:Bk; cbn [fst snd].
  - apply andb_true_iff in Bk. destruct Bk as [B1 B2]. apply N.eqb_eq in B1, B2. split; [reflexivity|].
    assert (CE : forall m n, m < MR -> n < NR -> cbase + r * MR * Nc + jc + s * NR + u32 (m * Nc + n / lanes * lanes) + n mod lanes = cell cbase (r * MR + m) (jc + s * NR + n)).
    { intros m n Lm Ln. pose proof (lane n lanes L0). pose proof (row_fits m n ltac:(lia) ltac:(lia)). rewrite (u32_small (m * Nc + n / lanes * lanes)) by lia. unfold cell. lia. }
    unfold micro. rewrite grid_map. split.
    + intros i j I. apply in_tile_iff in I. destruct I as (m & n & Lm & Ln & -> & ->). apply puts_at.
      * rewrite map_map. apply in_map_iff. exists (m, n). cbn [fst snd]. split; [apply CE; lia|]. apply in_prod; apply in_upto; lia.
      * intros w W E. apply in_map_iff in W. destruct W as ([m' n'] & <- & I). apply in_prod_iff in I. rewrite !in_upto in I. cbn [fst snd] in *. destruct I as [I1 I2]. rewrite (CE m' n' I1 I2) in *.
        apply cell_inj in E; [|apply col_lt; lia|apply col_lt; exact Ln]. destruct E as [E1 E2]. assert (m' = m) by lia. assert (n' = n) by lia. subst m' n'. apply micro_fold; assumption.
    + intros x H. apply puts_map_other. intros [m n] I. apply in_prod_iff in I. rewrite !in_upto in I. cbn [fst snd]. rewrite CE by apply I. intros E. destruct I as [I1 I2].
      refine (H _ _ _ (eq_sym E)). apply in_tile_iff. exists m, n. repeat split; lia.
  - clear Bk. split; [reflexivity|]. rewrite !(grid_map _ _ _ (fun r b => (r, b))). rewrite !map_map.
    set (valid := list_prod _ _). set (scratch0 := if first then _ else _).
    assert (IV : forall m n, In (m, n) valid <-> m < N.min MR (M - r * MR) /\ n < n_valid s) by (intros; unfold valid; rewrite in_prod_iff, !in_upto; tauto).
    assert (CE : forall m n, In (m, n) valid -> cbase + r * MR * Nc + jc + s * NR + u32 (m * Nc + n) = cell cbase (r * MR + m) (jc + s * NR + n)).
    { intros m n I. apply IV in I. pose proof (row_fits m n ltac:(lia) (proj2 I)). rewrite (u32_small (m * Nc + n)) by lia. unfold cell. lia. }
    assert (SC : forall m n, m < N.min MR (M - r * MR) -> n < n_valid s -> first = false -> scratch0 (m * NR + n) = acc (cell cbase (r * MR + m) (jc + s * NR + n))).
    { intros m n Lm Ln F. unfold scratch0. rewrite F. apply puts_at.
      - rewrite map_map. apply in_map_iff. exists (m, n). cbn [fst snd]. split; [reflexivity|]. apply IV. auto.
      - intros w W E. apply in_map_iff in W. destruct W as ([m' n'] & <- & I). cbn [fst snd] in *. rewrite (CE m' n' I) in *. apply IV in I. unfold n_valid in *. destruct (radix_inj NR m' n' m n ltac:(lia) ltac:(lia) E) as [-> ->]. reflexivity. }
    assert (SV : forall m n, m < N.min MR (M - r * MR) -> n < n_valid s ->
      puts scratch0 (micro zero mac MR NR lanes pa pb (s * KC * NR) scratch0 0 NR kc first) (m * NR + n) = ext (r * MR + m) (jc + s * NR + n) (acc (cell cbase (r * MR + m) (jc + s * NR + n)))).
    { intros m n Lm Ln.
      assert (CN : forall m n, m < MR -> n < NR -> 0 + u32 (m * NR + n / lanes * lanes) + n mod lanes = m * NR + n).
      { intros m' n' Lm' Ln'. pose proof (lane n' lanes L0). assert (m' * NR + NR <= MR * NR) by nia. rewrite (u32_small (m' * NR + n' / lanes * lanes)) by lia. lia. }
      assert (Ln' : n < NR) by (unfold n_valid in Ln; lia). assert (Lm' : m < MR) by lia.
      unfold micro. rewrite grid_map. apply puts_at.
      - rewrite map_map. apply in_map_iff. exists (m, n). cbn [fst snd]. split; [apply CN; assumption|]. apply in_prod; apply in_upto; assumption.
      - intros w W E. apply in_map_iff in W. destruct W as ([m' n'] & <- & I). apply in_prod_iff in I. rewrite !in_upto in I. cbn [fst snd] in *. destruct I as [I1 I2]. rewrite (CN m' n' I1 I2) in *.
        destruct (radix_inj NR m' n' m n I2 Ln' E) as [-> ->]. apply micro_fold'; [assumption|assumption|]. intros F. apply SC; assumption. }
    split.
    + intros i j I. apply in_tile_iff in I. destruct I as (m & n & Lm & Ln & -> & ->). apply puts_at.
      * rewrite map_map. apply in_map_iff. exists (m, n). cbn [fst snd]. split; [apply CE; apply IV; auto|]. apply IV. auto.
      * intros w W E. apply in_map_iff in W. destruct W as ([m' n'] & <- & I). cbn [fst snd] in *. rewrite (CE m' n' I) in *. apply IV in I. destruct I as [I1 I2].
        apply cell_inj in E; [|apply col_lt; exact I2|apply col_lt; exact Ln]. destruct E as [E1 E2]. assert (m' = m) by lia. assert (n' = n) by lia. subst m' n'. apply SV; assumption.
    + intros x H. apply puts_map_other with (f := fun p : N * N => cbase + r * MR * Nc + jc + s * NR + u32 (fst p * Nc + snd p)). intros [m n] I. cbn [fst snd]. rewrite CE by exact I. apply IV in I. intros E.
      refine (H _ _ _ (eq_sym E)). apply in_tile_iff. exists m, n. repeat split; tauto.
Qed.
Lemma tile_narrow : forall st : state, let st' := tile narrow zero mac junk MR NR lanes KC pa pb cbase obase M Nc (r * MR) jc kc slabs tail first true st s in
  fst st' = fst st /\ (forall i j, in_tile r s i j -> snd st' (cell obase i j) = narrow (ext i j (fst st (cell cbase i j)))) /\
  (forall x, (forall i j, in_tile r s i j -> x <> cell obase i j) -> snd st' x = snd st x).
Proof.
  intros [acc out]. cbn [fst snd]. unfold tile. rewrite (n_valid_ok s hsl). fold (n_valid s). rewrite andb_false_r. cbn [fst snd].
  split; [reflexivity|]. rewrite !(grid_map _ _ _ (fun r b => (r, b))). rewrite !map_map.
  set (valid := list_prod _ _). set (scratch0 := if first then _ else _).
  assert (IV : forall m n, In (m, n) valid <-> m < N.min MR (M - r * MR) /\ n < n_valid s) by (intros; unfold valid; rewrite in_prod_iff, !in_upto; tauto).
  assert (CE : forall b m n, In (m, n) valid -> b + r * MR * Nc + jc + s * NR + u32 (m * Nc + n) = cell b (r * MR + m) (jc + s * NR + n)).
  { intros b m n I. apply IV in I. pose proof (row_fits m n ltac:(lia) (proj2 I)). rewrite (u32_small (m * Nc + n)) by lia. unfold cell. lia. }
  assert (SC : forall m n, m < N.min MR (M - r * MR) -> n < n_valid s -> first = false -> scratch0 (m * NR + n) = acc (cell cbase (r * MR + m) (jc + s * NR + n))).
  { intros m n Lm Ln F. unfold scratch0. rewrite F. apply puts_at.
    - rewrite map_map. apply in_map_iff. exists (m, n). cbn [fst snd]. split; [reflexivity|]. apply IV. auto.
    - intros w W E. apply in_map_iff in W. destruct W as ([m' n'] & <- & I). cbn [fst snd] in *. rewrite (CE _ m' n' I) in *. apply IV in I. unfold n_valid in *. destruct (radix_inj NR m' n' m n ltac:(lia) ltac:(lia) E) as [-> ->]. reflexivity. }
  assert (SV : forall m n, m < N.min MR (M - r * MR) -> n < n_valid s ->
    puts scratch0 (micro zero mac MR NR lanes pa pb (s * KC * NR) scratch0 0 NR kc first) (m * NR + n) = ext (r * MR + m) (jc + s * NR + n) (acc (cell cbase (r * MR + m) (jc + s * NR + n)))).
  { intros m n Lm Ln.
    assert (CN : forall m n, m < MR -> n < NR -> 0 + u32 (m * NR + n / lanes * lanes) + n mod lanes = m * NR + n).
    { intros m' n' Lm' Ln'. pose proof (lane n' lanes L0). assert (m' * NR + NR <= MR * NR) by nia. rewrite (u32_small (m' * NR + n' / lanes * lanes)) by lia. lia. }
    assert (Ln' : n < NR) by (unfold n_valid in Ln; lia). assert (Lm' : m < MR) by lia.
    unfold micro. rewrite grid_map. apply puts_at.
    - rewrite map_map. apply in_map_iff. exists (m, n). cbn [fst snd]. split; [apply CN; assumption|]. apply in_prod; apply in_upto; assumption.
    - intros w W E. apply in_map_iff in W. destruct W as ([m' n'] & <- & I). apply in_prod_iff in I. rewrite !in_upto in I. cbn [fst snd] in *. destruct I as [I1 I2]. rewrite (CN m' n' I1 I2) in *.
      destruct (radix_inj NR m' n' m n I2 Ln' E) as [-> ->]. apply micro_fold'; [assumption|assumption|]. intros F. apply SC; assumption. }
  split.
  - intros i j I. apply in_tile_iff in I. destruct I as (m & n & Lm & Ln & -> & ->). apply puts_at.
    + rewrite map_map. apply in_map_iff. exists (m, n). cbn [fst snd]. split; [apply CE; apply IV; auto|]. apply IV. auto.
    + intros w W E. apply in_map_iff in W. destruct W as ([m' n'] & <- & I). cbn [fst snd] in *. rewrite (CE _ m' n' I) in *. apply IV in I. destruct I as [I1 I2].
      apply cell_inj in E; [|apply col_lt; exact I2|apply col_lt; exact Ln]. destruct E as [E1 E2]. assert (m' = m) by lia. assert (n' = n) by lia. subst m' n'. f_equal. apply SV; assumption.
  - intros x H. apply puts_map_other with (f := fun p : N * N => obase + r * MR * Nc + jc + s * NR + u32 (fst p * Nc + snd p)). intros [m n] I. cbn [fst snd]. rewrite CE by exact I. apply IV in I. intros E.
    refine (H _ _ _ (eq_sym E)). apply in_tile_iff. exists m, n. repeat split; tauto.
Qed.
End P.
