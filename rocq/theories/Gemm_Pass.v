From Verif Require Import Base Gemm_Model Gemm_Spec Gemm_Base Gemm_Tile.
Local Open Scope N_scope.
#[local] Ltac Zify.zify_post_hook ::= idtac.

Lemma nodup_flat_map : forall (X Y : Type) (f : X -> list Y) l, NoDup l -> (forall a, In a l -> NoDup (f a)) ->
  (forall a b y, In a l -> In b l -> In y (f a) -> In y (f b) -> a = b) -> NoDup (flat_map f l).
Proof.
  intros X Y f l N. induction N as [|a l NI N IH]; intros D U; [constructor|]. cbn [flat_map].
  assert (G : forall (u v : list Y), NoDup u -> NoDup v -> (forall y, In y u -> In y v -> False) -> NoDup (u ++ v)).
  { induction u as [|y u IHu]; intros v Nu Nv H; [exact Nv|]. inversion Nu; subst. cbn. constructor; [rewrite in_app_iff; intros [Q|Q]; [contradiction|exact (H y (or_introl eq_refl) Q)]|].
    apply IHu; auto. intros z Z1 Z2. exact (H z (or_intror Z1) Z2). }
  apply G.
  - apply D. left. reflexivity.
  - apply IH; [intros; apply D; right; assumption|]. intros p q y P Q. apply U; right; assumption.
  - intros y I J. apply in_flat_map in J. destruct J as (b & Jb & J). apply NI. rewrite (U a b y (or_introl eq_refl) (or_intror Jb) I J). exact Jb.
Qed.
Lemma fold_flat : forall (X S' Y : Type) (f : X -> list Y) (op : S' -> Y -> S') l s, fold_left (fun s a => fold_left op (f a) s) l s = fold_left op (flat_map f l) s.
Proof. intros X S' Y f op l. induction l as [|a l IH]; intros s; [reflexivity|]. cbn. rewrite fold_left_app. apply IH. Qed.
Lemma fold_map : forall (X Y S' : Type) (g : X -> Y) (op : S' -> Y -> S') l s, fold_left op (map g l) s = fold_left (fun s a => op s (g a)) l s.
Proof. intros X Y S' g op l. induction l as [|a l IH]; intros s; [reflexivity|]. cbn. apply IH. Qed.
Lemma fold_ext : forall (X S' : Type) (f g : S' -> X -> S') l s, (forall a s, In a l -> f s a = g s a) -> fold_left f l s = fold_left g l s.
Proof. intros X S' f g l. induction l as [|a l IH]; intros s H; [reflexivity|]. cbn. rewrite (H a s (or_introl eq_refl)). apply IH. intros. apply H. right. assumption. Qed.

Lemma cell_inj_at : forall Nc base i j i' j', j < Nc -> j' < Nc -> cell Nc base i j = cell Nc base i' j' -> i = i' /\ j = j'.
Proof. intros Nc base i j i' j' L L' E. unfold cell in E. apply (radix_inj Nc); try assumption. lia. Qed.

Section P.
Context {T Acc : Type}.
Variables (widen : T -> Acc) (narrow : Acc -> T) (zero : Acc) (mac : Acc -> Acc -> Acc -> Acc) (junk : Acc).
Variables MR NR lanes KC NCmax : N.
Hypothesis ht : tiles MR NR lanes KC NCmax.
Variables (widened : bool) (order : N -> N -> N -> N -> bool -> N -> list N).
Hypothesis ho : any_order order.
Variables (At Bt : bool) (A B : mem T) (M Nc K b jc rb pc n_panel cbase obase row_slabs slabs tail chunks chunk reduce_count : N).
Let kc := N.min KC (K - pc).
Let first := (rb =? 0) && (pc =? 0).
Hypothesis hM : M <= 2 ^ 32.
Hypothesis hMN : M * Nc < 2 ^ 32.
Hypothesis hN : Nc <= 2 ^ 32.
Hypothesis hp : jc + n_panel <= Nc.
Hypothesis hk : K <= 2 ^ 32.
Hypothesis hpc : pc <= K.
Hypothesis hs : slabs = (n_panel + NR - 1) / NR.
Hypothesis htail : tail = n_panel mod NR.
Hypothesis hrow : row_slabs = (M + MR - 1) / MR.
Hypothesis hc : 0 < chunks.
Hypothesis hch : chunk = (slabs + chunks - 1) / chunks.

Let MR0 : 0 < MR. Proof. apply ht. Qed.
Let NR0 : 0 < NR. Proof. apply ht. Qed.
Notation in_tile := (in_tile MR NR M jc n_panel).
Notation cell := (cell Nc).
Notation ext := (ext widen zero mac At Bt A B M Nc K pc kc first).
Definition tiles_of (idx : N) : list (N * N) :=
  map (pair (idx / chunks)) (range (idx mod chunks * chunk) (N.min (idx mod chunks * chunk + chunk) slabs)).
Definition all_tiles : list (N * N) := flat_map tiles_of (order b jc rb pc true (row_slabs * chunks)).

Lemma tiles_of_in : forall idx p, In p (tiles_of idx) <-> fst p = idx / chunks /\ idx mod chunks * chunk <= snd p < N.min (idx mod chunks * chunk + chunk) slabs.
Proof.
  intros idx [r s]. unfold tiles_of. rewrite in_map_iff. cbn [fst snd]. split.
  - intros (x & E & I). injection E as <- <-. apply in_range in I. auto.
  - intros [-> L]. exists s. split; [reflexivity|]. apply in_range. exact L.
Qed.
Lemma tile_owner : forall idx p, In p (tiles_of idx) -> idx = fst p * chunks + snd p / chunk.
Proof.
  intros idx p I. apply tiles_of_in in I. destruct I as [-> L]. pose proof (N.div_mod idx chunks ltac:(lia)) as D.
  assert (0 < chunk) by lia. replace (snd p / chunk) with (idx mod chunks); [lia|].
  symmetry. replace (snd p) with (idx mod chunks * chunk + (snd p - idx mod chunks * chunk)) by lia. apply quot. lia.
Qed.
Lemma order_perm : Permutation (order b jc rb pc true (row_slabs * chunks)) (upto (row_slabs * chunks)).
Proof. apply ho. Qed.
Lemma all_nodup : NoDup all_tiles.
Proof.
  unfold all_tiles. apply nodup_flat_map.
  - eapply Permutation_NoDup; [apply Permutation_sym, order_perm|apply nodup_upto].
  - intros idx _. unfold tiles_of. apply FinFun.Injective_map_NoDup; [intros x y E; congruence|apply nodup_range].
  - intros i j p _ _ I J. rewrite (tile_owner i p I), (tile_owner j p J). reflexivity.
Qed.
Lemma all_bounds : forall p, In p all_tiles -> fst p * MR < M /\ snd p < slabs.
Proof.
  intros p I. apply in_flat_map in I. destruct I as (idx & J & I). apply (Permutation_in _ order_perm), in_upto in J. apply tiles_of_in in I. destruct I as [E L]. split; [|lia].
  apply (ceil_spec M MR (fst p) MR0). rewrite <- hrow, E. apply N.div_lt_upper_bound; lia.
Qed.
Lemma all_complete : forall i j, i < M -> jc <= j < jc + n_panel -> In (i / MR, (j - jc) / NR) all_tiles.
Proof.
  intros i j Li Lj. assert (Zm : MR <> 0) by lia. assert (Zn : NR <> 0) by lia.
  assert (Lr : i / MR < row_slabs). { rewrite hrow. apply ceil_spec; [exact MR0|]. pose proof (N.mul_div_le i MR Zm). lia. }
  assert (Ls : (j - jc) / NR < slabs). { rewrite hs. apply ceil_spec; [exact NR0|]. pose proof (N.mul_div_le (j - jc) NR Zn). lia. }
  set (r := i / MR) in *. set (s := (j - jc) / NR) in *.
  assert (C0 : 0 < chunk). { rewrite hch. apply ceil_spec; [exact hc|]. lia. }
  assert (Q : s / chunk < chunks).
  { apply N.div_lt_upper_bound; [lia|]. assert (X : ~ (chunk < (slabs + chunks - 1) / chunks)) by (rewrite <- hch; lia). rewrite ceil_spec in X by exact hc. lia. }
  unfold all_tiles. apply in_flat_map. exists (r * chunks + s / chunk). split.
  - apply (Permutation_in _ (Permutation_sym order_perm)), in_upto. clear - Q Lr. generalize dependent (s / chunk). intros q Q. assert (X : (r + 1) * chunks <= row_slabs * chunks) by (apply N.mul_le_mono_r; lia). rewrite N.mul_add_distr_r in X. lia.
  - apply tiles_of_in. cbn [fst snd]. rewrite quot by exact Q. split; [reflexivity|].
    replace ((r * chunks + s / chunk) mod chunks) with (s / chunk).
    + pose proof (N.div_mod s chunk ltac:(lia)) as D. pose proof (N.mod_lt s chunk ltac:(lia)). lia.
    + symmetry. rewrite N.add_comm, N.mod_add by lia. apply N.mod_small, Q.
Qed.

Variable pb0 : mem Acc.
Let pb := puts pb0 (flat_map (fun idx => pack_b widen zero NR Bt B (idx * KC * NR) Nc K (jc + idx * NR) pc kc (if (0 <? tail) && (idx =? slabs - 1) then tail else NR)) (order b jc rb pc false slabs)).
Definition pa (r : N) : mem Acc := puts (fun _ => junk) (pack_a widen zero MR At A M K (r * MR) pc kc (N.min MR (M - r * MR))).
Definition op (ns : bool) (st : state) (p : N * N) : state :=
  tile narrow zero mac junk MR NR lanes KC (pa (fst p)) pb cbase obase M Nc (fst p * MR) jc kc slabs tail first ns st (snd p).

Lemma op_sum : forall p st, fst p * MR < M -> snd p < slabs ->
  snd (op false st p) = snd st /\ (forall i j, in_tile (fst p) (snd p) i j -> fst (op false st p) (cell cbase i j) = ext i j (fst st (cell cbase i j))) /\
  (forall x, (forall i j, in_tile (fst p) (snd p) i j -> x <> cell cbase i j) -> fst (op false st p) x = fst st x).
Proof.
  intros p st Lr Ls. unfold op. apply tile_sum with (NCmax := NCmax) (n_panel := n_panel); try assumption; try (unfold kc; clear - hk hpc; lia).
  - intros k m Lk Lm. unfold pa. apply (pack_a_ok widen narrow zero mac junk MR NR lanes KC NCmax ht); try assumption; try (unfold kc; clear - hk hpc; lia); clear - Lm; lia.
  - intros k n Lk Ln. unfold pb. apply (packed widen narrow zero mac junk MR NR lanes KC NCmax ht Bt B M Nc K jc pc kc n_panel slabs tail); try assumption; try (unfold kc; clear - hk hpc; lia). apply ho.
Qed.
Lemma op_narrow : forall p st, fst p * MR < M -> snd p < slabs ->
  fst (op true st p) = fst st /\ (forall i j, in_tile (fst p) (snd p) i j -> snd (op true st p) (cell obase i j) = narrow (ext i j (fst st (cell cbase i j)))) /\
  (forall x, (forall i j, in_tile (fst p) (snd p) i j -> x <> cell obase i j) -> snd (op true st p) x = snd st x).
Proof.
  intros p st Lr Ls. unfold op. apply tile_narrow with (NCmax := NCmax) (n_panel := n_panel); try assumption; try (unfold kc; clear - hk hpc; lia).
  - intros k m Lk Lm. unfold pa. apply (pack_a_ok widen narrow zero mac junk MR NR lanes KC NCmax ht); try assumption; try (unfold kc; clear - hk hpc; lia); clear - Lm; lia.
  - intros k n Lk Ln. unfold pb. apply (packed widen narrow zero mac junk MR NR lanes KC NCmax ht Bt B M Nc K jc pc kc n_panel slabs tail); try assumption; try (unfold kc; clear - hk hpc; lia). apply ho.
Qed.
Lemma in_tile_unique : forall r s r' s' i j, in_tile r s i j -> in_tile r' s' i j -> r = r' /\ s = s'.
Proof. intros r s r' s' i j (_ & <- & _ & <-) (_ & <- & _ & <-). auto. Qed.
Lemma in_tile_col : forall r s i j, in_tile r s i j -> j < Nc.
Proof. intros r s i j (_ & _ & L & _). lia. Qed.
Lemma tile_apart : forall base p q i j i' j', p <> q -> in_tile (fst p) (snd p) i j -> in_tile (fst q) (snd q) i' j' -> cell base i j <> cell base i' j'.
Proof.
  intros base [r s] [r' s'] i j i' j' D I J E. apply cell_inj_at in E; [|eapply in_tile_col; exact I|eapply in_tile_col; exact J]. destruct E as [-> ->].
  destruct (in_tile_unique _ _ _ _ _ _ I J) as [X Y]. cbn in X, Y. congruence.
Qed.
Lemma ops_sum : forall L st, NoDup L -> (forall p, In p L -> fst p * MR < M /\ snd p < slabs) -> let st' := fold_left (op false) L st in
  snd st' = snd st /\ (forall p i j, In p L -> in_tile (fst p) (snd p) i j -> fst st' (cell cbase i j) = ext i j (fst st (cell cbase i j))) /\
  (forall x, (forall p i j, In p L -> in_tile (fst p) (snd p) i j -> x <> cell cbase i j) -> fst st' x = fst st x).
Proof.
  induction L as [|p L IH]; intros st ND H; [split; [reflexivity|split; [intros p i j []|reflexivity]]|]. cbn [fold_left]. inversion ND as [|p' L' NI ND' E]; subst p' L'.
  destruct (H p (or_introl eq_refl)) as [H1 H2]. destruct (op_sum p st H1 H2) as (O1 & O2 & O3). destruct (IH (op false st p) ND' (fun q Q => H q (or_intror Q))) as (I1 & I2 & I3).
  split; [congruence|]. split.
  - intros q i j [<-|Q] J.
    + rewrite I3; [apply O2, J|]. intros q i' j' Q J'. apply (tile_apart cbase p q); try assumption. congruence.
    + rewrite (I2 q i j Q J). f_equal. apply O3. intros i' j' J'. apply (tile_apart cbase q p); try assumption. congruence.
  - intros x X. rewrite I3 by (intros q i j Q J; apply (X q); [right|]; assumption). apply O3. intros i j J. apply (X p); [left; reflexivity|exact J].
Qed.
Lemma ops_narrow : forall L st, NoDup L -> (forall p, In p L -> fst p * MR < M /\ snd p < slabs) -> let st' := fold_left (op true) L st in
  fst st' = fst st /\ (forall p i j, In p L -> in_tile (fst p) (snd p) i j -> snd st' (cell obase i j) = narrow (ext i j (fst st (cell cbase i j)))) /\
  (forall x, (forall p i j, In p L -> in_tile (fst p) (snd p) i j -> x <> cell obase i j) -> snd st' x = snd st x).
Proof.
  induction L as [|p L IH]; intros st ND H; [split; [reflexivity|split; [intros p i j []|reflexivity]]|]. cbn [fold_left]. inversion ND as [|p' L' NI ND' E]; subst p' L'.
  destruct (H p (or_introl eq_refl)) as [H1 H2]. destruct (op_narrow p st H1 H2) as (O1 & O2 & O3). destruct (IH (op true st p) ND' (fun q Q => H q (or_intror Q))) as (I1 & I2 & I3).
  split; [congruence|]. split.
  - intros q i j [<-|Q] J.
    + rewrite I3; [apply O2, J|]. intros q i' j' Q J'. apply (tile_apart obase p q); try assumption. congruence.
    + rewrite (I2 q i j Q J). rewrite O1. reflexivity.
  - intros x X. rewrite I3 by (intros q i j Q J; apply (X q); [right|]; assumption). apply O3. intros i j J. apply (X p); [left; reflexivity|exact J].
Qed.

Let ns := widened && (u32 (rb + 1) =? reduce_count) && (pc + kc =? K).
Lemma pass_tiles : forall st, pass widen narrow zero mac junk MR NR lanes KC widened order At Bt A B M Nc K b jc rb pc cbase obase row_slabs n_panel slabs tail chunks chunk reduce_count (pb0, st)
  = (pb, fold_left (op (widened && ns)) all_tiles st).
Proof.
  intros st. unfold pass. fold kc. fold first. fold pb. fold ns. f_equal. unfold all_tiles. rewrite <- fold_flat. apply fold_ext. intros idx s0 _. unfold tiles_of. rewrite fold_map. cbv zeta.
  destruct (N.leb_spec (N.min (idx mod chunks * chunk + chunk) slabs) (idx mod chunks * chunk)) as [L|L].
  - unfold range. replace (_ - _) with 0 by lia. reflexivity.
  - reflexivity.
Qed.
Definition in_panel (i j : N) : Prop := i < M /\ jc <= j < jc + n_panel.
Lemma panel_tile : forall i j, in_panel i j -> exists p, In p all_tiles /\ in_tile (fst p) (snd p) i j.
Proof. intros i j [I J]. exists (i / MR, (j - jc) / NR). split; [apply all_complete; assumption|]. cbn. unfold Gemm_Tile.in_tile. tauto. Qed.
Lemma tile_panel : forall p i j, in_tile (fst p) (snd p) i j -> in_panel i j.
Proof. intros p i j (H1 & _ & H2 & _). split; assumption. Qed.
Lemma pass_ok : forall st, exists pb' st',
  pass widen narrow zero mac junk MR NR lanes KC widened order At Bt A B M Nc K b jc rb pc cbase obase row_slabs n_panel slabs tail chunks chunk reduce_count (pb0, st) = (pb', st') /\
  (forall i j, in_panel i j -> if widened && ns then snd st' (cell obase i j) = narrow (ext i j (fst st (cell cbase i j))) else fst st' (cell cbase i j) = ext i j (fst st (cell cbase i j))) /\
  (forall x, (forall i j, in_panel i j -> x <> cell cbase i j) -> fst st' x = fst st x) /\
  (forall x, (forall i j, in_panel i j -> x <> cell obase i j) -> snd st' x = snd st x).
Proof.
  intros st. rewrite pass_tiles. eexists _, _. split; [reflexivity|]. destruct (widened && ns).
  - destruct (ops_narrow all_tiles st all_nodup all_bounds) as (O1 & O2 & O3). split; [|split].
    + intros i j I. destruct (panel_tile i j I) as (p & P & Q). exact (O2 p i j P Q).
    + intros x _. rewrite O1. reflexivity.
    + intros x X. apply O3. intros p i j _ Q. apply X. exact (tile_panel p i j Q).
  - destruct (ops_sum all_tiles st all_nodup all_bounds) as (O1 & O2 & O3). split; [|split].
    + intros i j I. destruct (panel_tile i j I) as (p & P & Q). exact (O2 p i j P Q).
    + intros x X. apply O3. intros p i j _ Q. apply X. exact (tile_panel p i j Q).
    + intros x _. rewrite O1. reflexivity.
Qed.
End P.
