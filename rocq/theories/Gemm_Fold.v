From Verif Require Import Base Gemm_Model Gemm_Spec Gemm_Base Gemm_Tile Gemm_Pass Gemm_Loop.
Local Open Scope N_scope.
#[local] Ltac Zify.zify_post_hook ::= idtac.

(** ** Lists of dimensions *)
Fixpoint drop1 (l : list dim) (idx : list N) : list N :=
  match l, idx with d :: r, i :: t => if extent d =? 1 then drop1 r t else i :: drop1 r t | _, _ => [] end.
Lemma nontrivial_index : forall l idx, index_of l idx -> index_of (nontrivial l) (drop1 l idx) /\ position (nontrivial l) (drop1 l idx) = position l idx /\
  a_offset (nontrivial l) (drop1 l idx) = a_offset l idx /\ b_offset (nontrivial l) (drop1 l idx) = b_offset l idx.
Proof.
  induction 1 as [|d i l idx L F (I1 & I2 & I3 & I4)]; [repeat split; constructor|]. cbn [nontrivial filter drop1 position a_offset b_offset]. fold (nontrivial l).
  destruct (N.eqb_spec (extent d) 1) as [E|E]; cbn [negb].
  - assert (i = 0) by lia. subst i. rewrite E, I2, I3, I4. repeat split; try lia. exact I1.
  - cbn [position a_offset b_offset]. rewrite I2, I3, I4. repeat split. constructor; assumption.
Qed.
Lemma nontrivial_product : forall l, product (nontrivial l) = product l.
Proof. induction l as [|d l IH]; [reflexivity|]. cbn [nontrivial filter product]. fold (nontrivial l). destruct (N.eqb_spec (extent d) 1) as [E|E]; cbn [negb product]; rewrite IH; [rewrite E; lia|reflexivity]. Qed.
Lemma nontrivial_positive : forall l, positive l -> positive (nontrivial l).
Proof. intros l P. apply Forall_forall. intros d I. apply filter_In in I. exact (proj1 (Forall_forall _ l) P d (proj1 I)). Qed.
Lemma nontrivial_points : forall l, points (nontrivial l) = points l.
Proof.
  induction l as [|d l IH]; [reflexivity|]. cbn [nontrivial filter points]. fold (nontrivial l). destruct (N.eqb_spec (extent d) 1) as [E|E]; cbn [negb points]; rewrite IH; [|reflexivity].
  rewrite E, upto_1. cbn [map]. clear. generalize (points l). intros ps. induction ps as [|[x y] ps IHp]; [reflexivity|]. cbn [flat_map app fst snd]. rewrite <- IHp. reflexivity.
Qed.

Section F.
Context {T Acc : Type}.
Variables (widen : T -> Acc) (narrow : Acc -> T) (zero : Acc) (zeroT : T) (mac : Acc -> Acc -> Acc -> Acc) (junk : Acc).
Variables (At Bt : bool) (Nc : N) (A B : mem T).

(** every entry is in its place *)
Definition holds (widened : bool) (M K : N) (grid reduce : list dim) (st : mem Acc * mem T) : Prop :=
  forall idx i j, index_of grid idx -> i < M -> j < Nc ->
  written widened narrow st ((position grid idx * M + i) * Nc + j) (entry widen zero mac At Bt M Nc K grid reduce A B idx i j).

Lemma nontrivial_holds : forall w M K grid reduce st, holds w M K (nontrivial grid) (nontrivial reduce) st -> holds w M K grid reduce st.
Proof.
  intros w M K grid reduce st H idx i j I Li Lj. destruct (nontrivial_index grid idx I) as (I1 & I2 & I3 & I4). specialize (H (drop1 grid idx) i j I1 Li Lj).
  unfold entry in *. rewrite I2, I3, I4 in H. unfold terms in *. rewrite nontrivial_points in H. exact H.
Qed.
Lemma fold_m_holds : forall w K reduce grid M st, At = false -> holds w (fst (fold_m M K grid)) K (snd (fold_m M K grid)) reduce st -> holds w M K grid reduce st.
Proof.
  intros w K reduce grid. induction grid as [|d r IH]; intros M st Ea H; cbn [fold_m] in H; [exact H|].
  destruct ((b_stride d =? 0) && (a_stride d =? M * K) && (M * extent d <? 2 ^ 32)) eqn:Ec; [|exact H]. specialize (IH _ st Ea H).
  apply andb_true_iff in Ec. destruct Ec as [Ec _]. apply andb_true_iff in Ec. destruct Ec as [Eb Es]. apply N.eqb_eq in Eb, Es.
  intros idx i j I Li Lj. inversion I as [|d' i0 l' t L F]; subst. specialize (IH t (i0 * M + i) j F). cbn [position].
  assert (Q : i0 * M + i < M * extent d) by (assert ((i0 + 1) * M <= extent d * M) by (apply N.mul_le_mono_r; lia); lia). specialize (IH Q Lj).
  replace ((i0 + extent d * position r t) * M + i) with (position r t * (M * extent d) + (i0 * M + i)) by lia.
  unfold entry in *. cbn [a_offset b_offset]. rewrite Eb, Es. replace (terms _ _ _ _ _ _ _ _ _ _ i j) with (terms At Bt (M * extent d) Nc K reduce A B (a_offset r t) (b_offset r t) (i0 * M + i) j); [exact IH|].
  unfold terms. apply flat_map_ext'. intros p _. apply map_ext. intros k. rewrite Ea. unfold a_at. f_equal; f_equal; lia.
Qed.
Lemma fold_k_terms : forall M reduce K ao bo i j, At = true -> Bt = false ->
  terms At Bt M Nc (fst (fold_k M Nc K reduce)) (snd (fold_k M Nc K reduce)) A B ao bo i j = terms At Bt M Nc K reduce A B ao bo i j.
Proof.
  intros M reduce. induction reduce as [|d r IH]; intros K ao bo i j Ea Eb; cbn [fold_k]; [reflexivity|].
  destruct ((a_stride d =? K * M) && (b_stride d =? K * Nc) && (K * extent d <? 2 ^ 32)) eqn:Ec; [|reflexivity].
  apply andb_true_iff in Ec. destruct Ec as [Ec _]. apply andb_true_iff in Ec. destruct Ec as [E1 E2]. apply N.eqb_eq in E1, E2. rewrite IH by assumption.
  unfold terms. cbn [points]. rewrite flat_map_flat_map. apply flat_map_ext'. intros p _. rewrite (N.mul_comm K), upto_mul, map_flat_map, flat_map_map. apply flat_map_ext'. intros e _.
  rewrite map_map. cbn [fst snd]. apply map_ext. intros k. subst At Bt. unfold a_at, b_at. rewrite E1, E2. f_equal; f_equal; lia.
Qed.
Lemma fold_k_holds : forall w M K grid reduce st, At = true -> Bt = false -> holds w M (fst (fold_k M Nc K reduce)) grid (snd (fold_k M Nc K reduce)) st -> holds w M K grid reduce st.
Proof.
  intros w M K grid reduce st Ea Eb H idx i j I Li Lj. specialize (H idx i j I Li Lj). unfold entry in *. rewrite fold_k_terms in H by assumption. exact H.
Qed.

Lemma fold_m_ok : forall K grid M, positive grid -> positive (snd (fold_m M K grid)) /\ product (snd (fold_m M K grid)) * fst (fold_m M K grid) = product grid * M.
Proof.
  intros K grid. induction grid as [|d r IH]; intros M P; cbn [fold_m]; [split; [exact P|reflexivity]|]. destruct (_ && _ && _); [|split; [exact P|reflexivity]].
  inversion P; subst. destruct (IH (M * extent d) H2) as [I1 I2]. split; [exact I1|]. rewrite I2. cbn [product]. lia.
Qed.
Lemma fold_k_ok : forall M reduce K, positive reduce -> positive (snd (fold_k M Nc K reduce)) /\ product (snd (fold_k M Nc K reduce)) * fst (fold_k M Nc K reduce) = product reduce * K.
Proof.
  intros M reduce. induction reduce as [|d r IH]; intros K P; cbn [fold_k]; [split; [exact P|reflexivity]|]. destruct (_ && _ && _); [|split; [exact P|reflexivity]].
  inversion P; subst. destruct (IH (K * extent d) H2) as [I1 I2]. split; [exact I1|]. rewrite I2. cbn [product]. lia.
Qed.

Lemma fold_k_grows : forall M reduce K, positive reduce -> K <= fst (fold_k M Nc K reduce).
Proof.
  intros M reduce. induction reduce as [|d r IH]; intros K P; cbn [fold_k]; [cbn; lia|]. destruct (_ && _ && _); [|cbn; lia].
  inversion P; subst. specialize (IH (K * extent d) H2). assert (K * 1 <= K * extent d) by (apply N.mul_le_mono_l; lia). lia.
Qed.

Variables MR NR lanes KC NCmax : N.
Hypothesis ht : tiles MR NR lanes KC NCmax.
Variables (widened : bool) (cores : N) (order : N -> N -> N -> N -> bool -> N -> list N).
Hypothesis ho : any_order order.
Hypothesis hcores : 0 < cores.

Lemma result_entry : forall M K grid reduce idx i j, 0 < K -> positive reduce -> index_of grid idx ->
  P widen zero mac At Bt M Nc K grid reduce A B (position grid idx) (product reduce * K) i j = entry widen zero mac At Bt M Nc K grid reduce A B idx i j.
Proof.
  intros M K grid reduce idx i j K0 pr I. unfold P, entry, dot, terms. rewrite (decode_position grid idx I). cbn [fst snd]. rewrite (points_decode reduce pr), flat_map_map.
  rewrite upto_mul. rewrite <- !fold_flat. apply fold_ext. intros rb s _. rewrite !fold_map. apply fold_ext. intros k s' Ik. apply in_upto in Ik. cbn [fst snd].
  rewrite quot by exact Ik. replace ((rb * K + k) mod K) with k; [reflexivity|]. rewrite N.add_comm, N.mod_add by lia. symmetry. apply N.mod_small, Ik.
Qed.
Lemma llvm_ok : forall M K grid reduce fuel st0, fits_tiles MR NR KC NCmax M Nc K cores grid reduce -> 0 < M -> 0 < Nc -> 0 < K -> positive grid -> positive reduce ->
  Nc <= N.of_nat fuel -> K <= N.of_nat fuel -> At && Bt = false -> exists st,
  llvm_gemm widen narrow zero zeroT mac junk MR NR lanes KC NCmax widened cores order fuel At Bt M Nc K grid reduce A B st0 = Done st /\ holds widened M K grid reduce st /\
  forall x, product grid * M * Nc <= x -> untouched widened st0 st x.
Proof.
  intros M K grid reduce fuel st0 hf M0 N0 K0 pg pr f1 f2 Tr.
  destruct (llvm_inner widen narrow zero zeroT mac junk MR NR lanes KC NCmax ht widened cores order ho hcores At Bt M Nc K grid reduce A B hf M0 N0 K0 pg pr fuel (conj f1 f2) Tr st0) as (st & E & H1 & H2).
  exists st. split; [exact E|]. split.
  - intros idx i j I Li Lj. specialize (H1 (position grid idx) i j (position_lt grid idx I) Li Lj). unfold good, result, cell in H1. rewrite (result_entry M K grid reduce idx i j K0 pr I) in H1.
    unfold written. replace ((position grid idx * M + i) * Nc + j) with (position grid idx * (M * Nc) + i * Nc + j) by lia. exact H1.
  - intros x Hx. apply H2. lia.
Qed.

Lemma le_prod : forall a b, 0 < b -> a <= b * a.
Proof. intros a b H. assert (1 * a <= b * a) by (apply N.mul_le_mono_r; lia). lia. Qed.
Lemma batched_ok : forall M K grid reduce fuel st0, fits MR NR KC NCmax At Bt M Nc K cores grid reduce -> 0 < M -> 0 < Nc -> 0 < K -> positive grid -> positive reduce ->
  (length grid + length reduce <= 6)%nat -> Nc <= N.of_nat fuel -> product reduce * K <= N.of_nat fuel -> At && Bt = false -> exists st,
  batched_gemm widen narrow zero zeroT mac junk MR NR lanes KC NCmax widened cores order fuel At Bt M Nc K grid reduce A B st0 = Done st /\ holds widened M K grid reduce st /\
  forall x, product grid * M * Nc <= x -> untouched widened st0 st x.
Proof.
  intros M K grid reduce fuel st0 hf M0 N0 K0 pg pr Ln f1 f2 Tr. unfold batched_gemm.
  rewrite (proj2 (N.eqb_neq M 0)), (proj2 (N.eqb_neq Nc 0)), (proj2 (N.eqb_neq K 0)) by lia. cbn [orb]. replace (6 <? N.of_nat (length grid + length reduce)) with false by (symmetry; apply N.ltb_ge; lia).
  set (g1 := nontrivial grid). set (r1 := nontrivial reduce). assert (pg1 : positive g1) by apply nontrivial_positive, pg. assert (pr1 : positive r1) by apply nontrivial_positive, pr.
  assert (G1 : product g1 = product grid) by apply nontrivial_product. assert (R1 : product r1 = product reduce) by apply nontrivial_product.
  assert (Gp := product_pos grid pg). assert (Rp := product_pos reduce pr).
  destruct hf as ((F1 & F2 & F3 & F4 & F5 & _) & F7 & F8). cbn [product] in F5. rewrite N.mul_1_l in F5.
  destruct At eqn:Ea; [destruct Bt eqn:Eb; [discriminate|]|]; cbn [andb negb] in *.
  - destruct (fold_k M Nc K r1) as [K2 r2] eqn:Ek.
    destruct (fold_k_ok M r1 K pr1) as [p2 Q2]. rewrite Ek in p2, Q2. cbn [fst snd] in p2, Q2. assert (R2p := product_pos r2 p2). rewrite R1 in Q2.
    pose proof (le_prod K2 (product r2) R2p) as B1. assert (K20 : 0 < K2) by (clear - Q2 K0 Rp; assert (0 < product reduce * K) by (apply N.mul_pos_pos; assumption); destruct K2; [lia|reflexivity]).
    assert (R2 : product r2 <= product reduce).
    { destruct (N.le_gt_cases (product r2) (product reduce)) as [X|X]; [exact X|]. exfalso.
      assert (KK : K <= K2). { pose proof (fold_k_grows M r1 K pr1) as Q. rewrite Ek in Q. exact Q. }
      assert (product reduce * K <= product reduce * K2) by (apply N.mul_le_mono_l; exact KK). assert ((product reduce + 1) * K2 <= product r2 * K2) by (apply N.mul_le_mono_r; lia). lia. }
    destruct (llvm_ok M K2 g1 r2 fuel st0) as (st & E & H1 & H2); try assumption; try (rewrite Ea, Eb; reflexivity).
    + repeat split; try assumption; try lia.
    + lia.
    + rewrite Ea, Eb in E. exists st. split; [exact E|]. split; [|intros x Hx; apply H2; rewrite G1; exact Hx].
      apply nontrivial_holds. fold g1 r1. apply fold_k_holds; try assumption. rewrite Ek. exact H1.
  - destruct (fold_m M K g1) as [M2 g2] eqn:Em. destruct (fold_m_ok K g1 M pg1) as [p2 Q2]. rewrite Em in p2, Q2. cbn [fst snd] in p2, Q2. rewrite G1 in Q2. assert (G2p := product_pos g2 p2).
    pose proof (le_prod M2 (product g2) G2p) as B1. assert (M20 : 0 < M2) by (clear - Q2 M0 Gp; assert (0 < product grid * M) by (apply N.mul_pos_pos; assumption); destruct M2; [lia|reflexivity]).
    destruct (llvm_ok M2 K g2 r1 fuel st0) as (st & E & H1 & H2); try assumption; try (rewrite Ea; reflexivity).
    + repeat split; try assumption; try lia. rewrite Q2. exact F7.
    + pose proof (le_prod K (product reduce) Rp). lia.
    + rewrite Ea in E. exists st. split; [exact E|]. split; [|intros x Hx; apply H2; rewrite Q2; exact Hx].
      apply nontrivial_holds. fold g1 r1. apply fold_m_holds; try assumption. rewrite Em. exact H1.
Qed.
End F.
