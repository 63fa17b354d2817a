(** Packing of matrices. *)
From Verif Require Import Base Cov_Model Cov_Spec Cov_Proofs.
Local Open Scope N_scope.

Lemma byte_elem_id x t n : 0 < t -> n * t < 2 ^ 32 -> x <= n -> byte_elem x t = x.
Proof.
  intros Ht Hn Hx. unfold byte_elem.
  assert (x * t <= n * t) by (apply N.mul_le_mono_r; exact Hx). rewrite u32_small by lia. apply N.div_mul. lia.
Qed.
Lemma copy_in {R} (inp m : mem R) src dst n k : k < n -> copy inp src dst n m (dst + k) = inp (src + k).
Proof. intros H. unfold copy. replace ((dst <=? dst + k) && (dst + k <? dst + n)) with true by lia. f_equal. lia. Qed.
Lemma copy_out {R} (inp m : mem R) src dst n k : (forall j, j < n -> k <> dst + j) -> copy inp src dst n m k = m k.
Proof.
  intros H. unfold copy. destruct ((dst <=? k) && (k <? dst + n)) eqn:E; [|reflexivity].
  exfalso. apply (H (k - dst)); lia.
Qed.
Lemma place_contiguous d i j : d_stride d = d_cols d -> place d i j = d_off d + (i * d_cols d + j).
Proof. intros E. unfold place. rewrite E. lia. Qed.
Lemma flat_index r c q : q < r * c -> exists i j, i < r /\ j < c /\ q = i * c + j.
Proof.
  intros H. assert (c <> 0) by (intros ->; lia). exists (q / c), (q mod c). split; [apply N.div_lt_upper_bound; lia|]. split; [apply N.mod_lt; lia|].
  pose proof (N.div_mod' q c). lia.
Qed.
Lemma flat_lt r c i j : i < r -> j < c -> i * c + j < r * c.
Proof. intros. assert (i * c + c <= r * c) by (replace (i * c + c) with ((i + 1) * c) by lia; apply N.mul_le_mono_r; lia). lia. Qed.

Section Pack.
Context {R : Type}.
Variables (ni no : N) (inp : mem R).

Lemma row_other e i i' j k : d_cols e <= d_stride e -> j < d_cols e -> i < i' -> place e i j = place e i' k -> False.
Proof.
  unfold place. intros H Hj Hi E. assert (i * d_stride e + d_stride e <= i' * d_stride e) by (replace (i * d_stride e + d_stride e) with ((i + 1) * d_stride e) by lia; apply N.mul_le_mono_r; lia). lia.
Qed.
Lemma rows_ok d e m : pair_ok ni no (d, e) -> forall k, k <= d_rows d ->
  let m' := fold_left (fun m j => copy inp (byte_elem (u32 (d_off d + j * d_stride d)) (tsz (d_ty d))) (byte_elem (u32 (d_off e + j * d_stride e)) (tsz (d_ty d))) (byte_elem (d_cols d) (tsz (d_ty d))) m) (upto k) m in
  (forall i j, i < k -> j < d_cols d -> m' (place e i j) = inp (place d i j)) /\
  (forall q, (forall i j, i < k -> j < d_cols d -> q <> place e i j) -> m' q = m q).
Proof.
  intros ((T & Bn & CS & Hp & _) & (T' & Bn' & CS' & Hp' & _) & (ET & ER & EC)). cbn [fst snd] in *.
  induction k as [|k IH] using N.peano_ind; intros Hk.
  - split; [lia|reflexivity].
  - cbv zeta. rewrite upto_succ, fold_left_app. cbn [fold_left].
    set (mk := fold_left _ (upto k) m). specialize (IH ltac:(lia)). cbv zeta in IH. fold mk in IH. destruct IH as (I1 & I2).
    destruct (N.eq_dec (d_cols d) 0) as [C0|C0].
    + assert (BZ : byte_elem (d_cols d) (tsz (d_ty d)) = 0) by (rewrite C0; apply (byte_elem_id 0 _ ni); auto; lia).
      rewrite BZ. split; [lia|]. intros q Hq. rewrite copy_out by lia. apply I2. intros; lia.
    + pose proof (Hp k 0 ltac:(lia) ltac:(lia)) as P0. pose proof (Hp' k 0 ltac:(lia) ltac:(lia)) as P0'.
      pose proof (Hp k (d_cols d - 1) ltac:(lia) ltac:(lia)) as P1.
      assert (ni <= ni * tsz (d_ty d)) by (rewrite <- (N.mul_1_r ni) at 1; apply N.mul_le_mono_l; lia).
      assert (no <= no * tsz (d_ty e)) by (rewrite <- (N.mul_1_r no) at 1; apply N.mul_le_mono_l; lia).
      unfold place in P0, P0', P1.
      rewrite (u32_small (d_off d + k * d_stride d)), (u32_small (d_off e + k * d_stride e)) by lia.
      rewrite (byte_elem_id (d_off d + k * d_stride d) _ ni), (byte_elem_id (d_cols d) _ ni) by (auto; lia).
      rewrite (byte_elem_id (d_off e + k * d_stride e) _ no) by (rewrite ?ET; auto; lia).
      split.
      * intros i j Hi Hj. destruct (N.eq_dec i k) as [->|Ne].
        -- unfold place. now rewrite copy_in.
        -- rewrite copy_out; [apply I1; lia|]. intros j' Hj' E. apply (row_other e i k j j'); unfold place in *; lia.
      * intros q Hq. rewrite copy_out; [apply I2; intros; apply Hq; lia|]. intros j Hj. exact (Hq k j ltac:(lia) Hj).
Qed.
Lemma pack_one_ok io m : pair_ok ni no io -> copied inp io (pack_one inp io m) /\ forall q, ~ covers (snd io) q -> pack_one inp io m q = m q.
Proof.
  destruct io as [d e]. intros P. pose proof P as ((T & Bn & CS & Hp & Sz) & (T' & Bn' & CS' & Hp' & Sz') & (ET & ER & EC)). cbn [fst snd] in *.
  unfold pack_one. destruct ((d_stride d =? d_cols d) && (d_stride e =? d_cols e)) eqn:C.
  - assert (Cd : d_stride d = d_cols d) by lia. assert (Ce : d_stride e = d_cols e) by lia. rewrite (Sz Cd).
    destruct (N.eq_dec (d_rows d * d_cols d) 0) as [Z|Z].
    + rewrite Z. assert (BZ : byte_elem 0 (tsz (d_ty d)) = 0) by (apply (byte_elem_id 0 _ ni); auto; lia). rewrite BZ. split.
      * intros i j Hi Hj. cbn [fst] in Hi, Hj. pose proof (flat_lt _ _ _ _ Hi Hj). lia.
      * intros q _. apply copy_out. lia.
    + assert (D0 : 0 < d_rows d /\ 0 < d_cols d) by (split; apply N.neq_0_lt_0; intros Q; rewrite Q in Z; lia). destruct D0 as (R0 & C0).
      pose proof (Hp (d_rows d - 1) (d_cols d - 1) ltac:(lia) ltac:(lia)) as P1. pose proof (Hp' 0 0 ltac:(lia) ltac:(lia)) as P0'.
      rewrite (place_contiguous _ _ _ Cd) in P1. rewrite (place_contiguous _ _ _ Ce) in P0'.
      assert ((d_rows d - 1) * d_cols d + (d_cols d - 1) = d_rows d * d_cols d - 1) by (rewrite N.mul_sub_distr_r; assert (d_cols d <= d_rows d * d_cols d) by (rewrite <- (N.mul_1_l (d_cols d)) at 1; apply N.mul_le_mono_r; lia); lia).
      rewrite (byte_elem_id (d_off d) _ ni), (byte_elem_id (d_rows d * d_cols d) _ ni) by (auto; lia).
      rewrite (byte_elem_id (d_off e) _ no) by (rewrite ?ET; auto; lia).
      split.
      * intros i j Hi Hj. cbn [fst snd] in *. rewrite (place_contiguous _ _ _ Cd), (place_contiguous _ _ _ Ce), <- EC. apply copy_in. now apply flat_lt.
      * intros q Hq. apply copy_out. intros j Hj ->. apply Hq. destruct (flat_index _ _ _ Hj) as (i & j' & Hi & Hj' & ->).
        exists i, j'. repeat split; [lia|lia|]. now rewrite (place_contiguous _ _ _ Ce), <- EC.
  - destruct (rows_ok d e m P (d_rows d) (N.le_refl _)) as (I1 & I2). split.
    + intros i j Hi Hj. now apply I1.
    + intros q Hq. apply I2. intros i j Hi Hj ->. apply Hq. exists i, j. repeat split; lia.
Qed.
Lemma pack_ok l : forall m, Forall (pair_ok ni no) l -> ForallOrdPairs (fun a c => disjoint (snd a) (snd c)) l ->
  Forall (fun io => copied inp io (pack_matrices inp l m)) l /\ forall q, (forall io, In io l -> ~ covers (snd io) q) -> pack_matrices inp l m q = m q.
Proof.
  induction l as [|io l IH]; intros m P D.
  - split; [constructor|reflexivity].
  - inversion P as [|? ? P1 P2]; subst. inversion D as [|? ? D1 D2]; subst.
    destruct (pack_one_ok io m P1) as (C1 & O1). destruct (IH (pack_one inp io m) P2 D2) as (C2 & O2).
    change (pack_matrices inp (io :: l) m) with (pack_matrices inp l (pack_one inp io m)). split.
    + constructor; [|exact C2]. intros i j Hi Hj. rewrite O2; [now apply C1|].
      intros io' Hio Cv. rewrite Forall_forall in D1. apply (D1 io' Hio (place (snd io) i j)); [|exact Cv].
      destruct P1 as (_ & _ & (_ & ER & EC)). exists i, j. repeat split; lia.
    + intros q Hq. rewrite O2 by (intros; apply Hq; now right). apply O1, Hq. now left.
Qed.
End Pack.

(** ** Layouts *)
Lemma layout_size d off : 0 < d_rows d -> d_rows d * d_cols d < 2 ^ 32 -> d_rows d < 2 ^ 32 -> d_size (compute_layout d off) = d_rows d * d_cols d.
Proof.
  intros H1 H2 H3. cbn [d_size compute_layout].
  replace (u32 (d_rows d + 2 ^ 32 - 1)) with (d_rows d - 1).
  2:{ unfold u32. replace (d_rows d + 2 ^ 32 - 1) with (d_rows d - 1 + 1 * 2 ^ 32) by lia. rewrite N.mod_add by lia. symmetry. apply N.mod_small. lia. }
  replace ((d_rows d - 1) * d_cols d + d_cols d) with (d_rows d * d_cols d); [apply u32_small; lia|].
  rewrite N.mul_sub_distr_r. assert (d_cols d <= d_rows d * d_cols d) by (rewrite <- (N.mul_1_l (d_cols d)) at 1; apply N.mul_le_mono_r; lia). lia.
Qed.
Lemma layout_covers d off k : covers (compute_layout d off) k -> off <= k < off + d_rows d * d_cols d.
Proof.
  intros (i & j & Hi & Hj & ->). cbn [d_rows d_cols compute_layout] in Hi, Hj. rewrite place_contiguous by reflexivity. cbn [d_off d_cols compute_layout].
  pose proof (flat_lt _ _ _ _ Hi Hj). lia.
Qed.
Lemma bound_small n t k : 0 < t -> n * t < 2 ^ 32 -> k <= n -> k < 2 ^ 32.
Proof. intros H1 H2 H3. assert (n <= n * t) by (rewrite <- (N.mul_1_r n) at 1; apply N.mul_le_mono_l; lia). lia. Qed.
Lemma layouts_covers n l : forall off e k, Forall (shape_ok n) l -> off + extent l <= n -> In e (layouts l off) -> covers e k -> off <= k < off + extent l.
Proof.
  induction l as [|d l IH]; intros off e k F B I C; [destruct I|]. inversion F as [|? ? (S1 & S2 & S3 & S4) F']; subst.
  cbn [extent] in *. cbn [layouts] in I. cbv zeta in I. destruct I as [<-|I].
  - apply layout_covers in C. lia.
  - rewrite layout_size in I; auto; [|eapply bound_small; eauto; lia]. specialize (IH (off + d_rows d * d_cols d) _ _ F' ltac:(lia) I C). lia.
Qed.
Lemma layouts_ok n l : forall off, Forall (shape_ok n) l -> off + extent l <= n ->
  Forall2 (fun d e => same_shape d e /\ descr_ok n e) l (layouts l off) /\ ForallOrdPairs disjoint (layouts l off).
Proof.
  induction l as [|d l IH]; intros off F B; [split; constructor|]. inversion F as [|? ? (S1 & S2 & S3 & S4) F']; subst.
  cbn [extent] in B. cbn [layouts]. cbv zeta.
  assert (SZ : d_size (compute_layout d off) = d_rows d * d_cols d) by (apply layout_size; auto; eapply bound_small; eauto; lia).
  rewrite SZ. destruct (IH (off + d_rows d * d_cols d) F' ltac:(lia)) as (I1 & I2). split.
  - constructor; [|exact I1]. split; [repeat split|]. split; [exact S3|]. split; [exact S4|]. split; [reflexivity|]. split.
    + intros i j Hi Hj. assert (C : covers (compute_layout d off) (place (compute_layout d off) i j)) by (exists i, j; auto).
      apply layout_covers in C. lia.
    + intros _. exact SZ.
  - constructor; [|exact I2]. apply Forall_forall. intros e He k C1 C2. apply layout_covers in C1.
    pose proof (layouts_covers n l (off + d_rows d * d_cols d) _ _ F' ltac:(lia) He C2). lia.
Qed.
Lemma pack_layouts {R} (inp m : mem R) ni no l off :
  Forall (descr_ok ni) l -> Forall (shape_ok no) l -> off + extent l <= no ->
  let io := combine l (layouts l off) in
  length io = length l /\ Forall (fun x => copied inp x (pack_matrices inp io m)) io /\
  forall q, ~ (off <= q < off + extent l) -> pack_matrices inp io m q = m q.
Proof.
  intros Fi Fo B io. destruct (layouts_ok no l off Fo B) as (S1 & D).
  assert (Ln : length io = length l) by (unfold io; rewrite combine_length; pose proof (Forall2_len _ _ _ S1); lia).
  assert (P : Forall (pair_ok ni no) io).
  { unfold io. clear -Fi S1. revert Fi. induction S1 as [|d e l m (S & O) F IH]; intros Fi; cbn; constructor; inversion Fi; subst; auto. repeat split; auto; destruct S as (? & ? & ?); auto; apply H1 || apply O. }
  assert (D' : ForallOrdPairs (fun a c => disjoint (snd a) (snd c)) io).
  { unfold io. clear -S1 D. revert S1 D. generalize (layouts l off) as ls. intros ls S1. induction S1 as [|d e l m _ F IH]; intros D; cbn; constructor; inversion D; subst; auto.
    apply Forall_forall. intros [u v] H. apply in_combine_r in H. cbn [snd]. rewrite Forall_forall in H1. auto. }
  destruct (pack_ok ni no inp io m P D') as (C & O). split; [exact Ln|]. split; [exact C|].
  intros q Hq. apply O. intros [u v] H Cv. apply in_combine_r in H. apply Hq. eapply layouts_covers; eauto.
Qed.
