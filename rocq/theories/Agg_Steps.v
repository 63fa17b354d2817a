(** Products, rearrangements, and the remaining calls. *)
From Verif Require Import Base Agg_Model Agg_Spec Agg_Inv Agg_Masks Agg_Query Agg_Red.
Local Open Scope N_scope.

Section Steps.
Variable ar : arith.
Variables workers ideal : N.
Hypothesis ideal0 : 0 < ideal.
Notation ok := (ok ar).
Notation total := (total ar).

(** ** Dot products *)
Lemma all_some_map {A B} (f : A -> option B) g l : (forall a, In a l -> f a = Some (g a)) -> all_some (map f l) = Some (map g l).
Proof.
  induction l as [|a l IH]; intros H; cbn; auto. rewrite (H a) by now left. rewrite IH; auto. intros; apply H; now right.
Qed.
Lemma map_nth_upto (l : list Z) n : N.to_nat n = length l -> map (fun k => nth (N.to_nat k) l 0%Z) (upto n) = l.
Proof.
  intros E. apply (nth_ext _ _ 0%Z 0%Z); [now rewrite map_length, upto_length|].
  intros k Hk. rewrite map_length, upto_length in Hk.
  set (h := fun k => nth (N.to_nat k) l 0%Z).
  rewrite (nth_indep _ 0%Z (h 0)) by (rewrite map_length, upto_length; auto).
  rewrite (map_nth h). unfold h. f_equal. replace k with (N.to_nat (N.of_nat k)) at 1 by lia. rewrite upto_nth by lia. lia.
Qed.
Definition prods (x y : N -> Z) (l : list N) : list Z := map (fun k => red ar Mul TFlt (x k) (y k)) l.
Lemma fma_total x y l : laws ar Add TFlt -> exact_fma ar ->
  fold_left (fun r k => fma ar (x k) (y k) r) l 0%Z = total Add TFlt (prods x y l).
Proof.
  intros L F. destruct (F 0%Z 0%Z 0%Z) as [_ I0].
  assert (H : forall a, fold_left (fun r k => fma ar (x k) (y k) r) l a = red ar Add TFlt a (total Add TFlt (prods x y l))).
  { induction l as [|k l IH]; intros a; cbn; [now rewrite (idn_r ar _ _ L)|].
    rewrite IH. rewrite (proj1 (F _ _ _)). rewrite (l_comm _ _ _ L _ a). now rewrite <- (l_assoc _ _ _ L). }
  rewrite H. rewrite <- I0 at 1. apply (l_idn _ _ _ L).
Qed.
Lemma reduce_dot_ok x y size : 0 < size -> size + ideal - 1 < 2 ^ 32 -> laws ar Add TFlt -> exact_fma ar ->
  reduce_dot ar workers ideal x y size = Some (total Add TFlt (prods x y (upto size))).
Proof.
  intros S0 SZ L F. unfold reduce_dot.
  destruct (1 <? workers).
  - unfold u32. rewrite N.mod_small by lia.
    pose proof (reduced_pos size ideal S0 ideal0) as RP. destruct (reduced_bounds size ideal S0 ideal0) as (R1 & R2 & R3).
    pose proof (N.mul_div_le (size + ideal - 1) ideal ltac:(lia)) as R4. rewrite N.mul_comm in R4.
    set (r := (size + ideal - 1) / ideal) in *. replace (N.max 1 r) with r by lia.
    rewrite (all_some_map _ (fun k => total Add TFlt (prods x y (block size ideal k)))).
    + assert (TT : total Add TFlt (map (fun k => total Add TFlt (prods x y (block size ideal k))) (upto r)) = total Add TFlt (prods x y (upto size))).
      { rewrite <- (map_map (block size ideal) (fun l => total Add TFlt (prods x y l))).
        replace (upto size) with (concat (map (block size ideal) (upto r))) by (rewrite blocks_concat by auto; f_equal; lia).
        unfold prods. rewrite concat_map. rewrite (total_concat ar _ _ L). now rewrite !map_map. }
      destruct (N.ltb_spec 1 r) as [M|M].
      * rewrite (reduce_block_total ar _ _ L). rewrite map_nth_upto; [now rewrite TT|]. now rewrite map_length, upto_length.
      * f_equal. rewrite <- TT. replace r with 1 by lia. change (upto 1) with [0]. cbn [map nth]. symmetry. apply (idn_r ar _ _ L).
    + intros k Hk. apply in_upto in Hk. unfold dot_unit.
      assert (K1 : (k + 1) * ideal <= r * ideal) by (apply N.mul_le_mono_r; lia).
      assert (K2 : k * ideal <= (r - 1) * ideal) by (apply N.mul_le_mono_r; lia).
      unfold u32. rewrite (N.mod_small (k * ideal)), (N.mod_small ((k + 1) * ideal)) by (rewrite ?N.mul_add_distr_r in *; lia).
      replace (N.min ((k + 1) * ideal) size <? k * ideal) with false
        by (symmetry; apply N.ltb_ge; rewrite N.mul_add_distr_r; lia).
      rewrite fma_total by auto. reflexivity.
  - change (upto (N.max 1 1)) with [0]. cbn [map].
    assert (DU : dot_unit ar x y size size 0 = Some (total Add TFlt (prods x y (upto size)))).
    { unfold dot_unit. replace (0 * size) with 0 by lia. replace ((0 + 1) * size) with size by lia.
      replace (u32 size) with size by (unfold u32; rewrite N.mod_small; lia). rewrite N.min_id. change (u32 0) with 0.
      replace (size <? 0) with false by (symmetry; apply N.ltb_ge; lia). rewrite fma_total by auto. now rewrite between_upto. }
    rewrite DU. reflexivity.
Qed.

(** Removing the last variable but one *)
Definition shift (k i : nat) : nat := if Nat.ltb i k then i else S i.
Lemma nth_release {A} (l : list A) k i : (k < length l)%nat -> nth_error (firstn k l ++ skipn (S k) l) i = nth_error l (shift k i).
Proof.
  intros K. unfold shift. destruct (Nat.ltb_spec i k) as [L|L].
  - rewrite nth_error_app1 by (rewrite firstn_length; lia). rewrite <- (firstn_skipn k l) at 2.
    now rewrite nth_error_app1 by (rewrite firstn_length; lia).
  - rewrite nth_error_app2 by (rewrite firstn_length; lia). rewrite firstn_length, Nat.min_l by lia.
    rewrite <- (firstn_skipn (S k) l) at 2. rewrite nth_error_app2 by (rewrite firstn_length; lia).
    rewrite firstn_length, Nat.min_l by lia. replace (S i - S k)%nat with (i - k)%nat by lia. reflexivity.
Qed.
Lemma release_ok s G p r : ok s ((G ++ [p]) ++ [r]) -> ok (release s (length G)) (G ++ [r]).
Proof.
  intros O. pose proof (ok_len _ _ _ O) as LN. rewrite !app_length in LN. cbn in LN.
  assert (GR : G ++ [r] = firstn (length G) ((G ++ [p]) ++ [r]) ++ skipn (S (length G)) ((G ++ [p]) ++ [r])).
  { rewrite <- app_assoc. rewrite firstn_app, Nat.sub_diag, firstn_all, firstn_O, app_nil_r. f_equal.
    rewrite skipn_app. rewrite skipn_all2 by lia. replace (S (length G) - length G)%nat with 1%nat by lia. reflexivity. }
  assert (NV : forall i, nth_error (s_vars (release s (length G))) i = nth_error (s_vars s) (shift (length G) i))
    by (intros i; apply nth_release; lia).
  assert (NG : forall i, nth_error (G ++ [r]) i = nth_error ((G ++ [p]) ++ [r]) (shift (length G) i))
    by (intros i; rewrite GR at 1; apply nth_release; rewrite !app_length; cbn; lia).
  constructor.
  - unfold release. cbn [s_vars]. rewrite app_length, firstn_length, skipn_length, app_length. cbn. lia.
  - intros i v g V E. rewrite NV in V. rewrite NG in E. exact (ok_var _ _ _ O _ _ _ V E).
  - intros i v b V K. rewrite NV in V. exact (ok_ev _ _ _ O _ _ _ V K).
  - intros q Q. destruct (ok_pend _ _ _ O q Q) as [A B]. split; auto. intros i v V K. rewrite NV in V. exact (B _ _ V K).
  - intros i v g b V E P K. rewrite NV in V. rewrite NG in E. destruct (ok_pad _ _ _ O _ _ _ _ V E P K) as [A B].
    split; auto. intros j w W KW. rewrite NV in W. exact (B _ _ W KW).
Qed.

Lemma mul_ok s G i j g h : ok s G -> nth_error G i = Some g -> nth_error G j = Some h -> g_def g = true -> g_def h = true ->
  let n := N.max (g_size g) (g_size h) in
  (g_size g = n \/ g_size g = 1) -> (g_size h = n \/ g_size h = 1) ->
  exists s', var_mul ar s i j = Some (s', length G) /\
    ok s' (G ++ [arr (g_ty g) n (fun l => red ar Mul (g_ty g) (at_ g l) (at_ h l)) true true]).
Proof.
  intros O E H DG DH n SG SH.
  destruct (var_of ar s G i g O E) as (v & V & (VT & VS & MG & FG)). destruct (FG DG) as [NG CG].
  destruct (var_of ar s G j h O H) as (w & W & (WT & WS & MH & FH)). destruct (FH DH) as [NH CH].
  unfold var_mul. rewrite V, W. rewrite VS, WS, VT. fold n.
  assert (BG : negb (g_size g =? n) && negb (g_size g =? 1) = false).
  { destruct SG as [-> | ->]; [rewrite N.eqb_refl; reflexivity|]. now rewrite andb_false_r. }
  assert (BH : negb (g_size h =? n) && negb (g_size h =? 1) = false).
  { destruct SH as [-> | ->]; [rewrite N.eqb_refl; reflexivity|]. now rewrite andb_false_r. }
  rewrite BG, BH. cbn [orb].
  assert (MN : made n) by (unfold made, n in *; lia).
  set (s0 := if v_dirty v || v_dirty w then flush ar s else s).
  assert (O0 : ok s0 G) by (unfold s0; destruct (v_dirty v || v_dirty w); [now apply flush_ok|auto]).
  assert (C0 : forall l, l < n -> content ar s0 v (pick v l) = at_ g l /\ content ar s0 w (pick w l) = at_ h l).
  { intros l Hl. assert (S0 : content ar s0 v (pick v l) = content ar s v (pick v l) /\ content ar s0 w (pick w l) = content ar s w (pick w l)).
    { unfold s0. destruct (v_dirty v || v_dirty w); auto. now rewrite (flush_content ar s G i v), (flush_content ar s G j w). }
    destruct S0 as [-> ->]. unfold at_, pick. rewrite VS, WS. unfold made in *. split.
    - apply CG. destruct (N.eqb_spec (g_size g) 1); lia.
    - apply CH. destruct (N.eqb_spec (g_size h) 1); lia. }
  assert (ND : forall f, (forall l, l < n -> f l = red ar Mul (g_ty g) (at_ g l) (at_ h l)) ->
    exists s', Some (new s0 (KNode f) (g_ty g) n false) = Some (s', length G) /\
      ok s' (G ++ [arr (g_ty g) n (fun l => red ar Mul (g_ty g) (at_ g l) (at_ h l)) true true])).
  { intros f Hf. destruct (new_ok ar s0 G (KNode f) (g_ty g) n (arr (g_ty g) n (fun l => red ar Mul (g_ty g) (at_ g l) (at_ h l)) true true) O0 MN) as [A B];
      auto; try discriminate.
    - intros _. split; [discriminate|]. intros l Hl. cbn. auto.
    - eexists. split; [|exact A]. rewrite <- B. now rewrite <- surjective_pairing. }
  assert (N2 : forall l, l < n -> red ar Mul (g_ty g) (content ar s0 v (pick v l)) (content ar s0 w (pick w l)) = red ar Mul (g_ty g) (at_ g l) (at_ h l))
    by (intros l Hl; destruct (C0 l Hl) as [-> ->]; reflexivity).
  destruct (v_kind v) as [x| | |f|b] eqn:KV; try (apply ND; exact N2).
  destruct (v_kind w) as [y| | |f|b] eqn:KW; try (apply ND; exact N2).
  destruct (new_ok ar s G (KLit (red ar Mul (g_ty g) x y)) (g_ty g) n (arr (g_ty g) n (fun l => red ar Mul (g_ty g) (at_ g l) (at_ h l)) true true) O MN) as [A B];
      auto; try discriminate.
  - intros _. split; [discriminate|]. intros l Hl. cbn [content v_kind arr g_val]. destruct (C0 l Hl) as [H1 H2].
    unfold content in H1, H2. rewrite KV in H1. rewrite KW in H2. now rewrite H1, H2.
  - eexists. split; [|exact A]. rewrite <- B. now rewrite <- surjective_pairing.
Qed.

Lemma dot_ok s G i j : ok s G -> legal ar ideal s G (CDot i j) -> agrees ar G (CDot i j) (var_reduce_dot ar workers ideal s i j).
Proof.
  intros O (g & h & E & H & DG & DH & LW & XF & SZ & NC).
  destruct (var_of ar s G i g O E) as (v & V & FG). destruct (var_of ar s G j h O H) as (w & W & FH).
  destruct FG as (VT & VS & MG & FG), FH as (WT & WS & MH & FH). destruct (FG DG) as [NG CG]. destruct (FH DH) as [NH CH].
  unfold var_reduce_dot. rewrite V, W, VT, WT.
  assert (SP : spec ar G (CDot i j) = dot ar G g h) by (cbn [spec]; now rewrite E, H).
  unfold dot in SP.
  destruct (ty_eqb_spec (g_ty g) (g_ty h)) as [T|T]; cbn [negb orb] in *.
  2: { apply agrees_same; auto. }
  specialize (LW T). rewrite VS, WS.
  destruct (ty_eqb (g_ty g) TFlt && (g_size g =? g_size h) && (is_evaluated v || is_evaluated w)) eqn:FAST.
  - apply andb_true_iff in FAST. destruct FAST as [FAST EV]. apply andb_true_iff in FAST. destruct FAST as [TF SS].
    destruct (ty_eqb_spec (g_ty g) TFlt) as [TF'|]; [|discriminate]. clear TF. apply N.eqb_eq in SS.
    assert (NV : constant v = false /\ constant w = false).
    { apply orb_true_iff in EV. destruct (constant v) eqn:CV, (constant w) eqn:CW; auto; exfalso.
      - unfold constant, is_evaluated in *. destruct (v_kind v), (v_kind w); try discriminate; destruct EV; discriminate.
      - apply NC. split; auto. split; auto. right. split; [exists v; auto|exists w]. split; auto.
        unfold constant, is_evaluated in *. destruct (v_kind v), (v_kind w); try discriminate; destruct EV; congruence.
      - apply NC. split; auto. split; auto. left. split; [exists v|exists w; auto]. split; auto.
        unfold constant, is_evaluated in *. destruct (v_kind v), (v_kind w); try discriminate; destruct EV; congruence. }
    destruct NV as [NV NW].
    assert (LV : forall x, v_kind v <> KLit x) by (intros x K; unfold constant in NV; rewrite K in NV; discriminate).
    assert (LW' : forall x, v_kind w <> KLit x) by (intros x K; unfold constant in NW; rewrite K in NW; discriminate).
    destruct (eval_data ar s G i g v O E DG V LV) as (v1 & b1 & x1 & V1 & K1 & S1 & T1 & D1 & X1 & CP1 & M1).
    destruct (var_eval_ok ar s G i g O E) as (O1 & _).
    set (s1 := var_eval ar s i) in *.
    assert (W1 : exists w1, nth_error (s_vars s1) j = Some w1 /\ (forall x, v_kind w1 <> KLit x)).
    { destruct (Nat.eq_dec i j) as [<-|NE].
      - exists v1. split; auto. intros x; congruence.
      - destruct (var_eval_other ar s i j w W NE) as (w1 & A & B & _). exists w1. split; auto. rewrite B. auto. }
    destruct W1 as (w1 & W1 & LW1).
    destruct (eval_data ar s1 G j h w1 O1 H DH W1 LW1) as (w2 & c2 & y2 & W2 & K2 & S2 & T2 & D2 & X2 & CP2 & M2).
    destruct (var_eval_ok ar s1 G j h O1 H) as (O2 & _).
    set (s2 := var_eval ar s1 j) in *.
    assert (V2 : exists v2 b2, nth_error (s_vars s2) i = Some v2 /\ v_kind v2 = KEval b2 /\ v_size v2 = g_size g /\ forall l, l < g_size g -> mem s2 b2 l = g_val g l).
    { destruct (Nat.eq_dec i j) as [->|NE].
      - exists w2, c2. assert (g = h) by congruence. subst h. auto.
      - destruct (var_eval_other ar s1 j i v1 V1 ltac:(auto)) as (v2 & A & B & C & D & F).
        exists v2, b1. split; auto. split; [congruence|]. split; [congruence|]. intros l Hl.
        rewrite <- (clean_content ar s2 G i v2 b1 l O2 A) by (try congruence; auto).
        apply (ok_var _ _ _ O2 i v2 g A E); auto. }
    destruct V2 as (v2 & b2 & V2 & KV2 & SV2 & MV2).
    rewrite V2, W2. unfold data. rewrite KV2, K2, SV2.
    unfold made in MG. rewrite TF' in LW. rewrite reduce_dot_ok by (auto; lia).
    assert (SG : (g_size g =? N.max (g_size g) (g_size h)) = true) by (apply N.eqb_eq; lia).
    assert (SH : (g_size h =? N.max (g_size g) (g_size h)) = true) by (apply N.eqb_eq; lia).
    rewrite SG, SH in SP. cbn [orb andb negb] in SP.
    eapply agrees_ret; [|exact SP]. unfold scalar, arr. rewrite TF'. apply fresh_ok; auto; [unfold made; lia|].
    intros _ _. f_equal. unfold prods, products. replace (N.max (g_size g) (g_size h)) with (g_size g) by lia.
    apply map_ext_in. intros l Hl. apply in_upto in Hl. rewrite MV2 by auto. rewrite M2 by (rewrite <- SS; auto). rewrite TF'. unfold at_.
    rewrite <- SS. destruct (N.eqb_spec (g_size g) 1) as [Z|Z]; auto. now replace l with 0 by lia.
  - set (n := N.max (g_size g) (g_size h)) in *.
    destruct (negb (((g_size g =? n) || (g_size g =? 1)) && ((g_size h =? n) || (g_size h =? 1)))) eqn:BAD.
    + assert (VM : var_mul ar s i j = None).
      { unfold var_mul. rewrite V, W, VS, WS. fold n. apply negb_true_iff, andb_false_iff in BAD.
        replace (negb (g_size g =? n) && negb (g_size g =? 1) || negb (g_size h =? n) && negb (g_size h =? 1)) with true; auto.
        symmetry. apply orb_true_iff. destruct BAD as [B|B]; [left|right]; rewrite <- negb_orb; now rewrite B. }
      rewrite VM. apply agrees_same; auto.
    + apply negb_false_iff, andb_true_iff in BAD. destruct BAD as [B1 B2].
      apply orb_true_iff in B1. apply orb_true_iff in B2. rewrite !N.eqb_eq in B1, B2.
      destruct (mul_ok s G i j g h O E H DG DH B1 B2) as (s1 & -> & O1). fold n in O1.
      set (P := arr (g_ty g) n (fun l => red ar Mul (g_ty g) (at_ g l) (at_ h l)) true true) in *.
      assert (EP : nth_error (G ++ [P]) (length G) = Some P) by (rewrite nth_error_app2, Nat.sub_diag; auto).
      destruct (reduce_ok ar s1 (G ++ [P]) (length G) P Add O1 EP eq_refl LW) as (s2 & -> & O2).
      exists (release s2 (length G)). rewrite SP. cbn [fst snd add]. split.
      * f_equal. f_equal. rewrite app_length. cbn. lia.
      * change (total Add (g_ty P) (values P)) with (total Add (g_ty g) (products ar g h n)) in O2.
        change (g_ty P) with (g_ty g) in O2. exact (release_ok s2 G P _ O2).
Qed.

(** ** Rearrangements *)
Lemma gather_ok s G i g f n : ok s G -> nth_error G i = Some g -> made n -> (forall l, l < n -> f l < g_size g) ->
  exists s', gather ar s i f n = Ok s' (RVar (length G)) /\ ok s' (G ++ [arr (g_ty g) n (fun l => g_val g (f l)) (g_def g) true]).
Proof.
  intros O E M B. destruct (var_of ar s G i g O E) as (v & V & (VT & VS & MG & FG)).
  unfold gather. rewrite V, VT. set (s0 := if v_dirty v then flush ar s else s).
  assert (O0 : ok s0 G) by (unfold s0; destruct (v_dirty v); [now apply flush_ok|auto]).
  assert (C0 : forall l, content ar s0 v l = content ar s v l) by (intros l; unfold s0; destruct (v_dirty v); auto; now apply (flush_content ar s G i)).
  assert (NW : forall k, (forall b, k <> KEval b) ->
    (g_def g = true -> k <> KUndef /\ forall l, l < n -> content ar s0 {| v_kind := k; v_ty := g_ty g; v_size := n; v_dirty := false |} l = g_val g (f l)) ->
    exists s', ret (new s0 k (g_ty g) n false) = Ok s' (RVar (length G)) /\ ok s' (G ++ [arr (g_ty g) n (fun l => g_val g (f l)) (g_def g) true])).
  { intros k NE C. destruct (new_ok ar s0 G k (g_ty g) n (arr (g_ty g) n (fun l => g_val g (f l)) (g_def g) true) O0 M) as [A1 A2]; auto.
    - intros b K. exfalso. exact (NE b K).
    - eexists. unfold ret. rewrite A2. split; [reflexivity|exact A1]. }
  assert (CC : g_def g = true -> forall l, l < n -> content ar s0 v (pick v (f l)) = g_val g (f l)).
  { intros D l Hl. rewrite C0. unfold pick. rewrite VS. specialize (B l Hl). destruct (N.eqb_spec (g_size g) 1) as [Z|Z].
    - replace (f l) with 0 by lia. apply FG; auto. lia.
    - apply FG; auto. }
  destruct (v_kind v) as [x| | |u|b] eqn:K; apply NW; try discriminate; intros D; try (split; [discriminate|]).
  - intros l Hl. rewrite <- (CC D l Hl). unfold content. now rewrite K.
  - exfalso. now apply (proj1 (FG D)).
  - intros l Hl. rewrite <- (CC D l Hl). unfold content. now rewrite K.
  - intros l Hl. cbn. now apply CC.
  - intros l Hl. cbn [content v_kind]. now apply CC.
Qed.
Lemma agrees_gather G c r t n f d : (exists s', r = Ok s' (RVar (length G)) /\ ok s' (G ++ [arr t n f d true])) ->
  spec ar G c = add G (arr t n f d true) -> agrees ar G c r.
Proof. intros (s' & -> & O) E. exists s'. rewrite E. auto. Qed.

Lemma tile_ok s G i g k : ok s G -> nth_error G i = Some g -> k < 2 ^ 32 -> agrees ar G (CTile i k) (var_tile ar s i k).
Proof.
  intros O E KB. destruct (var_of ar s G i g O E) as (v & V & (VT & VS & MG & FG)). unfold made in MG.
  unfold var_tile. rewrite V, VS.
  assert (U : u64 (g_size g * k) = g_size g * k).
  { unfold u64. apply N.mod_small. apply N.lt_le_trans with (2 ^ 32 * 2 ^ 32); [|vm_compute; discriminate]. apply N.mul_lt_mono; lia. }
  rewrite U. unfold size_ok.
  destruct (N.ltb_spec (g_size g * k) (2 ^ 32)) as [L|L]; cbn [negb orb].
  - destruct (N.eqb_spec (g_size g * k) 0) as [Z|Z].
    + apply agrees_same; auto. cbn [spec operand]. rewrite E. cbn [spec1]. now rewrite Z.
    + eapply agrees_gather.
      * apply (gather_ok s G i g _ _ O E); [split; [now apply N.neq_0_lt_0|auto]|]. intros l _. apply N.mod_lt. lia.
      * cbn [spec operand]. rewrite E. cbn [spec1]. cbv zeta. rewrite (proj2 (N.eqb_neq _ _) Z).
        replace (2 ^ 32 <=? g_size g * k) with false by (symmetry; apply N.leb_gt; auto). reflexivity.
  - apply agrees_same; auto. cbn [spec operand]. rewrite E. cbn [spec1]. cbv zeta.
    replace (2 ^ 32 <=? g_size g * k) with true by (symmetry; apply N.leb_le; auto). now rewrite orb_true_r.
Qed.
Lemma repeat_ok s G i g k m : ok s G -> nth_error G i = Some g -> k < 2 ^ 32 -> agrees ar G (CRepeat i k m) (var_repeat ar s i k m).
Proof.
  intros O E KB. destruct (var_of ar s G i g O E) as (v & V & (VT & VS & MG & FG)). unfold made in MG.
  unfold var_repeat. rewrite V, VS.
  assert (U : u64 (g_size g * k) = g_size g * k).
  { unfold u64. apply N.mod_small. apply N.lt_le_trans with (2 ^ 32 * 2 ^ 32); [|vm_compute; discriminate]. apply N.mul_lt_mono; lia. }
  rewrite U. unfold size_ok.
  assert (NE : (if (0 <? m) && (m <? g_size g * k) then m else g_size g * k) = (if m =? 0 then g_size g * k else N.min m (g_size g * k))).
  { destruct (N.eqb_spec m 0) as [->|Z]; [reflexivity|]. replace (0 <? m) with true by (symmetry; apply N.ltb_lt; lia). cbn [andb].
    destruct (N.ltb_spec m (g_size g * k)); lia. }
  rewrite NE. assert (NL : (if m =? 0 then g_size g * k else N.min m (g_size g * k)) <= g_size g * k) by (destruct (m =? 0); lia).
  set (n := if m =? 0 then g_size g * k else N.min m (g_size g * k)) in *.
  destruct (N.ltb_spec n (2 ^ 32)) as [L|L]; cbn [negb orb].
  - destruct (N.eqb_spec n 0) as [Z|Z].
    + apply agrees_same; auto. cbn [spec operand]. rewrite E. cbn [spec1]. fold n. now rewrite Z.
    + eapply agrees_gather.
      * apply (gather_ok s G i g _ _ O E); [split; [apply N.neq_0_lt_0|]; auto|]. intros l Hl. assert (k <> 0) by (intros ->; lia).
        apply N.div_lt_upper_bound; [auto|]. rewrite N.mul_comm. lia.
      * cbn [spec operand]. rewrite E. cbn [spec1]. fold n. cbv zeta. rewrite (proj2 (N.eqb_neq _ _) Z).
        replace (2 ^ 32 <=? n) with false by (symmetry; apply N.leb_gt; auto). reflexivity.
  - apply agrees_same; auto. cbn [spec operand]. rewrite E. cbn [spec1]. fold n. cbv zeta.
    replace (2 ^ 32 <=? n) with true by (symmetry; apply N.leb_le; auto). now rewrite orb_true_r.
Qed.
Lemma sub32_small a b : b <= a -> a < 2 ^ 32 -> sub32 a b = a - b.
Proof.
  intros H1 H2. unfold sub32, u32. replace (a + 2 ^ 32 - b) with (a - b + 1 * 2 ^ 32) by lia. rewrite N.mod_add by lia. apply N.mod_small. lia.
Qed.
Lemma reverse_ok s G i g : ok s G -> nth_error G i = Some g -> agrees ar G (CReverse i) (var_reverse ar s i).
Proof.
  intros O E. destruct (var_of ar s G i g O E) as (v & V & (VT & VS & MG & FG)). unfold made in MG.
  unfold var_reverse. rewrite V, VS. rewrite (sub32_small (g_size g) 1) by lia.
  destruct (gather_ok s G i g (fun l => sub32 (g_size g - 1) l) (g_size g) O E MG) as (s' & -> & O').
  - intros l Hl. rewrite sub32_small; lia.
  - exists s'. cbn [spec operand]. rewrite E. cbn [spec1 add fst snd]. split; auto.
    constructor.
    + apply (ok_len _ _ _ O') || (rewrite (ok_len _ _ _ O'), !app_length; reflexivity).
    + intros j u w U W. destruct (nth_snoc _ _ _ _ W) as [W1|[-> ->]].
      * apply (ok_var _ _ _ O' j u w U). now apply nth_more.
      * destruct (ok_var _ _ _ O' (length G) u (arr (g_ty g) (g_size g) (fun l => g_val g (sub32 (g_size g - 1) l)) (g_def g) true) U) as (A & B & C & D).
        -- rewrite nth_error_app2, Nat.sub_diag by auto. reflexivity.
        -- split; auto. split; auto. split; auto. intros DD. destruct (D DD) as [D1 D2]. split; auto.
           intros l Hl. rewrite D2 by auto. cbn in Hl |- *. now rewrite sub32_small by lia.
    + apply (ok_ev _ _ _ O').
    + apply (ok_pend _ _ _ O').
    + intros j u w b U W P K. destruct (nth_snoc _ _ _ _ W) as [W1|[-> ->]].
      * apply (ok_pad _ _ _ O' j u w b U); auto. now apply nth_more.
      * apply (ok_pad _ _ _ O' (length G) u (arr (g_ty g) (g_size g) (fun l => g_val g (sub32 (g_size g - 1) l)) (g_def g) true) b U); auto.
        rewrite nth_error_app2, Nat.sub_diag by auto. reflexivity.
Qed.

Lemma shrink_ok s G i g n : ok s G -> nth_error G i = Some g -> legal1 ar 0 s i (CShrink i n) g ->
  agrees ar G (CShrink i n) (var_shrink ar s i n).
Proof.
  intros O E (D & (v & V & ND)). apply negb_true_iff in ND. destruct (ok_var _ _ _ O i v g V E) as (VT & VS & MG & FG).
  destruct (FG D) as [NU C]. unfold made in MG.
  assert (SP : spec ar G (CShrink i n) = spec1 ar G i (CShrink i n) g) by (cbn [spec operand]; now rewrite E). cbn [spec1] in SP.
  unfold var_shrink. rewrite V, VS, VT.
  destruct (n =? 0) eqn:N0; [apply agrees_same; auto|]. rewrite (N.eqb_sym n) in SP.
  destruct (g_size g =? n) eqn:NS; [apply agrees_same; auto|].
  destruct (N.ltb_spec (g_size g) n) as [L|L]; [apply agrees_same; auto|].
  apply N.eqb_neq in N0, NS.
  assert (VW : forall s0 w b, ok s0 G -> nth_error (s_vars s0) i = Some w -> v_kind w = KEval b -> v_dirty w = false ->
    agrees ar G (CShrink i n) (ret (new s0 (KEval b) (g_ty g) n false))).
  { intros s0 w b O0 W K DW. destruct (ok_var _ _ _ O0 i w g W E) as (WT & WS & _ & FW).
    eapply agrees_ret; [|exact SP]. apply new_ok; auto; [unfold made; lia|..].
    - intros _. split; [discriminate|]. intros l Hl. cbn [content v_kind arr g_val].
      rewrite <- (proj2 (FW D)) by lia. unfold content. now rewrite K.
    - intros b' [= <-]. destruct (ok_ev _ _ _ O0 i w b W K) as (x & X & CP). split; [|split].
      + exists x. split; auto. split; [lia|discriminate].
      + exact (not_pending ar s0 G i w b O0 W K DW).
      + intros j u h U H KU. split; [|discriminate]. intros P.
        pose proof (proj2 (ok_pad _ _ _ O0 j u h b U H P KU) i w W K). lia. }
  destruct (v_kind v) as [x| | |f|b] eqn:K; try congruence.
  - eapply agrees_ret; [|exact SP]. apply new_ok; auto; try discriminate; [unfold made; lia|].
    intros _. split; [discriminate|]. intros l Hl. cbn [content v_kind arr g_val]. rewrite <- C by lia. unfold content. now rewrite K.
  - unfold is_evaluated. rewrite K. destruct (eval_data ar s G i g v O E D V ltac:(congruence)) as (w & b & x & W & KW & _ & _ & DW & _).
    rewrite W. unfold data. rewrite KW. apply (VW _ w); auto. exact (proj1 (var_eval_ok ar s G i g O E)).
  - unfold is_evaluated. rewrite K. destruct (eval_data ar s G i g v O E D V ltac:(congruence)) as (w & b & x & W & KW & _ & _ & DW & _).
    rewrite W. unfold data. rewrite KW. apply (VW _ w); auto. exact (proj1 (var_eval_ok ar s G i g O E)).
  - unfold is_evaluated. rewrite K. rewrite V. unfold data. rewrite K. now apply (VW s v).
Qed.

(** ** Scatters *)
Lemma filter_one {A} (p : A -> bool) (l : list A) i j x y : length (filter p l) = 1%nat ->
  nth_error l i = Some x -> p x = true -> nth_error l j = Some y -> p y = true -> i = j.
Proof.
  revert i j. induction l as [|a l IH]; intros i j L X P Y Q; [destruct i; discriminate|].
  cbn in L. assert (NO : length (filter p l) = 0%nat -> forall k z, nth_error l k = Some z -> p z = true -> False).
  { intros Z k z H1 H2. apply nth_error_In in H1. assert (In z (filter p l)) by (apply filter_In; auto).
    destruct (filter p l); [contradiction|discriminate]. }
  destruct (p a) eqn:PA.
  - cbn in L. injection L as L. destruct i, j; auto; exfalso; cbn in *; eauto.
  - destruct i, j; cbn in *; try congruence. f_equal. eauto.
Qed.
Lemma store_val q (g : svar) n f x : q_n q = n -> q_idx q = f -> q_val q = x -> q_op q = None ->
  forall d, (forall l, l < g_size g -> d l = g_val g l) -> forall l, l < g_size g -> apply ar q d l = g_val (store g n f x) l.
Proof.
  intros <- <- <- Q. unfold apply, store. cbn [g_val arr]. generalize (g_val g) as e.
  induction (upto (q_n q)) as [|k ks IH]; intros e d H l Hl; cbn; auto.
  apply IH; auto. intros m Hm. unfold lane, put. rewrite Q. rewrite (H m Hm). reflexivity.
Qed.
Lemma pend_ok s G i v g b q n f x : ok s G -> nth_error (s_vars s) i = Some v -> nth_error G i = Some g -> v_kind v = KEval b ->
  (forall j w, nth_error (s_vars s) j = Some w -> v_kind w = KEval b -> j = i) ->
  q = {| q_buf := b; q_n := n; q_idx := f; q_val := x; q_op := None; q_ty := v_ty v |} ->
  ok {| s_bufs := s_bufs s;
        s_vars := set_nth i {| v_kind := v_kind v; v_ty := v_ty v; v_size := v_size v; v_dirty := true |} (s_vars s);
        s_pend := s_pend s ++ [q] |} (set_nth i (store g n f x) G).
Proof.
  intros O V E K UN Q. pose proof (ok_ev _ _ _ O i v b V K) as (y & Y & CP).
  assert (LI : (i < length (s_vars s))%nat) by (apply nth_error_Some; congruence).
  assert (LG : (i < length G)%nat) by (apply nth_error_Some; congruence).
  assert (SV : forall j w, nth_error (set_nth i {| v_kind := v_kind v; v_ty := v_ty v; v_size := v_size v; v_dirty := true |} (s_vars s)) j = Some w ->
     (j <> i /\ nth_error (s_vars s) j = Some w) \/ (j = i /\ w = {| v_kind := v_kind v; v_ty := v_ty v; v_size := v_size v; v_dirty := true |})).
  { intros j w W. destruct (Nat.eq_dec i j) as [<-|N]; [right; rewrite nth_error_set_nth_eq in W by auto; split; congruence|].
    left. rewrite nth_error_set_nth_neq in W by auto. auto. }
  assert (SG : forall j h, nth_error (set_nth i (store g n f x) G) j = Some h ->
     (j <> i /\ nth_error G j = Some h) \/ (j = i /\ h = store g n f x)).
  { intros j w W. destruct (Nat.eq_dec i j) as [<-|N]; [right; rewrite nth_error_set_nth_eq in W by auto; split; congruence|].
    left. rewrite nth_error_set_nth_neq in W by auto. auto. }
  constructor; cbn [s_bufs s_vars s_pend].
  - rewrite !set_nth_length. apply (ok_len _ _ _ O).
  - intros j w h W H. destruct (SV j w W) as [[N W1]|[EJ ->]], (SG j h H) as [[N' H1]|[N' ->]]; try congruence; try subst j.
    + destruct (ok_var _ _ _ O j w h W1 H1) as (A & B & M & C). split; auto. split; auto. split; auto. intros D. destruct (C D) as [C1 C2]. split; auto.
      intros l Hl. rewrite <- C2 by auto. unfold content. destruct (v_kind w) as [z| | |u|c] eqn:KW; auto.
      cbn [s_pend]. rewrite settle_app. subst q. cbn [q_buf]. destruct (Nat.eqb_spec b c) as [<-|NE]; [|reflexivity].
      exfalso. exact (N (UN j w W1 KW)).
    + destruct (ok_var _ _ _ O i v g V E) as (A & B & M & C). split; auto. split; auto. split; auto. intros D. destruct (C D) as [C1 C2]. split; auto.
      intros l Hl. unfold content. cbn [v_kind]. rewrite K. cbn [s_pend]. rewrite settle_app. subst q. cbn [q_buf]. rewrite Nat.eqb_refl.
      apply (store_val _ g n f x); auto. intros m Hm. rewrite <- C2 by auto. unfold content. now rewrite K.
  - intros j w c W KW. destruct (SV j w W) as [[N W1]|[-> ->]]; [exact (ok_ev _ _ _ O j w c W1 KW)|].
    cbn in KW. exact (ok_ev _ _ _ O i v c V KW).
  - intros q' Q'. apply in_app_or in Q'. destruct Q' as [Q'|[<-|[]]].
    + destruct (ok_pend _ _ _ O q' Q') as [A B]. split; auto. intros j w W KW. destruct (SV j w W) as [[N W1]|[-> ->]]; [exact (B j w W1 KW)|reflexivity].
    + subst q. cbn [q_buf]. split; [apply nth_error_Some; congruence|]. intros j w W KW. destruct (SV j w W) as [[N W1]|[-> ->]]; [|reflexivity].
      exfalso. exact (N (UN j w W1 KW)).
  - intros j w h c W H P KW. destruct (SV j w W) as [[N W1]|[EJ ->]], (SG j h H) as [[N' H1]|[N' ->]]; try congruence; try subst j.
    + destruct (ok_pad _ _ _ O j w h c W1 H1 P KW) as [A B]. split; auto. intros k u U KU.
      destruct (SV k u U) as [[N2 U1]|[-> ->]]; [exact (B k u U1 KU)|]. exact (B i v V KU).
    + cbn in KW. destruct (ok_pad _ _ _ O i v g c V E P KW) as [A B]. split; auto. intros k u U KU.
      destruct (SV k u U) as [[N2 U1]|[-> ->]]; [exact (B k u U1 KU)|]. cbn. lia.
Qed.
Lemma scatter_ok s G i g n f x : ok s G -> nth_error G i = Some g -> agrees ar G (CScatter i n f x) (var_scatter ar s i n f x).
Proof.
  intros O E. destruct (var_of ar s G i g O E) as (v & V & F). unfold var_scatter. rewrite V.
  assert (SP : spec ar G (CScatter i n f x) = (set_nth i (store g n f x) G, RVar i)) by (cbn [spec operand]; now rewrite E).
  assert (FIN : forall s0 w b, ok s0 G -> nth_error (s_vars s0) i = Some w -> v_kind w = KEval b ->
    (forall j u, nth_error (s_vars s0) j = Some u -> v_kind u = KEval b -> j = i) ->
    agrees ar G (CScatter i n f x)
      match nth_error (s_vars s0) i with
      | None => UB
      | Some v =>
          match data v with
          | None => UB
          | Some b =>
              Ok {| s_bufs := s_bufs s0;
                    s_vars := set_nth i {| v_kind := v_kind v; v_ty := v_ty v; v_size := v_size v; v_dirty := true |} (s_vars s0);
                    s_pend := s_pend s0 ++ [{| q_buf := b; q_n := n; q_idx := f; q_val := x; q_op := None; q_ty := v_ty v |}] |} (RVar i)
          end
      end).
  { intros s0 w b O0 W K UN. rewrite W. unfold data. rewrite K. eexists. rewrite SP. split; [reflexivity|]. cbn [fst].
    rewrite <- K at 1. now apply (pend_ok s0 G i w g b). }
  cbv zeta. destruct (match v_kind v with KEval b => Nat.eqb (users s b) 1 | _ => false end) eqn:OWN.
  - destruct (v_kind v) as [z| | |u|b] eqn:K; try discriminate. apply Nat.eqb_eq in OWN. apply (FIN s v b); auto.
    intros j w W KW. apply (filter_one _ (s_vars s) j i w v OWN); auto; [rewrite KW|rewrite K]; apply Nat.eqb_refl.
  - pose proof (flush_ok ar s G O) as O1.
    assert (V1 : nth_error (s_vars (flush ar s)) i = Some (clean v)) by (now rewrite flush_var, V).
    assert (O2 : ok (moved (flush ar s) (clean v) i (v_size v) (content ar (flush ar s) v)) G).
    { apply (moved_ok ar (flush ar s) G i (clean v) g); auto. intros D l Hl. rewrite (flush_content ar s G i v l O V). now apply F. }
    apply (FIN (moved (flush ar s) (clean v) i (v_size v) (content ar (flush ar s) v)) (with_kind (clean v) (KEval (length (s_bufs (flush ar s))))) (length (s_bufs (flush ar s)))); auto.
    + now apply moved_same.
    + intros j u U KU. destruct (moved_nth _ _ _ _ _ _ _ U) as [[N U1]|[<- _]]; auto. exfalso.
      destruct (ok_ev _ _ _ O1 j u _ U1 KU) as (y & Y & _).
      assert (length (s_bufs (flush ar s)) < length (s_bufs (flush ar s)))%nat by (apply nth_error_Some; congruence). lia.
Qed.

Lemma map_call_ok s G t n d : ok s G -> made n -> agrees ar G (CMap t n d) (mem_map s t n d).
Proof.
  intros O M. unfold mem_map. eapply agrees_ret; [|reflexivity]. change {| s_bufs := s_bufs s ++ [?x]; s_vars := _; s_pend := _ |} with (more s [x]).
  apply new_ok; auto.
  - now apply more_ok.
  - intros _. split; [discriminate|]. intros l Hl. cbn [content v_kind arr g_val].
    change (s_pend (more s [{| b_cap := n; b_dat := d |}])) with (s_pend s). rewrite settle_none by (now apply (end_none ar s G)).
    unfold mem, more. cbn [s_bufs]. now rewrite nth_error_app2, Nat.sub_diag.
  - intros b [= <-]. split; [|split].
    + eexists. unfold more. cbn [s_bufs]. rewrite nth_error_app2, Nat.sub_diag by auto. split; [reflexivity|]. cbn. split; [lia|discriminate].
    + exact (end_none ar s G O).
    + intros i v g V E K. destruct (ok_ev _ _ _ O i v _ V K) as (x & X & _).
      assert (length (s_bufs s) < length (s_bufs s))%nat by (apply nth_error_Some; congruence). lia.
Qed.

Theorem step_ok s G c : ok s G -> legal ar ideal s G c -> agrees ar G c (step ar workers ideal s c).
Proof.
  intros O L. destruct c; cbn [step]; try (destruct L as (i' & h & OP & E & L1); cbn [operand] in OP; injection OP as <-).
  - eapply agrees_ret; [|reflexivity]. apply new_ok; auto; try discriminate. intros _. split; [discriminate|]. reflexivity.
  - eapply agrees_ret; [|reflexivity]. apply new_ok; auto; discriminate.
  - eapply agrees_ret; [|reflexivity]. apply new_ok; auto; try discriminate. intros _. split; [discriminate|]. reflexivity.
  - eapply agrees_ret; [|reflexivity]. apply new_ok; auto; try discriminate. intros _. split; [discriminate|]. reflexivity.
  - now apply map_call_ok.
  - apply agrees_same; [exact (proj1 (var_eval_ok ar s G i h O E))|]. cbn [spec operand]. now rewrite E.
  - now apply (scatter_ok s G i h).
  - now apply (shrink_ok s G i h).
  - now apply (query_ok ar s G i h).
  - now apply (query_async_ok ar s G i h).
  - now apply (compress_ok ar workers ideal s G i h).
  - destruct L1 as [D LW]. destruct (reduce_ok ar s G i h o O E D LW) as (s' & -> & O').
    exists s'. cbn [spec operand]. rewrite E. auto.
  - now apply (block_reduce_ok ar s G i h).
  - now apply dot_ok.
  - now apply (tile_ok s G i h).
  - now apply (repeat_ok s G i h).
  - now apply (reverse_ok s G i h).
Qed.

Theorem run_ok l : forall s G, ok s G -> legals ar workers ideal s G l ->
  exists s', run ar workers ideal s l = Some (s', snd (specs ar G l)) /\ ok s' (fst (specs ar G l)).
Proof.
  induction l as [|c l IH]; intros s G O L; cbn [run specs]; [exists s; auto|].
  destruct L as [LC LR]. destruct (step_ok s G c O LC) as (s1 & E & O1).
  rewrite E. destruct (IH _ _ O1 (LR _ _ E)) as (s2 & E2 & O2). rewrite E2.
  destruct (spec ar G c) as [G1 x]. cbn [fst snd] in *. destruct (specs ar G1 l) as [G2 t]. cbn [fst snd] in *. eauto.
Qed.
Lemma ok_holds s G : ok s G -> Forall2 (holds ar s) (s_vars s) G.
Proof.
  intros O. assert (H : forall i v g, nth_error (s_vars s) i = Some v -> nth_error G i = Some g -> holds ar s v g).
  { intros i v g V E. destruct (ok_var _ _ _ O i v g V E) as (A & B & _ & C). split; auto. split; auto. intros D. now apply C. }
  pose proof (ok_len _ _ _ O) as L. clear O. revert G L H. generalize (s_vars s) as vs.
  induction vs as [|v vs IH]; intros [|g G] L H; try discriminate; constructor.
  - exact (H 0%nat v g eq_refl eq_refl).
  - apply IH; [now injection L|]. intros i. exact (H (S i)).
Qed.
Theorem histories l : legals ar workers ideal empty [] l ->
  exists s, run ar workers ideal empty l = Some (s, snd (specs ar [] l)) /\ Forall2 (holds ar s) (s_vars s) (fst (specs ar [] l)).
Proof.
  intros L. destruct (run_ok l empty [] (ok_empty ar) L) as (s & E & O). exists s. split; auto. now apply ok_holds.
Qed.
Theorem evaluated l i g : legals ar workers ideal empty [] l -> nth_error (fst (specs ar [] l)) i = Some g -> g_def g = true ->
  exists s s' v, run ar workers ideal empty l = Some (s, snd (specs ar [] l)) /\ step ar workers ideal s (CEval i) = Ok s' REmpty /\
    nth_error (s_vars s') i = Some v /\ reads s' v g.
Proof.
  intros L E D. destruct (run_ok l empty [] (ok_empty ar) L) as (s & R & O). exists s.
  destruct (var_of ar s _ i g O E) as (v & V & F).
  destruct (v_kind v) as [x| | |f|b] eqn:K.
  - exists (var_eval ar s i). destruct (var_eval_ok ar s _ i g O E) as (O1 & w & W & _).
    destruct (var_of ar _ _ i g O1 E) as (w' & W' & F'). assert (w' = w) by congruence. subst w'.
    exists w. split; auto. split; auto. split; auto.
    assert (KW : v_kind w = KLit x).
    { revert W. unfold var_eval. rewrite V, K. destruct (v_dirty v); [rewrite flush_var, V; intros [= <-]; exact K|rewrite V; intros [= <-]; exact K]. }
    unfold reads. rewrite KW. intros l0 Hl. destruct F' as (_ & _ & _ & F'). destruct (F' D) as [_ C]. rewrite <- C by auto.
    unfold content. now rewrite KW.
  - exfalso. now apply (proj1 (proj2 (proj2 (proj2 F)) D)).
  - destruct (eval_data ar s _ i g v O E D V ltac:(congruence)) as (w & b & x & W & KW & _ & _ & _ & _ & _ & M).
    exists (var_eval ar s i), w. split; auto. split; auto. split; auto. unfold reads. rewrite KW. auto.
  - destruct (eval_data ar s _ i g v O E D V ltac:(congruence)) as (w & b & x & W & KW & _ & _ & _ & _ & _ & M).
    exists (var_eval ar s i), w. split; auto. split; auto. split; auto. unfold reads. rewrite KW. auto.
  - destruct (eval_data ar s _ i g v O E D V ltac:(congruence)) as (w & b' & x & W & KW & _ & _ & _ & _ & _ & M).
    exists (var_eval ar s i), w. split; auto. split; auto. split; auto. unfold reads. rewrite KW. auto.
Qed.
End Steps.
