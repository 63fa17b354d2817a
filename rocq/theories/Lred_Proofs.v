(** Reductions of literals equal the reduction of the lanes. *)
From Verif Require Import Base Op_Model Op_Spec Op_Bits Op_Fold Op_Store Op_Proofs Op_Built Lred_Model Lred_Spec.
Local Open Scope N_scope.

(** ** Reducing equal values *)
Lemma map_repeat : forall A B (f : A -> B) a n, map f (repeat a n) = repeat (f a) n.
Proof. induction n; cbn; congruence. Qed.
Lemma sum_repeat : forall n z, fold_right Z.add 0%Z (repeat z n) = (Z.of_nat n * z)%Z.
Proof. induction n; intros; cbn [repeat fold_right]; [lia|]. rewrite IHn. lia. Qed.
Lemma prod_repeat : forall n z, fold_right Z.mul 1%Z (repeat z n) = (z ^ Z.of_nat n)%Z.
Proof.
  induction n; intros; cbn [repeat fold_right]; [reflexivity|]. rewrite IHn. rewrite Nat2Z.inj_succ.
  now rewrite Z.pow_succ_r by lia.
Qed.
Lemma land_top : forall a w, a < 2 ^ w -> N.land a (2 ^ w - 1) = a.
Proof. intros. replace (2 ^ w - 1) with (N.ones w) by (rewrite N.ones_equiv; lia). rewrite N.land_ones. now apply N.mod_small. Qed.

Lemma reduction_same : forall op t a n, (n <> 0)%nat -> a < 2 ^ width t -> op <> RAdd -> op <> RMul ->
  reduction op t (repeat a n) a.
Proof.
  intros op t a n NZ A H1 H2.
  assert (IN : In a (repeat a n)) by (destruct n; [lia|now left]).
  assert (NE : repeat a n <> []) by (destruct n; [lia|discriminate]).
  destruct op; try congruence; cbn.
  - split; [assumption|]. apply Forall_forall. intros y Y. apply repeat_spec in Y. subst. lia.
  - split; [assumption|]. apply Forall_forall. intros y Y. apply repeat_spec in Y. subst. lia.
  - split; [assumption|]. symmetry. clear - A NZ. induction n; [lia|]. cbn [repeat fold_right]. destruct n.
    + cbn. now apply land_top.
    + rewrite IHn by lia. apply N.land_diag.
  - split; [assumption|]. symmetry. clear - A NZ. induction n; [lia|]. cbn [repeat fold_right]. destruct n.
    + cbn. apply N.lor_0_r.
    + rewrite IHn by lia. apply N.lor_diag.
Qed.

Lemma interval_length : forall lo hi (L : list N), lo <= hi -> NoDup L -> (forall j, In j L <-> lo <= j < hi) ->
  length L = N.to_nat (hi - lo).
Proof.
  intros lo hi L LE ND IN.
  rewrite (Permutation_length (l' := map (fun i => lo + N.of_nat i) (seq 0 (N.to_nat (hi - lo))))).
  - now rewrite map_length, seq_length.
  - apply NoDup_Permutation; [assumption| |].
    + apply FinFun.Injective_map_NoDup; [intros a b E; lia|apply seq_NoDup].
    + intros j. rewrite IN, in_map_iff. split.
      * intros H. exists (N.to_nat (j - lo)). rewrite in_seq. lia.
      * intros (i & <- & H). rewrite in_seq in H. lia.
Qed.

Section Proofs.
Variable fop : kind -> ty -> list ty -> list N -> N.
Notation value := (value fop).
Notation wf := (wf fop).
Notation kept := (kept fop).
Notation made := (made fop).

Lemma lit_reduces : forall st h t n a op (sel : N -> Prop) lo hi m x,
  get st h = Some (mkVar t n (Lit a)) -> lo <= hi -> (forall j, j < m /\ sel j <-> lo <= j < hi) ->
  reduction op t (repeat a (N.to_nat (hi - lo))) x -> reduces fop st h m op t sel x.
Proof.
  intros st h t n a op sel lo hi m x G LE SEL R L vs ND IN F.
  assert (vs = repeat a (length vs)) as ->.
  { clear - G F. induction F; [reflexivity|]. cbn. rewrite <- IHF. f_equal.
    erewrite value_literal in H by (try exact G; reflexivity). congruence. }
  assert (length L = length vs) as <- by (clear - F; induction F; cbn; congruence).
  rewrite (interval_length lo hi); auto.
  intros j. rewrite IN. apply SEL.
Qed.

(** ** Closed forms *)
Variables (cp fast : bool).
Variable uniq : store -> nat -> bool.
Variable powd : Z -> Z -> option Z.
Variable evaluated : store -> nat -> out (store * nat).
Notation scalar := (scalar fop powd).

Lemma scalar_fine : forall op t n a, is_int t = true -> a < 2 ^ width t -> 1 <= n -> scalar_ok powd op t n a ->
  exists y, scalar op t n a = Ok y /\ reduction op t (repeat a (N.to_nat n)) (wrap t y).
Proof.
  intros op t n a I A N OK.
  assert (OTHER : op <> RAdd -> op <> RMul -> exists y, Ok a = Ok y /\ reduction op t (repeat a (N.to_nat n)) (wrap t y)).
  { intros. exists a. split; [reflexivity|]. rewrite wrap_small by assumption. apply reduction_same; auto; lia. }
  destruct op; try (apply OTHER; discriminate); clear OTHER; cbn [scalar Lred_Model.scalar].
  - unfold scalar_add. rewrite int_not_bool, int_not_float by assumption. cbn in OK. fold (wrap t n) in OK.
    rewrite cxx_ok by assumption. cbn [obind]. eexists. split; [reflexivity|]. cbn [reduction].
    rewrite map_repeat, sum_repeat. rewrite narrow by apply promote_width. rewrite wrap_of_bits.
    apply bits_congr. rewrite N_nat_Z, Z.mul_comm.
    apply cong_mul; [|reflexivity]. rewrite num_mod by apply wrap_lt. unfold wrap. rewrite <- zw_N.
    rewrite N2Z.inj_mod. apply Z.mod_mod. rewrite zw_N. pose proof (zw_pos t). lia.
  - destruct OK as [PE (P1 & P2 & P3)]. unfold scalar_mul. rewrite int_not_bool, int_not_float by assumption.
    fold (wrap t n) in P1. rewrite P1, PE by (auto; lia).
    set (z := (num t a ^ Z.of_N n)%Z) in *.
    pose proof (num_range t _ (bits_lt t z)) as RG. rewrite P2 in RG.
    assert (B : (if is_sint t then in_range t z else (-1 <? z) && (z <? 2 ^ Z.of_N (width t)))%Z = true).
    { destruct (is_sint t); [now apply in_range_spec|]. unfold zw in RG. apply andb_true_intro. lia. }
    rewrite B. exists (zwrap t z). split; [reflexivity|]. cbn [reduction]. rewrite map_repeat, prod_repeat, N_nat_Z.
    apply wrap_of_bits.
Qed.

Lemma extends_get : forall st st' h v, extends st st' -> get st h = Some v -> get st' h = Some v.
Proof. intros st st' h v [s ->] G. now apply get_app. Qed.
Lemma literal_out : forall st t x n, wf st -> 1 <= n -> is_int t = true ->
  exists st' r, literal st t x n = Ok (st', r) /\ wf st' /\ extends st st' /\ get st' r = Some (mkVar t n (Lit (wrap t x))).
Proof.
  intros st t x n W N I. destruct (made_literal fop st t x n W N) as (st' & r & E & W' & X & _ & _).
  { intros ->. discriminate. }
  exists st', r. repeat (split; [assumption|]). unfold literal, push in E. rewrite int_not_bool in E by assumption.
  destruct (n =? 0) eqn:Z; [apply N.eqb_eq in Z; lia|]. injection E as <- <-. apply get_new.
Qed.
Lemma u32_out : forall st x, wf st -> x < 2 ^ 32 ->
  exists st' r, var_u32 st x = Ok (st', r) /\ wf st' /\ extends st st' /\ get st' r = Some (mkVar U32 1 (Lit x)).
Proof.
  intros st x W X. destruct (literal_out st U32 x 1 W) as (st' & r & E & W' & XT & G); [lia|reflexivity|].
  exists st', r. unfold literal, var_u32 in *. rewrite wrap_small in * by exact X. cbn [N.eqb is_bool] in E.
  split; [exact E|]. split; [exact W'|]. split; assumption.
Qed.
Lemma counter_out : forall st n, wf st -> 1 <= n ->
  exists st' r d, counter st n = Ok (st', r) /\ wf st' /\ extends st st' /\ get st' r = Some (mkVar U32 n d) /\
    (forall l, l < n -> l < 2 ^ 32 -> value st' r l = Some l).
Proof.
  intros st n W N. unfold counter. destruct (N.eqb_spec n 1) as [->|NE].
  - destruct (literal_out st U32 0 1 W) as (st' & r & E & W' & X & G); [lia|reflexivity|].
    exists st', r, (Lit (wrap U32 0)). repeat (split; [assumption|]). intros l L _.
    erewrite value_literal by (try exact G; reflexivity). rewrite wrap_small by reflexivity. f_equal. lia.
  - assert (VO : var_ok (st ++ [mkVar U32 n Ctr]) (length st) (mkVar U32 n Ctr)) by (split; [exact N|exact NE]).
    destruct (made_push fop st U32 n Ctr (fun l => Some (wrap U32 l)) W VO) as (st' & r & E & W' & X & H & V).
    + cbn. intros l x H. injection H as <-. apply wrap_lt.
    + cbn. intros l x H. now replace (n =? 1) with false by (symmetry; now apply N.eqb_neq).
    + exists st', r, Ctr. repeat (split; [assumption|]). unfold push in E. injection E as <- <-.
      split; [apply get_new|]. intros l _ L. apply V. now rewrite wrap_small.
Qed.
Lemma extends_value : forall st st' h v l, extends st st' -> get st h = Some v -> value st' h l = value st h l.
Proof. intros st st' h v l [s ->] G. eapply value_app; eauto. Qed.

(** ** jitc_var_reduce *)
Lemma reduce_ok : forall st op h t n a, wf st -> get st h = Some (mkVar t n (Lit a)) -> is_int t = true ->
  op <> RAnd -> op <> ROr -> (1 < n -> scalar_ok powd op t n a) ->
  returns fop st (var_reduce fop powd evaluated st t op h) t 1 (fun _ x => reduces fop st h n op t (fun _ => True) x).
Proof.
  intros st op h t n a W G I N1 N2 OK.
  assert (A : a < 2 ^ width t) by (eapply wf_range with (l := 0); eauto; eapply value_literal; eauto; reflexivity).
  pose proof (wf_get _ _ _ _ W G) as SZ. cbn [v_size] in SZ.
  assert (E : var_reduce fop powd evaluated st t op h =
              obind (if 1 <? n then scalar op t n a else Ok a) (fun x => literal st t x 1)).
  { unfold var_reduce. rewrite G. cbn [v_ty v_desc v_size]. rewrite ty_eqb_refl. destruct op; congruence || reflexivity. }
  rewrite E.
  assert (R : exists y, (if 1 <? n then scalar op t n a else Ok a) = Ok y /\ reduction op t (repeat a (N.to_nat n)) (wrap t y)).
  { destruct (N.ltb_spec 1 n); [apply scalar_fine; auto|]. assert (n = 1) as -> by lia.
    exists a. split; [reflexivity|]. rewrite wrap_small by assumption. destruct op; try (apply reduction_same; auto; discriminate).
    - change (N.to_nat 1) with 1%nat. cbn [repeat map fold_right reduction]. rewrite Z.add_0_r. symmetry. now apply bits_num.
    - change (N.to_nat 1) with 1%nat. cbn [repeat map fold_right reduction]. rewrite Z.mul_1_r. symmetry. now apply bits_num. }
  destruct R as (y & -> & R). cbn [obind].
  destruct (literal_out st t y 1 W) as (st' & r & -> & W' & X & G'); [lia|assumption|].
  exists st', r. split; [reflexivity|]. split; [assumption|]. split; [now apply extends_kept|]. split; [eexists; exact G'|].
  intros l L. exists (wrap t y). split; [eapply value_literal; eauto; reflexivity|].
  eapply lit_reduces with (lo := 0) (hi := n); eauto; [lia|intros j; split; intros; intuition lia|]. now rewrite N.sub_0_r.
Qed.

Lemma identity_neutral : forall op t y, is_int t = true -> op <> RAnd -> op <> ROr -> y < 2 ^ width t ->
  reduction op t [reduce_identity t op; y] y.
Proof.
  intros op t y It N1 N2 Y. pose proof (num_range t y Y) as R.
  destruct op; try congruence; unfold reduction; cbn [map fold_right].
  - replace (num t (reduce_identity t RAdd)) with 0%Z by (destruct t; try discriminate; reflexivity). rewrite Z.add_0_l, Z.add_0_r. symmetry. now apply bits_num.
  - replace (num t (reduce_identity t RMul)) with 1%Z by (destruct t; try discriminate; reflexivity). rewrite Z.mul_1_l, Z.mul_1_r. symmetry. now apply bits_num.
  - split; [right; left; reflexivity|]. constructor; [|constructor; [apply Z.le_refl|constructor]].
    assert (E : num t (reduce_identity t RMin) = if is_sint t then (2 ^ (Z.of_N (width t) - 1) - 1)%Z else (zw t - 1)%Z) by (destruct t; try discriminate; vm_compute; reflexivity).
    rewrite E. destruct (is_sint t); lia.
  - split; [right; left; reflexivity|]. constructor; [|constructor; [apply Z.le_refl|constructor]].
    assert (E : num t (reduce_identity t RMax) = if is_sint t then (- 2 ^ (Z.of_N (width t) - 1))%Z else 0%Z) by (destruct t; try discriminate; vm_compute; reflexivity).
    rewrite E. destruct (is_sint t); lia.
Qed.
Lemma empty_ok : forall st op h t, wf st -> get st h = None -> is_int t = true -> op <> RAnd -> op <> ROr ->
  returns fop st (var_reduce fop powd evaluated st t op h) t 1 (fun _ x => forall y, y < 2 ^ width t -> reduction op t [x; y] y).
Proof.
  intros st op h t W G It N1 N2.
  assert (E : var_reduce fop powd evaluated st t op h = literal st t (reduce_identity t op) 1) by (unfold var_reduce; rewrite G; destruct op; congruence || reflexivity).
  rewrite E. assert (B : reduce_identity t op < 2 ^ width t) by (destruct t; try discriminate; destruct op; try congruence; reflexivity).
  destruct (literal_out st t (reduce_identity t op) 1 W) as (st' & r & -> & W' & X & G'); [lia|assumption|].
  exists st', r. split; [reflexivity|]. split; [assumption|]. split; [now apply extends_kept|]. split; [eexists; exact G'|].
  intros l L. exists (reduce_identity t op). split; [rewrite wrap_small in G' by assumption; eapply value_literal; eauto; reflexivity|].
  intros y Y. now apply identity_neutral.
Qed.

(** ** jitc_var_block_reduce *)
Lemma ceil_div_ok : forall n b, 1 <= n -> 1 < b -> n + b - 1 < 2 ^ 32 ->
  exists q r, ceil_div n b = q /\ 1 <= q /\ (q - 1) * b + r = n /\ 1 <= r <= b.
Proof.
  intros n b N B H. unfold ceil_div.
  replace (u32 (n + b + (2 ^ 32 - 1))) with (n + b - 1).
  2:{ unfold u32. replace (n + b + (2 ^ 32 - 1)) with (n + b - 1 + 1 * 2 ^ 32) by lia.
      rewrite N.mod_add by lia. rewrite N.mod_small; lia. }
  pose proof (N.div_mod (n + b - 1) b ltac:(lia)) as D. pose proof (N.mod_lt (n + b - 1) b ltac:(lia)) as M.
  set (q := (n + b - 1) / b) in *. set (m := (n + b - 1) mod b) in *.
  assert (1 <= q) by nia.
  exists q, (n - (q - 1) * b). repeat split; auto; nia.
Qed.

Lemma block_reduce_ok : forall st op h t n a bs, wf st -> get st h = Some (mkVar t n (Lit a)) -> is_int t = true ->
  1 < bs -> n + bs - 1 < 2 ^ 32 ->
  scalar_ok powd op t bs a -> scalar_ok powd op t (n - (ceil_div n bs - 1) * bs) a ->
  returns fop st (var_block_reduce fop cp uniq powd evaluated st op h bs) t (ceil_div n bs)
    (fun l x => reduces fop st h n op t (fun j => j / bs = l) x).
Proof.
  intros st op h t n a bs W G I B LIM OK1 OK2.
  assert (A : a < 2 ^ width t) by (eapply wf_range with (l := 0); eauto; eapply value_literal; eauto; reflexivity).
  pose proof (wf_get _ _ _ _ W G) as SZ. cbn [v_size] in SZ.
  destruct (ceil_div_ok n bs SZ B LIM) as (q & r & Q & Q1 & D & R).
  rewrite Q in *. replace (n - (q - 1) * bs) with r in OK2 by lia.
  unfold var_block_reduce. rewrite G. cbn [v_ty v_desc v_size].
  destruct (N.eqb_spec bs 0); [lia|]. destruct (N.eqb_spec bs 1); [lia|]. rewrite Q.
  assert (QB : (q - 1) * bs < 2 ^ 32) by lia.
  assert (S1 : sub32 q 1 = q - 1).
  { unfold sub32, u32. assert (q < 2 ^ 32) by nia. replace (q + 2 ^ 32 - 1) with (q - 1 + 1 * 2 ^ 32) by lia.
    rewrite N.mod_add by lia. rewrite N.mod_small; lia. }
  assert (S2 : sub32 n (u32 (sub32 q 1 * bs)) = r).
  { rewrite S1, u32_small by assumption. unfold sub32, u32.
    replace (n + 2 ^ 32 - (q - 1) * bs) with (r + 1 * 2 ^ 32) by lia. rewrite N.mod_add by lia. apply N.mod_small. lia. }
  rewrite S1 in S2 |- *. rewrite S2.
  destruct (scalar_fine op t bs a I A ltac:(lia) OK1) as (yh & -> & RH).
  destruct (scalar_fine op t r a I A ltac:(lia) OK2) as (yt & -> & RT). cbn [obind].
  destruct (literal_out st t yh q W Q1 I) as (st1 & r1 & -> & W1 & X1 & G1). cbn [obind fst snd].
  (** what each lane should be *)
  assert (HEAD : forall l, l < q - 1 \/ l = q - 1 /\ r = bs -> reduces fop st h n op t (fun j => j / bs = l) (wrap t yh)).
  { intros l HL. eapply lit_reduces with (lo := l * bs) (hi := l * bs + bs); eauto; [lia| |].
    - intros j. pose proof (N.div_mod j bs ltac:(lia)) as DJ. pose proof (N.mod_lt j bs ltac:(lia)) as MJ.
      set (jd := j / bs) in *. set (jm := j mod bs) in *. assert (l * bs + bs <= n) by nia. split; intros [J1 J2]; nia.
    - replace (l * bs + bs - l * bs) with bs by lia. assumption. }
  assert (TAIL : reduces fop st h n op t (fun j => j / bs = q - 1) (wrap t yt)).
  { eapply lit_reduces with (lo := (q - 1) * bs) (hi := n); eauto; [lia| |].
    - intros j. pose proof (N.div_mod j bs ltac:(lia)) as DJ. pose proof (N.mod_lt j bs ltac:(lia)) as MJ.
      set (jd := j / bs) in *. set (jm := j mod bs) in *. split; intros [J1 J2]; nia.
    - now replace (n - (q - 1) * bs) with r by lia. }
  destruct (N.eqb_spec (u32 (q * bs)) n) as [E|E].
  - assert (r = bs).
    { destruct (N.lt_ge_cases (q * bs) (2 ^ 32)).
      - rewrite u32_small in E by assumption. nia.
      - unfold u32 in E. assert (q * bs < 2 * 2 ^ 32) by nia. assert (q * bs mod 2 ^ 32 = q * bs - 2 ^ 32).
        { replace (q * bs) with (q * bs - 2 ^ 32 + 1 * 2 ^ 32) at 1 by lia. rewrite N.mod_add by lia. apply N.mod_small. lia. }
        rewrite H1 in E. nia. }
    exists st1, r1. split; [reflexivity|]. split; [assumption|]. split; [now apply extends_kept|]. split; [eexists; exact G1|].
    intros l L. exists (wrap t yh). split; [eapply value_literal; eauto; reflexivity|]. apply HEAD. lia.
  - destruct (literal_out st1 t yt q W1 Q1 I) as (st2 & r2 & -> & W2 & X2 & G2). cbn [obind fst snd].
    destruct (counter_out st2 q W2 Q1) as (st3 & r3 & d3 & -> & W3 & X3 & G3 & V3). cbn [obind fst snd].
    destruct (u32_out st3 (q - 1) W3) as (st4 & r4 & -> & W4 & X4 & G4); [nia|]. cbn [obind fst snd].
    assert (G3' : get st4 r3 = Some (mkVar U32 q d3)) by (eapply extends_get; eauto).
    destruct (compare_ok fop cp uniq Lt (var_lt cp) st4 r3 r4 U32 q 1 d3 (Lit (q - 1)) W4 G3' G4) as (st5 & r5 & E5 & W5 & K5 & H5 & V5).
    { right. now right. } { right; now left. }
    rewrite E5. cbn [obind fst snd].
    assert (KEEP : forall h' v, get st4 h' = Some v -> get st5 h' = Some v).
    { intros h' v G'. clear - E5 G'. unfold var_lt, compare, with2 in E5.
      destruct (check cp st4 [r3; r4]) as [i| | |]; try discriminate. cbn [obind] in E5.
      destruct (get st4 r3) as [v0|] eqn:Q0; [|injection E5 as <- <-; assumption].
      destruct (get st4 r4) as [v1|] eqn:Q1; [|injection E5 as <- <-; assumption].
      assert (PL : forall t x n, literal st4 t x n = Ok (st5, r5) -> get st5 h' = Some v).
      { intros t x n H. unfold literal, push in H. destruct (n =? 0); injection H as <- <-; [assumption|now apply get_app]. }
      cbn [set_ty i_simplify i_literal i_size i_ty] in E5.
      repeat match goal with H : context [if ?c then _ else _] |- _ => destruct c end;
        unfold eval_literal, eval_cmp, make_zero, make_true, mk2, node, push in E5; cbn [obind] in E5;
        try (eapply PL; exact E5); injection E5 as <- <-; now apply get_app. }
    assert (X14 : extends st1 st4) by (eapply extends_trans; [exact X2|eapply extends_trans; eauto]).
    assert (G1' : get st5 r1 = Some (mkVar t q (Lit (wrap t yh)))) by (apply KEEP; eapply extends_get; eauto).
    assert (G2' : get st5 r2 = Some (mkVar t q (Lit (wrap t yt)))) by (apply KEEP; eapply extends_get; [exact X4|]; eapply extends_get; eauto).
    destruct H5 as [d5 G5]. rewrite N.max_l in G5 by lia.
    destruct (select_ok fop cp uniq st5 r5 r1 r2 t q q q d5 _ _ W5 G5 G1' G2') as (st6 & r6 & E6 & W6 & K6 & H6 & V6); try now left.
    rewrite E6. exists st6, r6. split; [reflexivity|]. split; [assumption|].
    split.
    { eapply kept_trans; [apply extends_kept, X1|]. eapply kept_trans; [apply extends_kept, X14|]. eapply kept_trans; eauto. }
    rewrite N.max_id in H6. rewrite N.max_id in H6. split; [exact H6|].
    intros l L. assert (L32 : l < 2 ^ 32) by nia.
    exists (if l <? q - 1 then wrap t yh else wrap t yt). split.
    + apply V6. unfold g3.
      rewrite (V5 l (b2n (l <? q - 1))).
      2:{ unfold g2. rewrite (extends_value st3 st4 r3 _ l X4 G3). rewrite V3 by assumption. cbn [bind].
          erewrite value_literal by (try exact G4; reflexivity). cbn [bind]. unfold FC. f_equal. f_equal.
          unfold ordering. cbn [is_float]. rewrite !num_unsigned by reflexivity. rewrite N2Z.inj_compare. unfold truth, N.ltb.
          now destruct (l ?= q - 1). }
      cbn [bind]. erewrite (value_literal _ _ r1) by (try exact G1'; reflexivity).
      cbn [bind]. erewrite (value_literal _ _ r2) by (try exact G2'; reflexivity). cbn [bind]. unfold FS.
      now destruct (l <? q - 1).
    + destruct (N.ltb_spec l (q - 1)); [apply HEAD; now left|]. assert (l = q - 1) as -> by lia. exact TAIL.
Qed.

(** ** jitc_var_block_prefix_reduce *)

(** Builders change and return at most their operands. *)
Definition frame2 (a b : nat) (st : store) (res : out (store * nat)) : Prop :=
  forall st' r h v, res = Ok (st', r) -> h <> a -> h <> b -> get st h = Some v -> get st' h = Some v /\ r <> h.
Lemma frame_push : forall a b st v, frame2 a b st (push st v).
Proof.
  intros a b st v st' r h u E _ _ G. unfold push in E. injection E as <- <-. split; [now apply get_app|].
  pose proof (get_lt _ _ _ G). lia.
Qed.
Lemma frame_ok : forall a b st k, k = a \/ k = b \/ k = O -> frame2 a b st (Ok (st, k)).
Proof. intros a b st k K st' r h u E NA NB G. injection E as <- <-. split; [assumption|]. destruct h; [discriminate|]. intuition congruence. Qed.
Lemma frame_literal : forall a b st t x n, frame2 a b st (literal st t x n).
Proof. intros a b st t x n. unfold literal. destruct (n =? 0); [apply frame_ok; auto|apply frame_push]. Qed.
Lemma frame_stop : forall a b st, frame2 a b st Raise /\ frame2 a b st Abort /\ frame2 a b st Ub.
Proof. split; [|split]; intros ? ? ? ? E; discriminate. Qed.
Lemma frame_eval : forall a b st i r, frame2 a b st (eval_literal st i r).
Proof. intros a b st i [x| | |]; unfold eval_literal; cbn [obind]; try apply frame_stop. apply frame_literal. Qed.
Lemma frame_resize : forall a b st k n, k = a \/ k = b -> frame2 a b st (resize uniq st k n).
Proof.
  intros a b st k n K st' r h v E NA NB G. unfold resize in E. destruct (get st k) as [u|] eqn:GA; [|discriminate].
  destruct (v_size u =? n); [injection E as <- <-; split; intuition congruence|]. destruct (_ && _); [discriminate|].
  destruct (_ && _).
  - injection E as <- <-. split; [|intuition congruence]. destruct h as [|h]; [discriminate|]. destruct k as [|k]; [discriminate|]. cbn [get] in *.
    rewrite nth_error_set_nth_neq; [assumption|]. lia.
  - destruct (v_desc u); (eapply (frame_literal a b); eassumption) || (eapply (frame_push a b); eassumption).
Qed.
Lemma frame_bind : forall a b st (x : out info) f, (forall i, frame2 a b st (f i)) -> frame2 a b st (obind x f).
Proof. intros a b st [i| | |] f H; cbn [obind]; auto; apply frame_stop. Qed.
Ltac frames := repeat (match goal with
  | |- frame2 _ _ _ (if ?c then _ else _) => destruct c
  | |- frame2 _ _ _ (match ?c with Some _ => _ | None => _ end) => destruct c
  end); try (apply frame_ok; now auto); try apply frame_eval; try (apply frame_resize; now auto); try apply frame_push;
  try apply frame_literal; try apply frame_stop.
Lemma frame_add : forall st a b, frame2 a b st (var_add fop cp uniq st a b).
Proof. intros. unfold var_add, with2. apply frame_bind. intros i. frames. Qed.
Lemma frame_sub : forall st a b, frame2 a b st (var_sub fop cp uniq st a b).
Proof. intros. unfold var_sub, with2. apply frame_bind. intros i. frames. Qed.
Lemma frame_and : forall st a b, frame2 a b st (var_and cp uniq st a b).
Proof. intros. unfold var_and, with2. apply frame_bind. intros i. frames. Qed.
Lemma frame_mod : forall st a b, frame2 a b st (var_mod cp uniq st a b).
Proof.
  intros. unfold var_mod. apply frame_bind. intros i. frames.
  intros st' r h w E NA NB G. unfold literal, push in E.
  match type of E with obind (if ?c then _ else _) _ = _ => destruct c end; cbn [obind fst snd] in E.
  - eapply frame_and; try exact E; auto. now destruct h.
  - eapply frame_and; try exact E; auto; [|now apply get_app]. pose proof (get_lt _ _ _ G). lia.
Qed.
Lemma frame_cast : forall st a t, frame2 a a st (var_cast fop cp st a t).
Proof.
  intros. unfold var_cast. destruct (get st a); [|apply frame_ok; auto]. apply frame_bind. intros i. cbv zeta. frames.
Qed.

(** State between the steps: variable [c] counts, [h] is untouched. *)
Definition counts (st st' : store) (h c : nat) (v : var) (t : ty) (n : N) (g : N -> Z) : Prop :=
  wf st' /\ kept st st' /\ get st' h = Some v /\ has st' c t n /\ c <> h /\
  forall l, l < n -> value st' c l = Some (bits t (g l)).

(** One arithmetic step with a constant operand. *)
Lemma kept_value : forall st st' h v l, kept st st' -> get st h = Some v -> value st' h l = value st h l.
Proof. intros st st' h [t n d] l K G. apply (K _ _ _ _ G). Qed.
Lemma step : forall k B (swap : bool) st st1 h c v n g x,
  In (k, B) [(Add, var_add fop cp uniq); (Sub, var_sub fop cp uniq); (Mod, var_mod cp uniq)] ->
  counts st st1 h c v U32 n g -> 1 <= n -> x < 2 ^ 32 ->
  (forall l, l < n -> (0 <= g l < 2 ^ 32)%Z) ->
  forall g', (forall l, l < n -> (if swap then spec2 k U32 (Z.of_N x) (g l) else spec2 k U32 (g l) (Z.of_N x)) = Some (g' l)) ->
  exists st2 c2, obind (var_u32 st1 x) (fun b => if swap then B (fst b) (snd b) c else B (fst b) c (snd b)) = Ok (st2, c2) /\
    counts st st2 h c2 v U32 n g'.
Proof.
  intros k B swap st st1 h c v n g x K (W & KP & GH & [d GC] & NE & V) N X RG g' SP.
  destruct (u32_out st1 x W X) as (st2 & b & EB & W2 & X2 & GB). rewrite EB. cbn [obind fst snd].
  assert (NB : b <> h).
  { unfold var_u32 in EB. destruct (frame_push 0 0 st1 _ _ _ h v EB) as [_ Q]; auto; destruct h; discriminate. }
  assert (GC2 : get st2 c = Some (mkVar U32 n d)) by (eapply extends_get; eauto).
  assert (GH2 : get st2 h = Some v) by (eapply extends_get; eauto).
  assert (U : forall z, (0 <= z < 2 ^ 32)%Z -> num U32 (bits U32 z) = z) by (intros z Z; now apply num_bits).
  assert (M : forall a0 a1 n0 n1 d0 d1, get st2 a0 = Some (mkVar U32 n0 d0) -> get st2 a1 = Some (mkVar U32 n1 d1) -> compat n0 n1 ->
    made kept st2 (B st2 a0 a1) U32 (N.max n0 n1) (g2 fop st2 a0 a1 (F2 k U32 U32)) /\ frame2 a0 a1 st2 (B st2 a0 a1)).
  { intros a0 a1 n0 n1 d0 d1 Q0 Q1 C.
    assert (AL : forall z, arith_ok U32 z) by (intros z Z; discriminate).
    destruct K as [K|[K|[K|[]]]]; injection K as <- <-.
    - split; [eapply add_ok; eauto; intros CP p q _ _; apply AL|apply frame_add].
    - split; [eapply sub_ok; eauto; intros CP p q _ _; apply AL|apply frame_sub].
    - split; [eapply mod_ok; eauto|apply frame_mod]. }
  assert (VB : forall l, value st2 b l = Some x) by (intros l; eapply value_literal; eauto; reflexivity).
  assert (VC : forall l, l < n -> value st2 c l = Some (bits U32 (g l))).
  { intros l L. rewrite (extends_value st1 st2 c _ l X2 GC). auto. }
  destruct swap.
  - destruct (M b c 1 n _ _ GB GC2) as [(st3 & r & E3 & W3 & K3 & H3 & V3) F]; [right; now left|].
    exists st3, r. split; [exact E3|]. destruct (F _ _ h v E3) as [G3 R3]; auto.
    split; [exact W3|]. split; [eapply kept_trans; [exact KP|]; eapply kept_extends; eauto|]. split; [exact G3|].
    rewrite N.max_r in H3 by assumption. split; [exact H3|]. split; [exact R3|].
    intros l L. apply V3. unfold g2. rewrite VB, VC by assumption. cbn [bind]. unfold F2.
    rewrite (num_unsigned _ x), U by auto. now rewrite (SP l L).
  - destruct (M c b n 1 _ _ GC2 GB) as [(st3 & r & E3 & W3 & K3 & H3 & V3) F]; [right; now right|].
    exists st3, r. split; [exact E3|]. destruct (F _ _ h v E3) as [G3 R3]; auto.
    split; [exact W3|]. split; [eapply kept_trans; [exact KP|]; eapply kept_extends; eauto|]. split; [exact G3|].
    rewrite N.max_l in H3 by assumption. split; [exact H3|]. split; [exact R3|].
    intros l L. apply V3. unfold g2. rewrite VB, VC by assumption. cbn [bind]. unfold F2.
    rewrite (num_unsigned _ x), U by auto. now rewrite (SP l L).
Qed.

Lemma sub32_1 : forall b, 1 <= b < 2 ^ 32 -> sub32 b 1 = b - 1.
Proof.
  intros b B. unfold sub32, u32. replace (b + 2 ^ 32 - 1) with (b - 1 + 1 * 2 ^ 32) by lia.
  rewrite N.mod_add by lia. apply N.mod_small. lia.
Qed.
(** Number of lanes that contribute to lane [l]. *)
Definition amount (bs : N) (exclusive reverse : bool) (l : N) : N :=
  (if reverse then bs - 1 - l mod bs else l mod bs) + (if exclusive then 0 else 1).

Lemma prefix_counts : forall st h t n a bs exclusive reverse, wf st -> get st h = Some (mkVar t n (Lit a)) -> is_int t = true ->
  n < 2 ^ 32 -> 1 <= bs < 2 ^ 32 -> (reverse = true -> bs <= n) ->
  returns fop st (var_prefix fop cp fast uniq evaluated st RAdd h bs exclusive reverse) t n
    (fun l x => x = bits t (Z.of_N (amount bs exclusive reverse l) * num t a)).
Proof.
  intros st h t n a bs exclusive reverse W G I N B RV.
  assert (A : a < 2 ^ width t) by (eapply wf_range with (l := 0); eauto; eapply value_literal; eauto; reflexivity).
  pose proof (wf_get _ _ _ _ W G) as SZ. cbn [v_size] in SZ.
  assert (ML : forall l, l mod bs < bs) by (intros; apply N.mod_lt; lia).
  unfold var_prefix. rewrite G. cbn [v_desc v_size v_ty].
  destruct (counter_out st n W SZ) as (st1 & c1 & d1 & E1 & W1 & X1 & G1 & V1). rewrite E1. cbn [obind fst snd].
  assert (C1 : counts st st1 h c1 (mkVar t n (Lit a)) U32 n (fun l => Z.of_N l)).
  { split; [exact W1|]. split; [now apply extends_kept|]. split; [eapply extends_get; eauto|]. split; [now exists d1|]. split.
    - assert (NZ : h <> O) by (intros ->; discriminate). unfold counter in E1.
      destruct (n =? 1); [now destruct (frame_literal 0 0 _ _ _ _ _ _ h _ E1 NZ NZ G)|now destruct (frame_push 0 0 _ _ _ _ h _ E1 NZ NZ G)].
    - intros l L. rewrite V1 by lia. f_equal. rewrite bits_small; [lia|]. unfold zw. cbn [width]. lia. }
  (** modulo *)
  assert (S2 : exists st2 c2, (if negb (bs =? n) then obind (var_u32 st1 bs) (fun b => var_mod cp uniq (fst b) c1 (snd b)) else Ok (st1, c1)) = Ok (st2, c2) /\
    counts st st2 h c2 (mkVar t n (Lit a)) U32 n (fun l => Z.of_N (l mod bs))).
  { destruct (N.eqb_spec bs n) as [->|NE]; cbn [negb].
    - exists st1, c1. split; [reflexivity|]. destruct C1 as (Q1 & Q2 & Q3 & Q4 & Q5 & Q6). repeat (split; [assumption|]).
      intros l L. rewrite Q6 by assumption. now rewrite N.mod_small.
    - apply (step Mod (var_mod cp uniq) false st st1 h c1 _ n (fun l => Z.of_N l) bs); auto; [cbn; auto|lia|intros; lia|].
      intros l L. cbn [spec2]. unfold div_defined. cbn [is_sint andb negb]. rewrite andb_true_r.
      destruct (Z.eqb_spec (Z.of_N bs) 0); [lia|]. cbn [negb]. f_equal. rewrite Z.rem_mod_nonneg by lia. symmetry. apply N2Z.inj_mod. }
  destruct S2 as (st2 & c2 & -> & C2). cbn [obind fst snd].
  assert (S3 : exists st3 c3, (if reverse then obind (var_u32 st2 (sub32 bs 1)) (fun b => var_sub fop cp uniq (fst b) (snd b) c2) else Ok (st2, c2)) = Ok (st3, c3) /\
    counts st st3 h c3 (mkVar t n (Lit a)) U32 n (fun l => Z.of_N (if reverse then bs - 1 - l mod bs else l mod bs))).
  { destruct reverse; [|now exists st2, c2]. rewrite sub32_1 by assumption.
    apply (step Sub (var_sub fop cp uniq) true st st2 h c2 _ n (fun l => Z.of_N (l mod bs)) (bs - 1)); auto; [cbn; auto|lia| |].
    - intros l L. specialize (ML l). lia.
    - intros l L. specialize (ML l). cbn [spec2]. f_equal. lia. }
  destruct S3 as (st3 & c3 & -> & C3). cbn [obind fst snd].
  assert (S4 : exists st4 c4, (if exclusive then Ok (st3, c3) else obind (var_u32 st3 1) (fun b => var_add fop cp uniq (fst b) c3 (snd b))) = Ok (st4, c4) /\
    counts st st4 h c4 (mkVar t n (Lit a)) U32 n (fun l => Z.of_N (amount bs exclusive reverse l))).
  { unfold amount. destruct exclusive.
    - exists st3, c3. split; [reflexivity|]. destruct C3 as (Q1 & Q2 & Q3 & Q4 & Q5 & Q6). repeat (split; [assumption|]).
      intros l L. now rewrite N.add_0_r, Q6.
    - apply (step Add (var_add fop cp uniq) false st st3 h c3 _ n (fun l => Z.of_N (if reverse then bs - 1 - l mod bs else l mod bs)) 1); auto; [cbn; auto|lia| |].
      + intros l L. specialize (ML l). destruct reverse; lia.
      + intros l L. cbn [spec2]. f_equal. lia. }
  destruct S4 as (st4 & c4 & -> & C4). cbn [obind fst snd].
  assert (AM : forall l, amount bs exclusive reverse l < 2 ^ 32).
  { intros l. specialize (ML l). unfold amount. destruct reverse, exclusive; lia. }
  assert (S5 : exists st5 c5, (if ty_eqb t U32 then Ok (st4, c4) else var_cast fop cp st4 c4 t) = Ok (st5, c5) /\
    counts st st5 h c5 (mkVar t n (Lit a)) t n (fun l => Z.of_N (amount bs exclusive reverse l))).
  { destruct (ty_eqb t U32) eqn:T; [apply ty_eqb_eq in T; subst t; now exists st4, c4|].
    destruct C4 as (Q1 & Q2 & Q3 & [d4 Q4] & Q5 & Q6).
    destruct (cast_ok fop cp uniq st4 c4 U32 t n d4 Q1 Q4) as (st5 & c5 & E5 & W5 & X5 & H5 & V5); [reflexivity|now apply int_not_float|].
    exists st5, c5. split; [exact E5|]. split; [exact W5|]. split; [eapply kept_trans; [exact Q2|now apply extends_kept]|].
    destruct (frame_cast st4 c4 t st5 c5 h _ E5 (not_eq_sym Q5) (not_eq_sym Q5) Q3) as [F1 F2]. split; [exact F1|]. split; [exact H5|]. split; [exact F2|].
    intros l L. apply V5. unfold g1. rewrite Q6 by assumption. cbn [bind]. unfold FK. rewrite int_not_bool by assumption.
    rewrite num_bits; [reflexivity|]. cbn [is_sint]. unfold zw. cbn [width]. specialize (AM l). lia. }
  destruct S5 as (st5 & c5 & -> & C5). cbn [obind fst snd].
  destruct C5 as (W5 & K5 & GH & [d5 G5] & NE & V5).
  (** some lane has count 0 or 1 *)
  assert (SMALL : exists l, l < n /\ amount bs exclusive reverse l <= 1).
  { destruct reverse.
    - exists (bs - 1). specialize (RV eq_refl). split; [lia|]. unfold amount. rewrite N.mod_small by lia. destruct exclusive; lia.
    - exists 0. split; [lia|]. unfold amount. rewrite N.mod_small by lia. destruct exclusive; lia. }
  destruct (mul_ok fop cp fast uniq st5 c5 h t n n d5 (Lit a) W5 G5 GH) as (st6 & r & E6 & W6 & K6 & H6 & V6); [now left|assumption| |].
  { intros CP x y DX DY. injection DY as <-. subst d5. destruct SMALL as (l & L & AL).
    pose proof (V5 l L) as VL. erewrite value_literal in VL by (try exact G5; reflexivity). injection VL as ->.
    cbn [fold2_ok]. apply arith_fits; [assumption|].
    rewrite num_bits.
    - pose proof (num_range t a A) as R. assert (amount bs exclusive reverse l = 0 \/ amount bs exclusive reverse l = 1) as [-> | ->] by lia.
      + pose proof (zw_pos t). pose proof (half t). destruct (is_sint t); [|lia]. split; [|]; nia.
      + rewrite Z.mul_1_l. exact R.
    - pose proof (zw_half t). assert (2 <= 2 ^ (Z.of_N (width t) - 1))%Z by (clear - I; destruct t; try discriminate; vm_compute; discriminate).
      destruct (is_sint t); lia. }
  rewrite E6. exists st6, r. split; [reflexivity|]. split; [exact W6|]. split; [eapply kept_trans; eauto|].
  rewrite N.max_id in H6. split; [exact H6|]. intros l L. eexists. split; [|reflexivity].
  apply V6. unfold g2. rewrite V5 by assumption. cbn [bind]. erewrite value_literal by (try exact GH; reflexivity). cbn [bind].
  unfold F2. cbn [spec2 option_map]. f_equal. apply bits_congr. apply cong_mul; [|reflexivity].
  rewrite num_mod by apply bits_lt. apply bits_mod.
Qed.

Lemma prefix_ok : forall st h t n a bs exclusive reverse, wf st -> get st h = Some (mkVar t n (Lit a)) -> is_int t = true ->
  n < 2 ^ 32 -> 1 <= bs < 2 ^ 32 -> (reverse = true -> n mod bs = 0) ->
  returns fop st (var_prefix fop cp fast uniq evaluated st RAdd h bs exclusive reverse) t n
    (fun l x => reduces fop st h n RAdd t (in_prefix bs exclusive reverse l) x).
Proof.
  intros st h t n a bs exclusive reverse W G I N B RV.
  pose proof (wf_get _ _ _ _ W G) as SZ. cbn [v_size] in SZ.
  assert (LE : reverse = true -> bs <= n).
  { intros R. specialize (RV R). destruct (N.lt_ge_cases n bs); [|assumption]. rewrite N.mod_small in RV; lia. }
  destruct (prefix_counts st h t n a bs exclusive reverse W G I N B LE) as (st' & r & E & W' & K & H & V).
  exists st', r. repeat (split; [assumption|]). intros l L. destruct (V l L) as (x & V1 & ->).
  exists (bits t (Z.of_N (amount bs exclusive reverse l) * num t a)). split; [exact V1|].
  pose proof (N.div_mod l bs ltac:(lia)) as DL. pose proof (N.mod_lt l bs ltac:(lia)) as ML.
  set (q := l / bs) in *. set (m := l mod bs) in *.
  assert (CNT : forall lo hi, lo <= hi -> hi - lo = amount bs exclusive reverse l ->
    (forall j, j < n /\ in_prefix bs exclusive reverse l j <-> lo <= j < hi) ->
    reduces fop st h n RAdd t (in_prefix bs exclusive reverse l) (bits t (Z.of_N (amount bs exclusive reverse l) * num t a))).
  { intros lo hi LH CN SEL. eapply lit_reduces with (lo := lo) (hi := hi); eauto. rewrite CN. cbn [reduction].
    now rewrite map_repeat, sum_repeat, N_nat_Z. }
  unfold amount in *. fold m in CNT |- *. unfold in_prefix in *. fold q in CNT |- *.
  assert (DJ : forall j, exists jm, j = bs * (j / bs) + jm /\ jm < bs).
  { intros j. exists (j mod bs). split; [apply N.div_mod; lia|apply N.mod_lt; lia]. }
  destruct reverse.
  - specialize (RV eq_refl). assert (END : bs * q + bs <= n).
    { pose proof (N.div_mod n bs ltac:(lia)) as DN. rewrite RV in DN. generalize dependent (n / bs). intros nq DN. clear DJ CNT RV.
      assert (q < nq) by (apply (N.mul_lt_mono_pos_l bs); lia). assert (bs * (q + 1) <= bs * nq) by (apply N.mul_le_mono_l; lia). lia. }
    destruct exclusive; [apply (CNT (l + 1) (bs * q + bs))|apply (CNT l (bs * q + bs))]; try lia;
      intros j; destruct (DJ j) as (jm & D1 & D2); set (jq := j / bs) in *; clear CNT V1 V; cbv iota;
      (split; [intros (J1 & J2 & J3); rewrite J2 in D1; clear DJ; nia|intros [J1 J2]; assert (jq = q) by (clear DJ; nia); repeat split; try assumption; lia]).
  - destruct exclusive; [apply (CNT (bs * q) l)|apply (CNT (bs * q) (l + 1))]; try lia;
      intros j; destruct (DJ j) as (jm & D1 & D2); set (jq := j / bs) in *; clear CNT V1 V; cbv iota;
      (split; [intros (J1 & J2 & J3); rewrite J2 in D1; clear DJ; nia|intros [J1 J2]; assert (jq = q) by (clear DJ; nia); repeat split; try assumption; lia]).
Qed.

(** Inclusive minimum and maximum *)
Lemma prefix_minmax : forall st op h t n a bs reverse, wf st -> get st h = Some (mkVar t n (Lit a)) ->
  op = RMin \/ op = RMax -> 1 <= bs ->
  returns fop st (var_prefix fop cp fast uniq evaluated st op h bs false reverse) t n
    (fun l x => reduces fop st h n op t (in_prefix bs false reverse l) x).
Proof.
  intros st op h t n a bs reverse W G O B.
  assert (A : a < 2 ^ width t) by (eapply wf_range with (l := 0); eauto; eapply value_literal; eauto; reflexivity).
  exists st, h. split; [unfold var_prefix; rewrite G; cbn [v_desc]; now destruct O as [-> | ->]|].
  split; [assumption|]. split; [apply kept_refl|]. split; [now exists (Lit a)|].
  intros l L. exists a. split; [eapply value_literal; eauto; reflexivity|].
  intros Ls vs ND IN F.
  assert (vs = repeat a (length vs)) as ->.
  { clear - G F. induction F; [reflexivity|]. cbn. rewrite <- IHF. f_equal.
    erewrite value_literal in H by (try exact G; reflexivity). congruence. }
  apply reduction_same; auto; try (destruct O as [-> | ->]; discriminate).
  assert (In l Ls) by (apply IN; split; [assumption|]; split; [reflexivity|]; destruct reverse; lia).
  destruct F; [contradiction|]. discriminate.
Qed.
End Proofs.
