From Verif Require Import Base Lay_Model Lay_Spec Lay_Proofs.
Local Open Scope N_scope.

Definition inb (b : N) (ss : list slot) : list slot := filter (fun s => snd s =? b) ss.
Fixpoint fill (o b : N) (rs : list slot) : list placed :=
  match rs with [] => [] | r :: t => (fst r, o, b) :: fill (o + bsize b) b t end.
Lemma fill_app : forall b x y o, fill o b (x ++ y) = fill o b x ++ fill (o + N.of_nat (length x) * bsize b) b y.
Proof.
  induction x; intros y o; cbn [fill app length].
  - replace (o + N.of_nat 0 * bsize b) with o by lia. reflexivity.
  - rewrite IHx, Nat2N.inj_succ, N.mul_succ_l, (N.add_comm (_ * _) (bsize b)), N.add_assoc. reflexivity.
Qed.
Lemma fill_length : forall b x o, length (fill o b x) = length x.
Proof. induction x; intros; cbn; auto. Qed.
Lemma set_nth_app : forall A i (x : A) a b c, (length a <= i < length a + length b)%nat ->
  set_nth i x (a ++ b ++ c) = a ++ set_nth (i - length a) x b ++ c.
Proof.
  induction i; intros x a b c H; destruct a as [|h a]; cbn [app length set_nth] in *.
  - destruct b; cbn in *; [lia|reflexivity].
  - lia.
  - destruct b as [|h b]; cbn in *; [lia|]. f_equal. specialize (IHi x [] b c). cbn in IHi. rewrite Nat.sub_0_r in IHi. apply IHi. lia.
  - f_equal. rewrite IHi by lia. reflexivity.
Qed.
Lemma flat_length : forall (f : N -> list placed) ss l, (forall b, In b l -> N.of_nat (length (f b)) = count b ss) ->
  N.of_nat (length (flat_map f l)) = total ss l.
Proof.
  induction l; intros H; [reflexivity|]. cbn [flat_map total fold_right]. rewrite app_length, Nat2N.inj_add. f_equal; [apply H; left; auto|].
  apply IHl. intros; apply H; right; auto.
Qed.
Lemma slots_at_split : forall ss o1 b o2 ps lo, slots_at ss (o1 ++ b :: o2) ps lo -> count b ss <> 0 -> at_ b ps = lo + total ss o1.
Proof.
  induction o1; intros b o2 ps lo H C; cbn [app slots_at] in H; destruct H as [H1 H2].
  - cbn. rewrite H1; auto. lia.
  - rewrite (IHo1 _ _ _ _ H2 C). cbn [total fold_right]. fold (total ss o1). lia.
Qed.
Lemma flat_map_ext_in : forall A B (f g : A -> list B) l, (forall a, In a l -> f a = g a) -> flat_map f l = flat_map g l.
Proof. induction l; intros H; cbn; [reflexivity|]. rewrite H by (left; auto). f_equal. apply IHl. intros; apply H; right; auto. Qed.

Section Scatter.
Variables (ss : list slot) (order : list N) (ps po : list N).
Hypothesis ND : NoDup order.
Hypothesis COVER : Forall (fun s => In (snd s) order /\ snd s < 8) ss.
Hypothesis PS : slots_at ss order ps 0.
Hypothesis LEN1 : length ps = 8%nat.
Hypothesis LEN2 : length po = 8%nat.
Hypothesis SMALL : N.of_nat (length ss) < 2 ^ 32.
Hypothesis OFF : forall b, count b ss <> 0 -> at_ b po + count b ss * bsize b < 2 ^ 32.
Hypothesis TOT : total ss order = N.of_nat (length ss).

Definition inv (P Q : list slot) (st : list N * list N * list placed) : Prop :=
  let '(bs, bo, out) := st in
  length bs = 8%nat /\ length bo = 8%nat /\
  (forall b, count b ss <> 0 -> at_ b bs = at_ b ps + count b P /\ at_ b bo = at_ b po + count b P * bsize b) /\
  exists junk, (forall b, In b order -> N.of_nat (length (junk b)) = count b Q) /\
    out = flat_map (fun b => fill (at_ b po) b (inb b P) ++ junk b) order.

Lemma inb_length : forall b P, N.of_nat (length (inb b P)) = count b P.
Proof. reflexivity. Qed.

Lemma scatter_step : forall P s Q st, ss = P ++ s :: Q -> inv P (s :: Q) st -> inv (P ++ [s]) Q (scatter1 st s).
Proof.
  intros P s Q [[bs bo] out] E (L1 & L2 & AT & junk & JL & ->). destruct s as [r b].
  assert (IN : In b order /\ b < 8) by (rewrite Forall_forall in COVER; apply (COVER (r, b)); rewrite E; apply in_app_iff; right; left; reflexivity).
  destruct IN as [IN B8].
  assert (CB : count b ss = count b P + (1 + count b Q)) by (rewrite E, count_app, count_cons; cbn [snd]; rewrite N.eqb_refl; lia).
  assert (CN : count b ss <> 0) by lia. destruct (AT b CN) as [A1 A2]. pose proof (OFF b CN) as OB.
  destruct (in_split _ _ IN) as (o1 & o2 & EO).
  assert (NI : ~ In b o1 /\ ~ In b o2).
  { rewrite EO in ND. pose proof (NoDup_remove_2 _ _ _ ND) as X. rewrite in_app_iff in X. tauto. }
  pose proof PS as PSO. rewrite EO in PSO. pose proof (slots_at_split _ _ _ _ _ _ PSO CN) as SA.
  pose proof (bsize_pos b) as SB.
  assert (TO : total ss o1 + count b ss <= N.of_nat (length ss)).
  { rewrite <- TOT, EO. clear. induction o1; cbn [app total fold_right]; [|unfold total in IHo1 |- *]; lia. }
  assert (MUL : (count b P + 1) * bsize b <= count b ss * bsize b) by (apply N.mul_le_mono_r; lia).
  unfold scatter1, inv. unfold put at 1 2. rewrite !set_nth_length. split; [auto|]. split; [auto|]. split.
  - intros c C. destruct (AT c C) as [B1 B2]. rewrite count_app, count_cons. cbn [snd]. destruct (N.eqb_spec b c) as [->|NE].
    + rewrite !at_put_eq by lia. rewrite B1, B2. change (count c []) with 0.
      rewrite !u32_small; lia.
    + rewrite !at_put_neq by auto. change (count c []) with 0. rewrite B1, B2. lia.
  - exists (fun x => if x =? b then tl (junk x) else junk x). split.
    + intros x X. rewrite (JL x X) || idtac. destruct (N.eqb_spec x b) as [->|NE].
      * specialize (JL b X). rewrite count_cons in JL. cbn [snd] in JL. rewrite N.eqb_refl in JL.
        destruct (junk b); cbn [tl length] in *; lia.
      * rewrite (JL x X), count_cons. cbn [snd]. destruct (N.eqb_spec b x); [congruence|lia].
    + specialize (JL b IN) as JB. rewrite count_cons in JB. cbn [snd] in JB. rewrite N.eqb_refl in JB.
      destruct (junk b) as [|j jt] eqn:EJ; [cbn in JB; lia|].
      rewrite EO, !flat_map_app. cbn [flat_map]. rewrite N.eqb_refl, EJ. cbn [tl].
      assert (LO1 : N.of_nat (length (flat_map (fun x => fill (at_ x po) x (inb x P) ++ junk x) o1)) = total ss o1).
      { apply flat_length. intros x X. assert (In x order) by (rewrite EO; apply in_app_iff; auto).
        rewrite app_length, fill_length, Nat2N.inj_add, JL by auto. rewrite E, count_app. reflexivity. }
      assert (I : set_nth (N.to_nat (at_ b bs)) (r, at_ b bo, b)
        (flat_map (fun x => fill (at_ x po) x (inb x P) ++ junk x) o1 ++ (fill (at_ b po) b (inb b P) ++ j :: jt) ++
         flat_map (fun x => fill (at_ x po) x (inb x P) ++ junk x) o2) =
        flat_map (fun x => fill (at_ x po) x (inb x P) ++ junk x) o1 ++ (fill (at_ b po) b (inb b P) ++ (r, at_ b bo, b) :: jt) ++
         flat_map (fun x => fill (at_ x po) x (inb x P) ++ junk x) o2).
      { rewrite set_nth_app.
        2:{ rewrite app_length, fill_length. cbn [length]. pose proof (inb_length b P). lia. }
        f_equal. f_equal.
        change (j :: jt) with ([j] ++ jt). rewrite set_nth_app by (rewrite fill_length; cbn [length]; pose proof (inb_length b P); lia).
        f_equal. replace (_ - _ - _)%nat with O; [reflexivity|]. rewrite fill_length. pose proof (inb_length b P). lia. }
      rewrite I. f_equal; [|f_equal].
      * apply flat_map_ext_in. intros x X. assert (x <> b) by (intros ->; tauto).
        destruct (N.eqb_spec x b); [congruence|]. f_equal. unfold inb. rewrite filter_app. cbn [filter snd].
        destruct (N.eqb_spec b x); [congruence|]. rewrite app_nil_r. reflexivity.
      * unfold inb. rewrite filter_app. cbn [filter snd]. rewrite N.eqb_refl. rewrite fill_app. cbn [fill fst].
        rewrite A2, <- app_assoc. reflexivity.
      * apply flat_map_ext_in. intros x X. assert (x <> b) by (intros ->; tauto).
        destruct (N.eqb_spec x b); [congruence|]. f_equal. unfold inb. rewrite filter_app. cbn [filter snd].
        destruct (N.eqb_spec b x); [congruence|]. rewrite app_nil_r. reflexivity.
Qed.
Lemma scatter_all : forall Q P st, ss = P ++ Q -> inv P Q st -> inv ss [] (fold_left scatter1 Q st).
Proof.
  induction Q as [|s Q IH]; intros P st E I; cbn [fold_left].
  - rewrite app_nil_r in E. subst P. exact I.
  - apply (IH (P ++ [s])); [rewrite <- app_assoc; exact E|]. apply scatter_step; auto.
Qed.
Lemma repeat_flat : forall A (d : A) (f : N -> nat) l, flat_map (fun b => repeat d (f b)) l = repeat d (fold_right (fun b n => f b + n)%nat O l).
Proof. induction l; cbn; [reflexivity|]. rewrite IHl, repeat_app. reflexivity. Qed.
Lemma scatter_ok : exists bs bo,
  fold_left scatter1 ss (ps, po, repeat (0, 0, 0) (length ss)) = (bs, bo, flat_map (fun b => fill (at_ b po) b (inb b ss)) order).
Proof.
  pose proof (scatter_all ss [] (ps, po, repeat (0, 0, 0) (length ss)) eq_refl) as H.
  destruct (fold_left _ _ _) as [[bs bo] out]. destruct H as (_ & _ & _ & junk & JL & ->).
  - split; [auto|]. split; [auto|]. split; [intros; change (count b []) with 0; lia|].
    exists (fun b => repeat (0, 0, 0) (N.to_nat (count b ss))). split; [intros; rewrite repeat_length; lia|].
    transitivity (flat_map (fun b => repeat (0, 0, 0) (N.to_nat (count b ss))) order); [|apply flat_map_ext_in; reflexivity].
    rewrite (repeat_flat _ (0, 0, 0) (fun b => N.to_nat (count b ss))). f_equal.
    assert (X : N.of_nat (fold_right (fun b n => N.to_nat (count b ss) + n)%nat O order) = total ss order).
    { clear. induction order; cbn [fold_right total]; [reflexivity|]. unfold total in IHl. lia. }
    lia.
  - exists bs, bo. f_equal. apply flat_map_ext_in. intros b B. specialize (JL b B). change (count b []) with 0 in JL.
    destruct (junk b); [apply app_nil_r|cbn in JL; lia].
Qed.
End Scatter.

(** ** Spec *)
Lemma packed_weaken : forall out lo lo' hi, lo' <= lo -> packed lo hi out -> packed lo' hi out.
Proof. destruct out as [|[[r o] b] out]; cbn; intros; [lia|]. intuition lia. Qed.
Lemma packed_fill : forall b rs o hi rest, o mod bsize b = 0 ->
  packed (o + N.of_nat (length rs) * bsize b) hi rest -> packed o hi (fill o b rs ++ rest).
Proof.
  induction rs; intros o hi rest M H; cbn [fill app length] in *.
  - replace (o + N.of_nat 0 * bsize b) with o in H by lia. exact H.
  - cbn [packed]. split; [lia|]. split; [exact M|]. apply IHrs.
    + pose proof (bsize_pos b). rewrite <- (N.mul_1_l (bsize b)) at 1. rewrite N.mod_add by lia. exact M.
    + eapply packed_weaken; [|exact H]. rewrite Nat2N.inj_succ, N.mul_succ_l. lia.
Qed.
Lemma packed_flat : forall ss order po lo hi,
  Forall (fun ba => In (snd ba) p2 /\ bsize (fst ba) <= snd ba) order ->
  placed_at ss order po lo hi -> packed lo hi (flat_map (fun b => fill (at_ b po) b (inb b ss)) (map fst order)).
Proof.
  induction order as [|[b al] order IH]; intros po lo hi F H; cbn [placed_at map fst flat_map] in *; [cbn; lia|].
  inversion_clear F as [|? ? [AL LE] F']. cbn [fst snd] in *. destruct (N.eqb_spec (count b ss) 0) as [Z|Z].
  - assert (inb b ss = []) as ->. { rewrite <- inb_length in Z. destruct (inb b ss); [reflexivity|cbn in Z; lia]. }
    cbn [fill app]. auto.
  - destruct H as (A & M & R). eapply packed_weaken; [exact A|]. apply packed_fill.
    + pose proof (bsize_pos b). pose proof (p2_pos _ AL). eapply mod_trans; [lia| |apply p2_le_div; [apply bsize_p2|exact AL|exact LE]|exact M]. lia.
    + rewrite inb_length. apply IH; auto.
Qed.
Lemma forget_fill : forall b rs o, Forall (fun s => snd s = b) rs -> map forget (fill o b rs) = rs.
Proof.
  induction rs as [|[r b'] rs IH]; intros o H; inversion_clear H; cbn [fill map forget fst snd] in *; [reflexivity|].
  unfold forget at 1. cbn [fst snd] in *. subst b'. f_equal. auto.
Qed.
Lemma inb_forall : forall b ss, Forall (fun s => snd s = b) (inb b ss).
Proof. intros. apply Forall_forall. intros s S. apply filter_In in S. destruct S as [_ S]. now apply N.eqb_eq. Qed.
Lemma forget_flat : forall ss po order, map forget (flat_map (fun b => fill (at_ b po) b (inb b ss)) order) = flat_map (fun b => inb b ss) order.
Proof. induction order; cbn [flat_map map]; [reflexivity|]. rewrite map_app, IHorder, forget_fill by apply inb_forall. reflexivity. Qed.
Lemma inb_perm : forall order ss, NoDup order -> Forall (fun s : slot => In (snd s) order) ss ->
  Permutation (flat_map (fun b => inb b ss) order) ss.
Proof.
  intros order ss ND F. induction F as [|s ss IN F IH].
  - induction order; [constructor|]. cbn. apply IHorder. now inversion ND.
  - destruct (in_split _ _ IN) as (o1 & o2 & ->). pose proof (NoDup_remove_2 _ _ _ ND) as NI. rewrite in_app_iff in NI.
    rewrite !flat_map_app in *. cbn [flat_map] in *.
    assert (X : forall o, ~ In (snd s) o -> flat_map (fun x => inb x (s :: ss)) o = flat_map (fun x => inb x ss) o).
    { intros o NO. apply flat_map_ext_in. intros x X. unfold inb. cbn [filter]. destruct (N.eqb_spec (snd s) x); [subst; tauto|reflexivity]. }
    rewrite !X by tauto. unfold inb at 2. cbn [filter]. rewrite N.eqb_refl. fold (inb (snd s) ss). cbn [app].
    rewrite <- Permutation_middle. constructor. exact IH.
Qed.
