(** Facts on counting sort. *)
From Verif Require Import Base Par_Model Par_Proofs Red_Plan Mkperm_Spec.
Local Open Scope N_scope.

Section Sort.
Variable f : N -> N.

Definition cnt (b : N) (l : list N) : N := N.of_nat (length (filter (fun i => f i =? b) l)).
Definition clt (b : N) (l : list N) : N := N.of_nat (length (filter (fun i => f i <? b) l)).

Lemma cnt_app b l1 l2 : cnt b (l1 ++ l2) = cnt b l1 + cnt b l2.
Proof. unfold cnt. rewrite filter_app, app_length. lia. Qed.
Lemma cnt_one b i : cnt b [i] = if f i =? b then 1 else 0.
Proof. unfold cnt. cbn. destruct (f i =? b); reflexivity. Qed.

Lemma clt_le b l : clt b l <= N.of_nat (length l).
Proof. unfold clt. induction l; cbn; try lia. destruct (f a <? b); cbn; lia. Qed.

Lemma clt_succ b l : clt (b + 1) l = clt b l + cnt b l.
Proof.
  unfold clt, cnt. induction l as [|a l IH]; cbn; auto.
  destruct (N.ltb_spec (f a) (b + 1)), (N.ltb_spec (f a) b), (N.eqb_spec (f a) b);
    cbn; lia.
Qed.

Lemma clt_mono b c l : b <= c -> clt b l <= clt c l.
Proof.
  intros H. unfold clt. induction l as [|a l IH]; cbn; try lia.
  destruct (N.ltb_spec (f a) b), (N.ltb_spec (f a) c); cbn; lia.
Qed.

Lemma filter_lt_0 l : filter (fun i => f i <? 0) l = [].
Proof. induction l as [|a l IH]; cbn; auto. destruct (N.ltb_spec (f a) 0); [lia|auto]. Qed.
Lemma clt_0 l : clt 0 l = 0.
Proof. unfold clt. now rewrite filter_lt_0. Qed.

Definition sorted (B : N) (l : list N) : list N :=
  flat_map (fun b => filter (fun i => f i =? b) l) (range_lt 0 B).

Lemma sorted_succ b l : sorted (b + 1) l = sorted b l ++ filter (fun i => f i =? b) l.
Proof.
  unfold sorted. rewrite range_lt_snoc by lia. rewrite flat_map_app. cbn.
  now rewrite app_nil_r.
Qed.

Lemma sorted_perm b l : Permutation (sorted b l) (filter (fun i => f i <? b) l).
Proof.
  induction b as [|b IH] using N.peano_ind.
  - rewrite filter_lt_0. reflexivity.
  - rewrite <- N.add_1_r, sorted_succ, IH. clear IH.
    induction l as [|a l IH]; cbn; auto.
    destruct (N.ltb_spec (f a) (b + 1)), (N.ltb_spec (f a) b), (N.eqb_spec (f a) b);
      cbn; auto; try lia.
    rewrite <- Permutation_middle. auto.
Qed.

Lemma sorted_length b l : N.of_nat (length (sorted b l)) = clt b l.
Proof. rewrite (Permutation_length (sorted_perm b l)). reflexivity. Qed.

Lemma sorted_prefix b c l : b <= c -> exists ys, sorted c l = sorted b l ++ ys.
Proof.
  intros H. replace c with (b + (c - b)) by lia.
  induction (c - b) as [|d IH] using N.peano_ind.
  - exists []. now rewrite N.add_0_r, app_nil_r.
  - destruct IH as [ys E]. replace (b + N.succ d) with (b + d + 1) by lia.
    rewrite sorted_succ, E, <- app_assoc. eauto.
Qed.

(** Position of an element. *)
Lemma sorted_nth B l1 i l2 : f i < B ->
  nth_error (sorted B (l1 ++ i :: l2)) (N.to_nat (clt (f i) (l1 ++ i :: l2) + cnt (f i) l1)) = Some i.
Proof.
  intros Hi. set (l := l1 ++ i :: l2).
  destruct (sorted_prefix (f i + 1) B l ltac:(lia)) as [ys ->].
  rewrite sorted_succ, <- app_assoc.
  rewrite nth_error_app2 by (pose proof (sorted_length (f i) l); lia).
  replace (N.to_nat (clt (f i) l + cnt (f i) l1) - length (sorted (f i) l))%nat
    with (N.to_nat (cnt (f i) l1)) by (pose proof (sorted_length (f i) l); lia).
  unfold l. rewrite filter_app, <- app_assoc. unfold cnt.
  rewrite nth_error_app2 by lia. rewrite Nat2N.id, Nat.sub_diag.
  cbn [filter]. rewrite N.eqb_refl. reflexivity.
Qed.

Lemma sorted_all B l : Forall (fun i => f i < B) l -> Permutation (sorted B l) l.
Proof.
  intros H. rewrite sorted_perm. replace (filter _ l) with l; auto.
  induction H as [|a l Ha _ IH]; cbn; auto. replace (f a <? B) with true by lia. congruence.
Qed.
End Sort.

Lemma range_split s i e : s <= i -> i < e ->
  range_lt s e = range_lt s i ++ i :: range_lt (i + 1) e.
Proof.
  intros H1 H2. remember (N.to_nat (i - s)) as n eqn:En. revert s H1 En.
  induction n as [|n IH]; intros s H1 En.
  - assert (s = i) by lia. subst s. rewrite (range_lt_nil i i) by lia.
    rewrite range_lt_cons by lia. reflexivity.
  - rewrite (range_lt_cons s e), (range_lt_cons s i) by lia. cbn. f_equal. apply IH; lia.
Qed.

Lemma range_app s i e : s <= i -> i <= e -> range_lt s e = range_lt s i ++ range_lt i e.
Proof.
  intros H1 H2. destruct (N.eq_dec i e) as [->|Ne].
  - now rewrite (range_lt_nil e e), app_nil_r by lia.
  - rewrite (range_split s i e) by lia. rewrite (range_lt_cons i e) by lia. reflexivity.
Qed.

Lemma range_NoDup s e : NoDup (range_lt s e).
Proof.
  unfold range_lt. apply FinFun.Injective_map_NoDup; [|apply seq_NoDup].
  intros a b H. lia.
Qed.

(** ** Positions in one group *)
Section Group.
Variable f : N -> N.
Variables (B s e : N).
Hypothesis Hf : forall i, s <= i < e -> f i < B.
Notation l := (range_lt s e).

(** Offset of element [i] in the sorted group. *)
Definition gpos (i : N) : N := clt f (f i) l + cnt f (f i) (range_lt s i).

Lemma gpos_nth i : s <= i < e -> nth_error (sorted f B l) (N.to_nat (gpos i)) = Some i.
Proof.
  intros H. unfold gpos. rewrite (range_split s i e) by lia. apply sorted_nth; auto.
Qed.

Lemma group_perm : Permutation (sorted f B l) l.
Proof. apply sorted_all. apply Forall_forall. intros i Hi. apply range_lt_In in Hi. auto. Qed.

Lemma gpos_bound i : s <= i < e -> gpos i < e - s.
Proof.
  intros H. pose proof (gpos_nth i H) as E.
  assert (N.to_nat (gpos i) < length (sorted f B l))%nat by (apply nth_error_Some; congruence).
  rewrite (Permutation_length group_perm), range_lt_length in H0. lia.
Qed.

Lemma gpos_inj i j : s <= i < e -> s <= j < e -> gpos i = gpos j -> i = j.
Proof.
  intros Hi Hj E. pose proof (gpos_nth i Hi). pose proof (gpos_nth j Hj). congruence.
Qed.

Lemma gpos_surj k i : nth_error (sorted f B l) (N.to_nat k) = Some i -> s <= i < e /\ gpos i = k.
Proof.
  intros E. assert (Hi : s <= i < e).
  { apply range_lt_In. apply (Permutation_in _ group_perm). eapply nth_error_In; eauto. }
  split; auto.
  assert (ND : NoDup (sorted f B l)).
  { eapply Permutation_NoDup; [symmetry; apply group_perm|apply range_NoDup]. }
  rewrite NoDup_nth_error in ND.
  assert (N.to_nat (gpos i) = N.to_nat k); [|lia].
  apply ND.
  - apply nth_error_Some. rewrite gpos_nth; auto. discriminate.
  - rewrite gpos_nth; auto.
Qed.
End Group.
