From Verif Require Import Base Cac_Model Cac_Spec.
Local Open Scope N_scope.

Lemma total_ok : forall l acc, acc + sum_sizes l < 2 ^ 64 -> total_size l acc = acc + sum_sizes l.
Proof.
  induction l as [|e l IH]; intros acc H; cbn [total_size sum_sizes] in *; [lia|].
  rewrite (u64_small (acc + d_size e)) by lia. rewrite IH by lia. lia.
Qed.
Lemma sum_perm : forall a b, Permutation a b -> sum_sizes a = sum_sizes b.
Proof. induction 1; cbn [sum_sizes]; lia. Qed.
Lemma sum_filter : forall f l, sum_sizes (filter f l) <= sum_sizes l.
Proof. induction l as [|e l IH]; cbn [filter sum_sizes]; [lia|]. destruct (f e); cbn [sum_sizes]; lia. Qed.
Section S.
Variable removes : dentry -> bool.
Notation evict := (evict removes).
(** what [evict] removes is the removable part of a prefix *)
Lemma evict_prefix : forall l target total, total < 2 ^ 64 -> sum_sizes l <= total ->
  exists a b, l = a ++ b /\ evict target total l = filter removes a /\
    (b <> [] -> total <= target + sum_sizes (filter removes a)) /\
    (forall a' e, filter removes a = a' ++ [e] -> target + sum_sizes a' < total).
Proof.
  induction l as [|e l IH]; intros target total B C.
  - exists [], []. cbn. split; [reflexivity|]. split; [reflexivity|]. split; [congruence|]. intros a' e E. destruct a'; discriminate.
  - cbn [Cac_Model.evict sum_sizes] in *. destruct (N.leb_spec total target) as [L|L].
    + exists [], (e :: l). cbn. split; [reflexivity|]. split; [reflexivity|]. split; [lia|]. intros a' x E. destruct a'; discriminate.
    + destruct (removes e) eqn:R.
      * assert (E1 : sub64 total (d_size e) = total - d_size e) by (unfold sub64, u64; clear -B C; change (2 ^ 64) with 18446744073709551616 in *; lia). rewrite E1.
        destruct (IH target (total - d_size e)) as (a & b & E & F & G & H); [lia|lia|].
        exists (e :: a), b. cbn [filter]. rewrite R. cbn [sum_sizes app]. split; [congruence|]. split; [congruence|]. split; [intros Nb; specialize (G Nb); lia|].
        intros a' x X. destruct a' as [|y a']; cbn [app] in X; injection X as -> X; cbn [sum_sizes]; [lia|]. specialize (H _ _ X). lia.
      * destruct (IH target total) as (a & b & E & F & G & H); [lia|lia|].
        exists (e :: a), b. cbn [filter]. rewrite R. split; [cbn; congruence|]. auto.
Qed.
End S.

Section W.
Variable sort : list dentry -> list dentry.
Variable removes : dentry -> bool.
Hypothesis bt : by_time sort.
Lemma candidate_spec : forall e, candidate e = true <-> cache_file e.
Proof. intros e. unfold candidate, cache_file. destruct (d_bin e), (d_regular e), (d_error e); cbn; intuition congruence. Qed.
Lemma sweep_shape : forall max l, sum_sizes l < 2 ^ 64 ->
  let cs := filter candidate l in
  (max = 0 \/ sum_sizes cs <= max -> sweep sort removes max l = []) /\
  (0 < max < sum_sizes cs -> exists a b, sort cs = a ++ b /\ sweep sort removes max l = filter removes a /\
     (b <> [] -> sum_sizes cs <= max / 5 * 4 + sum_sizes (filter removes a)) /\
     (forall a' e, filter removes a = a' ++ [e] -> max / 5 * 4 + sum_sizes a' < sum_sizes cs)).
Proof.
  intros max l B cs. pose proof (sum_filter candidate l) as F. fold cs in F. unfold sweep. fold cs. rewrite total_ok by (rewrite N.add_0_l; lia). rewrite N.add_0_l. split.
  - intros [->|L]; [reflexivity|]. replace (max <? sum_sizes cs) with false by (symmetry; apply N.ltb_ge; lia). rewrite andb_false_r. reflexivity.
  - intros [P L]. replace (max =? 0) with false by (symmetry; apply N.eqb_neq; lia). replace (max <? sum_sizes cs) with true by (symmetry; apply N.ltb_lt; lia). cbn [negb andb].
    apply evict_prefix; [lia|]. rewrite (sum_perm _ _ (proj1 (bt cs))). lia.
Qed.
Lemma sorted_app : forall (A : Type) (R : A -> A -> Prop) a b, StronglySorted R (a ++ b) -> forall x y, In x a -> In y b -> R x y.
Proof.
  induction a as [|z a IH]; intros b S x y I J; [destruct I|]. cbn in S. apply StronglySorted_inv in S. destruct S as [S F]. destruct I as [->|I].
  - rewrite Forall_forall in F. apply F. apply in_or_app. auto.
  - eapply IH; eauto.
Qed.
Lemma sweep_only : forall max l e, sum_sizes l < 2 ^ 64 -> In e (sweep sort removes max l) -> In e l /\ cache_file e /\ removes e = true.
Proof.
  intros max l e B I. destruct (sweep_shape max l B) as [Q P]. set (cs := filter candidate l) in *.
  assert (D : (max = 0 \/ sum_sizes cs <= max) \/ (0 < max < sum_sizes cs)) by lia. destruct D as [D|D]; [rewrite (Q D) in I; destruct I|].
  destruct (P D) as (a & b & E & F & _). rewrite F in I. apply filter_In in I. destruct I as [I R].
  assert (J : In e cs) by (apply (Permutation_in _ (proj1 (bt cs))); rewrite E; apply in_or_app; auto).
  unfold cs in J. apply filter_In in J. destruct J as [J C]. rewrite candidate_spec in C. auto.
Qed.
Lemma sweep_budget : forall max l, sum_sizes l < 2 ^ 64 -> (forall e, In e l -> removes e = true) -> 0 < max < sum_sizes (filter candidate l) ->
  sum_sizes (filter candidate l) <= max / 5 * 4 + sum_sizes (sweep sort removes max l).
Proof.
  intros max l B R D. destruct (sweep_shape max l B) as [_ P]. set (cs := filter candidate l) in *. destruct (P D) as (a & b & E & F & G & _). rewrite F.
  destruct b as [|z b]; [|apply G; discriminate]. rewrite app_nil_r in E.
  assert (X : filter removes a = a).
  { assert (Y : forall e, In e a -> removes e = true).
    { intros e I. apply R. rewrite <- E in I. apply (Permutation_in _ (proj1 (bt cs))) in I. unfold cs in I. apply filter_In in I. tauto. }
    clear -Y. induction a as [|x a IH]; [reflexivity|]. cbn. rewrite (Y x (or_introl eq_refl)). f_equal. apply IH. intros e I. apply Y. right. exact I. }
  rewrite X, <- E, (sum_perm _ _ (proj1 (bt cs))). lia.
Qed.
Lemma sweep_minimal : forall max l a e, sum_sizes l < 2 ^ 64 -> sweep sort removes max l = a ++ [e] ->
  max / 5 * 4 + sum_sizes a < sum_sizes (filter candidate l).
Proof.
  intros max l a e B E. destruct (sweep_shape max l B) as [Q P]. set (cs := filter candidate l) in *.
  assert (D : (max = 0 \/ sum_sizes cs <= max) \/ (0 < max < sum_sizes cs)) by lia. destruct D as [D|D]; [rewrite (Q D) in E; destruct a; discriminate|].
  destruct (P D) as (a0 & b & _ & F & _ & H). rewrite F in E. exact (H _ _ E).
Qed.
Lemma sweep_oldest : forall max l e k, sum_sizes l < 2 ^ 64 -> In e (sweep sort removes max l) -> In k l -> cache_file k -> removes k = true ->
  ~ In k (sweep sort removes max l) -> (d_time e <= d_time k)%Z.
Proof.
  intros max l e k B I J C R NI. destruct (sweep_shape max l B) as [Q P]. set (cs := filter candidate l) in *.
  assert (D : (max = 0 \/ sum_sizes cs <= max) \/ (0 < max < sum_sizes cs)) by lia. destruct D as [D|D]; [rewrite (Q D) in I; destruct I|].
  destruct (P D) as (a & b & E & F & _). rewrite F in I, NI. apply filter_In in I. destruct I as [I _].
  assert (K : In k (a ++ b)).
  { rewrite <- E. apply (Permutation_in _ (Permutation_sym (proj1 (bt cs)))). unfold cs. apply filter_In. split; [exact J|]. apply candidate_spec, C. }
  apply in_app_or in K. destruct K as [K|K]; [exfalso; apply NI; apply filter_In; auto|].
  pose proof (proj2 (bt cs)) as S'. rewrite E in S'. exact (sorted_app _ _ _ _ S' e k I K).
Qed.
End W.

(** ** Stamp *)
Local Open Scope Z_scope.
Lemma srun_app : forall a b x, srun (a ++ b) x = srun b (srun a x).
Proof. induction a as [|e a IH]; intros b x; [reflexivity|]. cbn. apply IH. Qed.
Definition good (s : stamp) : Prop :=
  apart (st_sweeps s) /\ match st_sweeps s with [] => True | (_, t) :: _ => st_file s = Some t /\ t <= st_now s end.
Definition resting (ps : list spc) : Prop := Forall (fun p => p = SInit \/ p = SDone) ps.
Lemma sstep_go : forall s ps n p, nth_error ps n = Some p -> sstep (Go n) (s, ps) = (snd (step_stamp n p s), set_nth n (fst (step_stamp n p s)) ps).
Proof. intros s ps n p E. cbn [sstep]. rewrite E. destruct (step_stamp n p s). reflexivity. Qed.
Lemma set_set : forall (A : Type) (l : list A) n x y, set_nth n x (set_nth n y l) = set_nth n x l.
Proof. induction l as [|z l IH]; intros [|n] x y; cbn; try reflexivity. f_equal. apply IH. Qed.
(** five steps of one process, written out *)
Fixpoint stepsn (k : nat) (n : nat) (p : spc) (s : stamp) : spc * stamp :=
  match k with O => (p, s) | S k => let '(p, s) := step_stamp n p s in stepsn k n p s end.
Lemma run_go : forall k n p s ps, nth_error ps n = Some p ->
  srun (repeat (Go n) k) (s, ps) = (snd (stepsn k n p s), set_nth n (fst (stepsn k n p s)) ps).
Proof.
  induction k as [|k IH]; intros n p s ps E.
  - cbn. f_equal. revert n E. induction ps as [|q ps IH]; intros [|n] E; cbn in *; try discriminate; [congruence|]. f_equal. exact (IH n E).
  - cbn [repeat srun]. rewrite (sstep_go _ _ _ _ E). cbn [stepsn]. destruct (step_stamp n p s) as [p' s']. cbn [fst snd].
    assert (L : (n < length ps)%nat) by (apply nth_error_Some; congruence).
    rewrite (IH n p' s' (set_nth n p' ps)) by (apply nth_error_set_nth_eq; exact L). rewrite set_set. reflexivity.
Qed.
Lemma run_go_none : forall k n s ps, nth_error ps n = None -> srun (repeat (Go n) k) (s, ps) = (s, ps).
Proof. induction k as [|k IH]; intros n s ps E; [reflexivity|]. cbn [repeat srun sstep]. rewrite E. apply IH, E. Qed.
Lemma apart_cons : forall n t l, apart l -> match l with [] => True | (_, u) :: _ => u + 3600 <= t end -> apart ((n, t) :: l).
Proof.
  intros n t l A B. constructor; [exact A|]. destruct l as [|[m u] l]; [constructor|]. apply StronglySorted_inv in A. destruct A as [_ A].
  constructor; [cbn; lia|]. apply Forall_forall. intros x I. rewrite Forall_forall in A. specialize (A x I). cbn in *. lia.
Qed.
Lemma one_ok : forall n s, good s -> good (snd (stepsn 5 n SInit s)) /\ fst (stepsn 5 n SInit s) = SDone.
Proof.
  intros n [f t l] [A B]. cbn [st_sweeps st_file st_now] in *. destruct f as [m|].
  - cbn [stepsn step_stamp st_file st_now st_sweeps]. unfold hour. destruct ((m <=? t) && (t - m <? 3600))%bool eqn:Y.
    + cbn. repeat split; auto.
    + cbn. split; [|reflexivity]. split; [|cbn; split; [reflexivity|lia]]. cbn. apply apart_cons; [exact A|]. destruct l as [|[k u] l]; [exact I|].
      destruct B as [B C]. injection B as ->. apply andb_false_iff in Y. destruct Y as [Y|Y]; [apply Z.leb_gt in Y|apply Z.ltb_ge in Y]; lia.
  - destruct l as [|[k u] l]; [|destruct B as [B _]; discriminate]. cbn [stepsn step_stamp st_file st_now st_sweeps]. unfold hour.
    destruct ((t - 2 * 3600 <=? t) && (t - (t - 2 * 3600) <? 3600))%bool eqn:Y.
    + apply andb_true_iff in Y. destruct Y as [_ Y]. apply Z.ltb_lt in Y. lia.
    + cbn. split; [|reflexivity]. split; [|cbn; split; [reflexivity|lia]]. apply apart_cons; [constructor|exact I].
Qed.
Lemma done_stays : forall k n s, stepsn k n SDone s = (SDone, s).
Proof. induction k as [|k IH]; intros n s; [reflexivity|]. cbn. apply IH. Qed.
Lemma blocks_ok : forall bs s ps, good s -> resting ps -> good (fst (srun (flat_map events_of bs) (s, ps))).
Proof.
  induction bs as [|b bs IH]; intros s ps G R; [exact G|]. cbn [flat_map]. rewrite srun_app. destruct b as [n|d].
  - cbn [events_of]. destruct (nth_error ps n) as [p|] eqn:E; [|rewrite run_go_none by exact E; apply IH; assumption].
    rewrite (run_go 5 n p s ps E). pose proof (proj1 (Forall_forall _ _) R p (nth_error_In _ _ E)) as D.
    assert (X : good (snd (stepsn 5 n p s)) /\ fst (stepsn 5 n p s) = SDone) by (destruct D as [->| ->]; [apply one_ok, G|rewrite done_stays; auto]).
    destruct X as [X Y]. rewrite Y. apply IH; [exact X|]. apply Forall_forall. intros q I. apply In_nth_error in I. destruct I as [m I].
    destruct (Nat.eq_dec n m) as [->|N].
    + rewrite nth_error_set_nth_eq in I by (apply nth_error_Some; congruence). injection I as <-. auto.
    + rewrite nth_error_set_nth_neq in I by exact N. exact (proj1 (Forall_forall _ _) R q (nth_error_In _ _ I)).
  - cbn [events_of srun sstep]. apply IH; [|exact R]. destruct G as [A B]. split; [exact A|]. cbn. destruct (st_sweeps s) as [|[k u] l]; [exact I|]. destruct B. split; [assumption|lia].
Qed.
Lemma hourly : forall bs file now n, apart (st_sweeps (fst (srun (flat_map events_of bs) (idle (mkStamp file now []) n)))).
Proof.
  intros bs file now n. apply blocks_ok; [split; [constructor|exact I]|]. unfold idle, resting. apply Forall_forall. intros p J. apply repeat_spec in J. auto.
Qed.
