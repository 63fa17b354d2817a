From Verif Require Import Base Sched_Model Sched_Spec Trav_Model Trav_Spec Trav_Proofs Trav_Total Trav_Group.
Local Open Scope nat_scope.

Section G.
Variable g : list node.
Hypothesis CL : closed g.
Variable rank : nat -> nat.
Hypothesis RANK : forall p q, operand g p q -> rank (fst q) < rank (fst p).
Hypothesis POS : forall i, 0 < rank i.

Lemma roots_raised : forall gen size fuel roots l s s', traverse_roots g fuel gen size l s = Raised s' -> incl l roots ->
  exists p, needed g roots p /\ stuck g (fst p).
Proof.
  intros gen size fuel roots l. induction l as [|i l IH]; intros s s' H IN; cbn [traverse_roots] in H; [discriminate|].
  destruct (traverse g fuel gen size i 0 s) as [s1|s1| |] eqn:T; try discriminate.
  - apply (IH _ _ H). intros x I. apply IN. right. exact I.
  - destruct (traverse_raised _ _ _ _ _ _ _ _ T) as (p & B & S). exists p. split; [|exact S]. apply (below_needed g roots (i, 0)); [exact B|]. apply need_root, IN. left. reflexivity.
Qed.
Lemma traverse_later_list : forall gen size fuel roots i d s s1, traverse g fuel gen size i d s = Done s1 -> needed g roots (i, d) ->
  exists ls, later s1 = later s ++ ls /\ forall q, In q ls -> needed g roots q.
Proof.
  intros gen size fuel roots i d s s1 T N.
  destruct (traverse_ok g gen size 0 rank RANK POS fuel _ _ _ _ T) as (W & ls & new & X & _ & B & F & _).
  exists ls. split; [exact (ext_later _ _ _ _ _ _ _ _ X)|]. intros q I. destruct (F q I) as (p & IP & FB).
  eapply need_fb; [|exact FB]. exact (below_needed g roots _ _ (B p IP) N).
Qed.
Lemma later_raised : forall gen size fuel roots iter k s s', traverse_later g iter fuel gen size k s = Raised s' ->
  (forall q, In q (later s) -> needed g roots q) -> exists p, needed g roots p /\ stuck g (fst p).
Proof.
  intros gen size fuel roots iter. induction iter as [|iter IH]; intros k s s' H LN; cbn [traverse_later] in H; destruct (nth_error (later s) k) as [[i d]|] eqn:E; try discriminate.
  assert (N : needed g roots (i, d)) by (apply LN; exact (nth_error_In _ _ E)).
  destruct (traverse g fuel gen size i d s) as [s1|s1| |] eqn:T; try discriminate.
  - apply (IH _ _ _ H). destruct (traverse_later_list _ _ _ _ _ _ _ _ T N) as (ls & -> & L). intros q I. apply in_app_iff in I. destruct I; auto.
  - destruct (traverse_raised _ _ _ _ _ _ _ _ T) as (p & B & S). exists p. split; [exact (below_needed g roots _ _ B N)|exact S].
Qed.

(** one group: always a schedule or an error with a reason *)
Definition kernel (gen size : N) (roots : list nat) (s : st) : res :=
  match traverse_roots g (S (2 * length g)) gen size roots s with
  | Done s1 => traverse_later g (S (2 * length g)) (S (2 * length g)) gen size 0 s1
  | x => x
  end.
Definition kernel_spec (size : N) (roots : list nat) (l : list sv) : Prop :=
  Forall (entry_ok g size) l /\ NoDup (vars l) /\ (levelled g roots -> exact_schedule g roots l) /\ operands_first g l /\
  (forall i, In i (vars l) -> needed g roots (i, 0) /\ forall v, has g i v -> live v).
Lemma needed_range : forall roots p, Forall (fun i => i < length g) roots -> needed g roots p -> fst p < length g.
Proof.
  intros roots p F N. induction N as [i I|p q N IH O|p q N IH O].
  - rewrite Forall_forall in F. exact (F i I).
  - apply (proj1 CL p q). auto.
  - apply (proj1 CL p q). auto.
Qed.
Lemma kernel_total : forall gen size roots s, (forall q, ~ seen gen (scratch s) q) -> later s = [] -> Forall (fun i => i < length g) roots ->
  match kernel gen size roots s with
  | Done s' => exists new, sched s' = sched s ++ new /\ later s' = [] /\ kernel_spec size roots new
  | Raised s' => exists p, needed g roots p /\ stuck g (fst p)
  | _ => False
  end.
Proof.
  intros gen size roots s FR LA RNG. destruct (kernel gen size roots s) as [s'|s'| |] eqn:K.
  - exact (kernel_ok g gen size rank RANK POS (length (sched s)) roots _ _ s s' eq_refl FR LA K).
  - unfold kernel in K. destruct (traverse_roots _ _ _ _ _ _) as [s1|s1| |] eqn:T; try discriminate.
    + destruct (roots_ok g gen size rank RANK POS (length (sched s)) roots _ _ _ _ T) as (W & ls & new & X & _ & _ & F & _).
      * intros r. split; [lia|]. intros j SJ. exfalso. exact (FR _ SJ).
      * apply incl_refl.
      * apply (later_raised _ _ _ _ _ _ _ _ K). rewrite (ext_later _ _ _ _ _ _ _ _ X), LA. exact F.
    + exact (roots_raised _ _ _ _ _ _ _ T (incl_refl _)).
  - exfalso. unfold kernel in K.
    pose proof (roots_fine g gen size CL (S (2 * length g)) roots s RNG ltac:(pose proof (unseen_max (length g) gen (scratch s)); lia)) as RF.
    destruct (traverse_roots _ _ _ _ _ _) as [s1| | |] eqn:T; try discriminate; [|exact RF]. unfold fine, pot in RF. rewrite LA in RF. cbn [length] in RF.
    destruct (roots_ok g gen size rank RANK POS (length (sched s)) roots _ _ _ _ T) as (W & ls & new & X & _ & _ & F & _); [intros r; split; [lia|]; intros j SJ; exfalso; exact (FR _ SJ)|apply incl_refl|].
    pose proof (unseen_max (length g) gen (scratch s)).
    pose proof (later_fine g gen size CL (S (2 * length g)) (S (2 * length g)) 0 s1 (2 * length g) ltac:(unfold pot; lia) ltac:(lia) ltac:(lia)) as LF.
    rewrite K in LF. apply LF.
    + rewrite (ext_later _ _ _ _ _ _ _ _ X), LA. apply Forall_forall. intros q I. apply (needed_range roots); [exact RNG|exact (F q I)].
    + intros i d s0 s2 TR. destruct (traverse_ok g gen size 0 rank RANK POS _ _ _ _ _ TR) as (W2 & l2 & n2 & X2 & _ & _ & F2 & _). exists l2. split; [exact (ext_later _ _ _ _ _ _ _ _ X2)|].
      apply Forall_forall. intros q I. destruct (F2 q I) as (p & _ & FB). apply (proj1 CL p q). auto.
  - exfalso. unfold kernel in K.
    pose proof (roots_fine g gen size CL (S (2 * length g)) roots s RNG ltac:(pose proof (unseen_max (length g) gen (scratch s)); lia)) as RF.
    destruct (traverse_roots _ _ _ _ _ _) as [s1| | |] eqn:T; try discriminate; [|exact RF]. unfold fine, pot in RF. rewrite LA in RF. cbn [length] in RF.
    destruct (roots_ok g gen size rank RANK POS (length (sched s)) roots _ _ _ _ T) as (W & ls & new & X & _ & _ & F & _); [intros r; split; [lia|]; intros j SJ; exfalso; exact (FR _ SJ)|apply incl_refl|].
    pose proof (unseen_max (length g) gen (scratch s)).
    pose proof (later_fine g gen size CL (S (2 * length g)) (S (2 * length g)) 0 s1 (2 * length g) ltac:(unfold pot; lia) ltac:(lia) ltac:(lia)) as LF.
    rewrite K in LF. apply LF.
    + rewrite (ext_later _ _ _ _ _ _ _ _ X), LA. apply Forall_forall. intros q I. apply (needed_range roots); [exact RNG|exact (F q I)].
    + intros i d s0 s2 TR. destruct (traverse_ok g gen size 0 rank RANK POS _ _ _ _ _ TR) as (W2 & l2 & n2 & X2 & _ & _ & F2 & _). exists l2. split; [exact (ext_later _ _ _ _ _ _ _ _ X2)|].
      apply Forall_forall. intros q I. destruct (F2 q I) as (p & _ & FB). apply (proj1 CL p q). auto.
Qed.

(** ** Generations *)
Definition GMAX : N := 0x7fffffff.
Lemma new_gen_ok : forall gen s, (gen <= GMAX)%N -> stale gen (scratch s) ->
  let '(gen', s') := new_gen gen s in
  (gen' <= GMAX)%N /\ stale gen' (scratch s') /\ (forall q, ~ seen gen' (scratch s') q) /\ sched s' = sched s /\ later s' = later s.
Proof.
  intros gen s G ST. unfold new_gen. fold GMAX. destruct (N.eqb_spec gen GMAX) as [->|NE]; cbn [scratch sched later].
  - split; [unfold GMAX; lia|]. split; [intros i; lia|]. split; [|auto]. intros q [H|[_ H]]; lia.
  - split; [lia|]. split; [intros i; specialize (ST i); lia|]. split; [|auto]. intros [i d] H. specialize (ST i). unfold seen in H. cbn [fst snd] in H. destruct H as [H|[_ H]]; lia.
Qed.
Lemma kernel_stale : forall gen size roots s, stale gen (scratch s) ->
  match kernel gen size roots s with Done s' | Raised s' => stale gen (scratch s') | _ => True end.
Proof.
  intros gen size roots s ST. pose proof (roots_kept g gen size (S (2 * length g)) roots s) as A. unfold kernel.
  assert (KS : forall s', kept gen s (Done s') -> stale gen (scratch s')).
  { intros s' K i. specialize (K i). specialize (ST i). destruct K as [->|[->| ->]]; lia. }
  destruct (traverse_roots _ _ _ _ _ _) as [s1|s1| |]; auto.
  pose proof (kept_trans _ _ _ _ A (later_kept g gen size (S (2 * length g)) (S (2 * length g)) 0 s1)) as B. destruct (traverse_later _ _ _ _ _ _ _); auto.
Qed.

(** ** All groups *)
Definition desc (l : list task) : Prop := StronglySorted (fun a b => (t_size b <= t_size a)%N) l.
Lemma span_ok : forall size l a b, span size l = (a, b) -> desc l -> (forall t, In t l -> (t_size t <= size)%N) ->
  l = a ++ b /\ a = filter (fun t => (t_size t =? size)%N) l /\ (forall t, In t b -> (t_size t < size)%N).
Proof.
  intros size l. induction l as [|t l IH]; intros a b H D LE; cbn [span filter] in *.
  - injection H as <- <-. repeat split; auto. intros t [].
  - inversion D; subst. destruct (N.eqb_spec (t_size t) size) as [E|NE].
    + destruct (span size l) as [a' b'] eqn:S. injection H as <- <-. destruct (IH a' b' eq_refl ltac:(assumption) ltac:(intros; apply LE; right; assumption)) as (E1 & E2 & E3).
      split; [cbn; congruence|]. split; [congruence|exact E3].
    + injection H as <- <-. assert (L : forall x, In x (t :: l) -> (t_size x < size)%N).
      { intros x [<-|I]; [specialize (LE t (or_introl eq_refl)); lia|]. rewrite Forall_forall in H3. specialize (H3 x I). specialize (LE t (or_introl eq_refl)). lia. }
      split; [reflexivity|]. split; [|exact L]. symmetry. clear - L.
      assert (forall m, (forall x, In x m -> (t_size x < size)%N) -> filter (fun t => (t_size t =? size)%N) m = []) as F.
      { intros m. induction m as [|y m IHm]; intros Lm; [reflexivity|]. cbn. destruct (N.eqb_spec (t_size y) size); [specialize (Lm y (or_introl eq_refl)); lia|]. apply IHm. intros; apply Lm; right; assumption. }
      apply F. intros x I. apply L. right. exact I.
Qed.
Lemma filter_nil : forall {A} (f : A -> bool) l, (forall x, In x l -> f x = false) -> filter f l = [].
Proof. intros A f l. induction l as [|x l IH]; intros H; cbn; [reflexivity|]. rewrite (H x (or_introl eq_refl)). apply IH. intros y I. apply H. right. exact I. Qed.
Lemma filter_id : forall {A} (f : A -> bool) l, (forall x, In x l -> f x = true) -> filter f l = l.
Proof. intros A f l. induction l as [|x l IH]; intros H; cbn; [reflexivity|]. rewrite (H x (or_introl eq_refl)). f_equal. apply IH. intros y I. apply H. right. exact I. Qed.

Lemma groups_ok : forall iter l gen s, length l <= iter -> desc l -> (gen <= GMAX)%N -> stale gen (scratch s) -> later s = [] ->
  Forall (fun t => t_index t < length g) l ->
  match groups g (S (2 * length g)) iter gen l s with
  | (Done s', gen') => (gen' <= GMAX)%N /\ stale gen' (scratch s') /\ exists new, sched s' = sched s ++ new /\
      (forall x, In x new -> exists t, In t l /\ t_size t = sv_size x) /\
      forall size, kernel_spec size (roots_of size l) (of_size size new)
  | (Raised s', gen') => (gen' <= GMAX)%N /\ stale gen' (scratch s') /\ exists size p, needed g (roots_of size l) p /\ stuck g (fst p)
  | _ => False
  end.
Proof.
  induction iter as [|iter IH]; intros l gen s LEN D G ST LA RNG.
  { destruct l; [|cbn in LEN; lia]. cbn [groups]. split; [exact G|]. split; [exact ST|]. exists []. split; [symmetry; apply app_nil_r|]. split; [intros x []|]. intros size.
    split; [constructor|]. split; [constructor|]. split; [intros _; split; [constructor|]; intros i; split; [intros []|]; intros [N _]; exfalso; clear - N; remember (i, 0) as p; clear Heqp; induction N; auto|]. split; [intros i k []|intros i []]. }
  destruct l as [|t l].
  { cbn [groups]. split; [exact G|]. split; [exact ST|]. exists []. split; [symmetry; apply app_nil_r|]. split; [intros x []|]. intros size.
    split; [constructor|]. split; [constructor|]. split; [intros _; split; [constructor|]; intros i; split; [intros []|]; intros [N _]; exfalso; clear - N; remember (i, 0) as p; clear Heqp; induction N; auto|]. split; [intros i k []|intros i []]. }
  cbn [groups]. pose proof (new_gen_ok gen s G ST) as NG. destruct (new_gen gen s) as [gen1 s1]. destruct NG as (G1 & ST1 & FR1 & SC1 & LA1).
  destruct (span (t_size t) (t :: l)) as [a b] eqn:SP.
  assert (HD : forall u, In u (t :: l) -> (t_size u <= t_size t)%N).
  { intros u [<-|I]; [lia|]. inversion D; subst. rewrite Forall_forall in H2. exact (H2 u I). }
  destruct (span_ok _ _ _ _ SP D HD) as (EL & EA & LB).
  assert (TA : In t a) by (rewrite EA; apply filter_In; split; [left; reflexivity|apply N.eqb_refl]).
  assert (ER : map t_index a = roots_of (t_size t) (t :: l)) by (rewrite EA; reflexivity).
  set (size := t_size t) in *.
  assert (RA : Forall (fun i => i < length g) (map t_index a)).
  { apply Forall_forall. intros i I. apply in_map_iff in I. destruct I as (u & <- & I). rewrite Forall_forall in RNG. apply RNG. rewrite EL. apply in_app_iff. left. exact I. }
  pose proof (kernel_total gen1 size (map t_index a) s1 FR1 ltac:(congruence) RA) as KT. pose proof (kernel_stale gen1 size (map t_index a) s1 ST1) as KS.
  assert (EQ : match traverse_roots g (S (2 * length g)) gen1 size (map t_index a) s1 with
               | Done s2 => match traverse_later g (S (2 * length g)) (S (2 * length g)) gen1 size 0 s2 with
                            | Done s3 => groups g (S (2 * length g)) iter gen1 b s3 | x => (x, gen1) end
               | x => (x, gen1) end
             = match kernel gen1 size (map t_index a) s1 with Done s3 => groups g (S (2 * length g)) iter gen1 b s3 | x => (x, gen1) end).
  { unfold kernel. destruct (traverse_roots _ _ _ _ _ _); reflexivity. }
  rewrite EQ. clear EQ. destruct (kernel gen1 size (map t_index a) s1) as [s3|s3| |]; try contradiction.
  2:{ split; [exact G1|]. split; [exact KS|]. destruct KT as (p & N & S). exists size, p. rewrite <- ER. auto. }
  destruct KT as (n1 & SC3 & LA3 & KSP).
  assert (LB' : length b <= iter).
  { assert (E : length (t :: l) = length a + length b) by (rewrite EL, app_length; reflexivity). cbn [length] in *. destruct a; [destruct TA|]. cbn [length] in E. lia. }
  assert (DB : desc b).
  { clear - D EL. unfold desc in *. rewrite EL in D. clear EL. induction a as [|x a IHa]; [exact D|]. inversion D; subst. auto. }
  assert (RB : Forall (fun t => t_index t < length g) b) by (rewrite EL in RNG; apply Forall_app in RNG; apply RNG).
  pose proof (IH b gen1 s3 LB' DB G1 KS LA3 RB) as R. destruct (groups g (S (2 * length g)) iter gen1 b s3) as [[s4|s4| |] gen4]; try exact R.
  - destruct R as (G4 & ST4 & n2 & SC4 & SZ & SP4). split; [exact G4|]. split; [exact ST4|]. exists (n1 ++ n2).
    split; [rewrite SC4, SC3, SC1, app_assoc; reflexivity|].
    assert (S1 : forall x, In x n1 -> sv_size x = size) by (intros x I; destruct KSP as (F & _); rewrite Forall_forall in F; exact (proj1 (F x I))).
    split.
    { intros x I. apply in_app_iff in I. destruct I as [I|I]; [exists t; split; [left; reflexivity|symmetry; exact (S1 x I)]|].
      destruct (SZ x I) as (u & IU & E). exists u. split; [rewrite EL; apply in_app_iff; right; exact IU|exact E]. }
    intros z. unfold of_size. rewrite filter_app. destruct (N.eq_dec z size) as [->|NE].
    + rewrite (filter_id _ n1) by (intros x I; rewrite (S1 x I); apply N.eqb_refl).
      rewrite (filter_nil _ n2) by (intros x I; destruct (SZ x I) as (u & IU & E); specialize (LB u IU); apply N.eqb_neq; lia).
      rewrite app_nil_r, <- ER. exact KSP.
    + rewrite (filter_nil _ n1) by (intros x I; rewrite (S1 x I); apply N.eqb_neq; congruence). cbn [app].
      replace (roots_of z (t :: l)) with (roots_of z b); [exact (SP4 z)|]. unfold roots_of. rewrite EL, filter_app. rewrite (filter_nil _ a); [reflexivity|].
      intros u I. rewrite EA in I. apply filter_In in I. destruct I as [_ E]. apply N.eqb_eq in E. rewrite E. apply N.eqb_neq. congruence.
  - destruct R as (G4 & ST4 & z & p & N & S). split; [exact G4|]. split; [exact ST4|]. exists z, p. split; [|exact S].
    assert (INC : incl (roots_of z b) (roots_of z (t :: l))).
    { unfold roots_of. rewrite EL, filter_app, map_app. intros x I. apply in_app_iff. right. exact I. }
    clear - N INC. induction N as [i I|p q N IHn O|p q N IHn O]; [apply need_root, INC, I|eapply need_op; eauto|eapply need_fb; eauto].
Qed.
End G.

Lemma less_task_weak : strict_weak less_task.
Proof.
  unfold less_task. split; [|split].
  - intros x. rewrite N.eqb_refl. destruct (t_effect x); reflexivity.
  - intros x y z. destruct (N.eqb_spec (t_size x) (t_size y)), (N.eqb_spec (t_size y) (t_size z)), (N.eqb_spec (t_size x) (t_size z)); rewrite ?N.ltb_lt; intros; try lia.
    destruct (t_effect x), (t_effect y), (t_effect z); auto.
  - intros x y z. destruct (N.eqb_spec (t_size x) (t_size y)), (N.eqb_spec (t_size y) (t_size x)), (N.eqb_spec (t_size y) (t_size z)), (N.eqb_spec (t_size z) (t_size y)), (N.eqb_spec (t_size x) (t_size z)), (N.eqb_spec (t_size z) (t_size x));
      rewrite ?N.ltb_ge; intros; try lia; destruct (t_effect x), (t_effect y), (t_effect z); auto.
Qed.

Lemma needed_perm : forall g l l' p, (forall x, In x l -> In x l') -> needed g l p -> needed g l' p.
Proof. intros g l l' p I N. induction N as [i J|p q N IHn O|p q N IHn O]; [apply need_root, I, J|eapply need_op; eauto|eapply need_fb; eauto]. Qed.

Lemma collect_ok : forall g stable_sort gen scratch0 tasks,
  sorts stable_sort -> closed g -> acyclic g -> (gen <= 0x7fffffff)%N -> stale gen scratch0 -> Forall (fun t => t_index t < length g) tasks ->
  match collect g stable_sort gen scratch0 tasks with
  | (Done s, gen') => (gen' <= 0x7fffffff)%N /\ stale gen' (scratch s) /\
      (forall x, In x (sched s) -> (exists t, In t tasks /\ t_size t = sv_size x) /\ exists v, has g (N.to_nat (sv_index x)) v /\ sv_scope x = n_scope v) /\
      forall size, NoDup (vars (of_size size (sched s))) /\
        (forall i, In i (vars (of_size size (sched s))) -> needed g (roots_of size tasks) (i, 0) /\ forall v, has g i v -> live v) /\
        (levelled g (roots_of size tasks) -> exact_schedule g (roots_of size tasks) (of_size size (sched s))) /\
        operands_first g (of_size size (sched s))
  | (Raised s, gen') => (gen' <= 0x7fffffff)%N /\ stale gen' (scratch s) /\ exists size p, needed g (roots_of size tasks) p /\ stuck g (fst p)
  | _ => False
  end.
Proof.
  intros g stable_sort gen scratch0 tasks SO CL [rank RANK] G ST RNG. unfold collect.
  destruct (SO less_task tasks less_task_weak) as [PE SS]. set (l := stable_sort less_task tasks) in *.
  assert (D : desc l).
  { clear - SS. unfold desc. induction SS as [|x m SS IH F]; constructor; [exact IH|]. apply Forall_forall. intros y I. rewrite Forall_forall in F. specialize (F y I).
    unfold less_task in F. destruct (N.eqb_spec (t_size y) (t_size x)); [lia|]. apply N.ltb_ge in F. lia. }
  pose proof (groups_ok g CL (fun i => S (rank i)) (fun p q O => proj1 (Nat.succ_lt_mono _ _) (RANK p q O)) (fun i => Nat.lt_0_succ _) (length tasks) l gen (mkSt scratch0 [] [])
    ltac:(rewrite (Permutation_length PE); lia) D G ST eq_refl ltac:(rewrite <- PE; exact RNG)) as R.
  assert (IR : forall z x, In x (roots_of z l) <-> In x (roots_of z tasks)).
  { intros z x. unfold roots_of. rewrite !in_map_iff. split; intros (t & E & I); exists t; (split; [exact E|]); apply filter_In in I; apply filter_In; destruct I as [I J]; (split; [|exact J]);
      [exact (Permutation_in _ (Permutation_sym PE) I)|exact (Permutation_in _ PE I)]. }
  destruct (groups _ _ _ _ _ _) as [[s'|s'| |] gen']; try exact R.
  - destruct R as (G' & ST' & new & SC & SZ & KS). split; [exact G'|]. split; [exact ST'|]. cbn in SC. rewrite SC. split.
    + intros x I. split.
      * destruct (SZ x I) as (t & IT & E). exists t. split; [exact (Permutation_in _ (Permutation_sym PE) IT)|exact E].
      * destruct (KS (sv_size x)) as (F & _). rewrite Forall_forall in F. destruct (F x) as (_ & H); [|exact H]. unfold of_size. apply filter_In. split; [exact I|apply N.eqb_refl].
    + intros z. destruct (KS z) as (_ & ND & EX & OF & NE). split; [exact ND|]. split; [|split; [|exact OF]].
      * intros i I. split; [|exact (proj2 (NE i I))]. apply (needed_perm g (roots_of z l)); [apply IR|]. exact (proj1 (NE i I)).
      * intros LEV. destruct EX as [_ EX].
        -- intros i d e A B. apply LEV; apply (needed_perm g (roots_of z l)); try apply IR; assumption.
        -- split; [exact ND|]. intros i. rewrite EX. split; intros [A B]; (split; [|exact B]); revert A; apply needed_perm; apply IR.
  - destruct R as (G' & ST' & z & p & N & S). split; [exact G'|]. split; [exact ST'|]. exists z, p. split; [|exact S]. revert N. apply needed_perm. apply IR.
Qed.
