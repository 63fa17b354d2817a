(** Race-free tasks compute the same memory as their units in isolation. *)
From Verif Require Import Base Par_Model.

Lemma loc_eqb_spec a b : reflect (a = b) (loc_eqb a b).
Proof.
  destruct a as [a1 a2], b as [b1 b2]. unfold loc_eqb. cbn.
  destruct (N.eqb_spec a1 b1), (N.eqb_spec a2 b2); cbn; constructor; congruence.
Qed.

Lemma loc_eqb_refl a : loc_eqb a a = true.
Proof. destruct (loc_eqb_spec a a); congruence. Qed.

Section P.
Context {V : Type}.
Implicit Types (m : mem V) (p : prog V).

Lemma mset_eq m l v : mset m l v l = Some v.
Proof. unfold mset. now rewrite loc_eqb_refl. Qed.
Lemma mset_neq m l v x : x <> l -> mset m l v x = m x.
Proof. unfold mset. destruct (loc_eqb_spec x l); congruence. Qed.

(** Isolated execution with footprint: accesses inside [A], writes inside [W]. *)
Inductive runs (A W : loc -> Prop) : prog V -> mem V -> mem V -> Prop :=
| runs_ret m : runs A W Ret m m
| runs_rd l k v m mf :
    A l -> m l = Some v -> runs A W (k v) m mf -> runs A W (Rd l k) m mf
| runs_wr l v k m mf :
    A l -> W l -> m l <> None -> runs A W k (mset m l v) mf ->
    runs A W (Wr l v k) m mf.

Lemma runs_weaken (A W A' W' : loc -> Prop) p m mf :
  (forall l, A l -> A' l) -> (forall l, W l -> W' l) ->
  runs A W p m mf -> runs A' W' p m mf.
Proof. intros HA HW H. induction H; econstructor; eauto. Qed.

Lemma runs_frame A W p m mf l : runs A W p m mf -> ~ W l -> mf l = m l.
Proof.
  intros H Hl. induction H; auto.
  rewrite IHruns. apply mset_neq. congruence.
Qed.

Lemma runs_dom A W p m mf l : runs A W p m mf -> (mf l = None <-> m l = None).
Proof.
  intros H. induction H; auto; try tauto.
  rewrite IHruns. unfold mset. destruct (loc_eqb_spec l l0); subst; [|tauto].
  split; [discriminate|tauto].
Qed.

(** The combined effect of the isolated runs. *)
Definition merged (n : nat) (W : nat -> loc -> Prop) (mf : nat -> mem V)
    (m m' : mem V) : Prop :=
  (forall i l, i < n -> W i l -> m' l = mf i l) /\
  (forall l, (forall i, i < n -> ~ W i l) -> m' l = m l).

Section Task.
Variables (A W : nat -> loc -> Prop) (mf : nat -> mem V) (m0 : mem V) (n : nat).
Hypothesis disj : forall i j l, i < n -> j < n -> i <> j -> W i l -> ~ A j l.

Definition tinv (c : list (prog V) * mem V) : Prop :=
  length (fst c) = n /\
  (forall l, snd c l = None <-> m0 l = None) /\
  (forall l, (forall i, i < n -> ~ W i l) -> snd c l = m0 l) /\
  exists mi : nat -> mem V,
    forall i p, nth_error (fst c) i = Some p ->
      runs (A i) (fun l => W i l /\ A i l) p (mi i) (mf i) /\
      (forall l, A i l -> mi i l = snd c l) /\
      (forall l, W i l -> mi i l = snd c l) /\
      (forall l, ~ A i l -> ~ W i l -> mi i l = m0 l).

(** Writes of unit [i] restricted to [A i]; locations in [W i] but never accessed
    are also covered, so [W i] must be disjoint from other units' writes. *)
Hypothesis disjW : forall i j l, i < n -> j < n -> i <> j -> W i l -> ~ W j l.

Lemma tinv_init ps :
  length ps = n ->
  (forall i p, nth_error ps i = Some p ->
     runs (A i) (fun l => W i l /\ A i l) p m0 (mf i)) ->
  tinv (ps, m0).
Proof.
  intros Hl H. repeat split; cbn; auto; try tauto.
  exists (fun _ => m0). intros i p Hp. repeat split; auto.
Qed.

Lemma tinv_safe c : tinv c -> safe c.
Proof.
  intros (Hl & Hd & Ho & mi & H). split; [|split].
  - intros HF. apply In_nth_error in HF as [i Hi].
    destruct (H i _ Hi) as (R & _). inversion R.
  - intros i p w l Hp Ha. destruct (H i p Hp) as (R & HA & HW & _).
    destruct R; cbn in Ha; inversion Ha; subst.
    + rewrite <- HA by auto. congruence.
    + rewrite <- HA by auto. auto.
  - intros i j p q w w' l Hij Hp Hq Hap Haq.
    assert (i < n) by (rewrite <- Hl; apply nth_error_Some; congruence).
    assert (j < n) by (rewrite <- Hl; apply nth_error_Some; congruence).
    destruct (H i p Hp) as (R1 & _). destruct (H j q Hq) as (R2 & _).
    assert (A1 : A i l) by (destruct R1; cbn in Hap; inversion Hap; subst; auto).
    assert (A2 : A j l) by (destruct R2; cbn in Haq; inversion Haq; subst; auto).
    split.
    + destruct R1; cbn in Hap; inversion Hap; subst; auto.
      destruct H3 as [Hw _]. exfalso. eapply (disj i j); eauto.
    + destruct R2; cbn in Haq; inversion Haq; subst; auto.
      destruct H3 as [Hw _]. exfalso. eapply (disj j i); eauto.
Qed.

Lemma tinv_step c c' : tinv c -> step c c' -> tinv c'.
Proof.
  intros (Hl & Hd & Ho & mi & H) St. inversion St; subst; cbn in *.
  - (* read *)
    split; [cbn; now rewrite set_nth_length|]. cbn. repeat split; try apply Hd; auto.
    exists mi. intros i0 p Hp. destruct (Nat.eq_dec i i0) as [<-|Ne].
    + rewrite nth_error_set_nth_eq in Hp by (apply nth_error_Some; congruence).
      injection Hp as <-. destruct (H i _ H0) as (R & HA & HW & HO).
      inversion R as [|? ? v0 ? ? Al El Rk|]; subst.
      assert (v0 = v) by (rewrite HA in El by auto; congruence).
      subst v0. repeat split; auto.
    + rewrite nth_error_set_nth_neq in Hp by auto. auto.
  - (* write *)
    assert (Hin : i < n) by (rewrite <- Hl; apply nth_error_Some; congruence).
    destruct (H i _ H0) as (R & HA & HW & HO).
    inversion R as [| |? ? ? ? ? _ [Wl Al] Hn Rk]; subst.
    split; [cbn; now rewrite set_nth_length|]. cbn. split; [|split].
    + intros x. unfold mset. destruct (loc_eqb_spec x l); subst; auto.
      rewrite <- Hd. split; [discriminate|tauto].
    + intros x Hx. rewrite mset_neq; auto. intros ->. eapply Hx; eauto.
    + exists (fun j => if Nat.eqb j i then mset (mi i) l v else mi j).
      intros j p Hp. destruct (Nat.eqb_spec j i) as [->|Ne].
      * rewrite nth_error_set_nth_eq in Hp by (apply nth_error_Some; congruence).
        injection Hp as <-. split; [auto|]. repeat split.
        -- intros x Hx. unfold mset. destruct (loc_eqb x l); auto.
        -- intros x Hx. unfold mset. destruct (loc_eqb x l); auto.
        -- intros x Hx1 Hx2. rewrite mset_neq; auto. congruence.
      * rewrite nth_error_set_nth_neq in Hp by auto.
        assert (Hjn : j < n) by (rewrite <- Hl; apply nth_error_Some; congruence).
        destruct (H j _ Hp) as (Rj & HAj & HWj & HOj). split; [auto|].
        repeat split; auto.
        -- intros x Hx. rewrite mset_neq; auto. intros ->.
           eapply (disj i j); eauto.
        -- intros x Hx. rewrite mset_neq; auto. intros ->.
           eapply (disjW i j); eauto.
Qed.

Lemma tinv_steps c c' : tinv c -> steps c c' -> tinv c'.
Proof. intros H St. induction St; auto. apply IHSt. eapply tinv_step; eauto. Qed.

Lemma tinv_done ps m' :
  tinv (ps, m') -> all_done ps -> merged n W mf m0 m'.
Proof.
  intros (Hl & Hd & Ho & mi & H) D. cbn in *. split; [|auto].
  intros i l Hi Wl. destruct (nth_error ps i) as [p|] eqn:E.
  - assert (p = Ret) by (apply D; eapply nth_error_In; eauto). subst p.
    destruct (H i _ E) as (R & _ & HW & _). inversion R; subst. symmetry; auto.
  - apply nth_error_None in E. lia.
Qed.

End Task.

(** Termination: the number of remaining accesses of the isolated runs. *)
Inductive cost (A W : loc -> Prop) : prog V -> mem V -> nat -> Prop :=
| cost_ret m : cost A W Ret m 0
| cost_rd l k v m c :
    A l -> m l = Some v -> cost A W (k v) m c -> cost A W (Rd l k) m (S c)
| cost_wr l v k m c :
    A l -> W l -> m l <> None -> cost A W k (mset m l v) c ->
    cost A W (Wr l v k) m (S c).

Lemma runs_cost A W p m mf : runs A W p m mf -> exists c, cost A W p m c.
Proof.
  intros H. induction H as [|? ? ? ? ? ? ? ? [c Hc]|? ? ? ? ? ? ? ? ? [c Hc]].
  - exists 0; constructor.
  - exists (S c); econstructor; eauto.
  - exists (S c); econstructor; eauto.
Qed.

Lemma cost_ext A W p m c : cost A W p m c ->
  forall m', (forall l, A l -> m' l = m l) -> cost A W p m' c.
Proof.
  induction 1; intros m' Hm; econstructor; eauto.
  - rewrite Hm; auto.
  - rewrite Hm; auto.
  - apply IHcost. intros x Hx. unfold mset. destruct (loc_eqb x l); auto.
Qed.

Definition costs (A W : nat -> loc -> Prop) (ps : list (prog V)) (m : mem V)
    (cs : list nat) : Prop :=
  length cs = length ps /\
  forall i p, nth_error ps i = Some p ->
    exists c, nth_error cs i = Some c /\ cost (A i) (fun l => W i l /\ A i l) p m c.

Lemma costs_exist A W ps m :
  (forall i p, nth_error ps i = Some p ->
     exists c, cost (A i) (fun l => W i l /\ A i l) p m c) ->
  exists cs, costs A W ps m cs.
Proof.
  revert A W. induction ps as [|p ps IH]; intros A W H.
  - exists []. split; auto. intros [|i] q Hq; discriminate.
  - destruct (H 0 p eq_refl) as [c Hc].
    destruct (IH (fun i => A (S i)) (fun i => W (S i))) as [cs [Hl Hcs]].
    { intros i q Hq. apply (H (S i) q Hq). }
    exists (c :: cs). split; [cbn [length]; lia|]. intros [|i] q Hq; cbn in *.
    + injection Hq as <-. eauto.
    + apply Hcs; auto.
Qed.

Lemma set_nth_sum i x y (cs : list nat) :
  nth_error cs i = Some x ->
  list_sum (set_nth i y cs) + x = list_sum cs + y.
Proof.
  unfold list_sum. revert i.
  induction cs as [|c cs IH]; intros [|i] H; cbn in *; try discriminate.
  - injection H as ->. lia.
  - specialize (IH _ H). lia.
Qed.

Lemma costs_step (A W : nat -> loc -> Prop) ps m cs ps' m' :
  (forall i j l, i < length ps -> j < length ps -> i <> j -> W i l -> ~ A j l) ->
  costs A W ps m cs -> step (ps, m) (ps', m') ->
  length ps' = length ps /\
  exists cs', costs A W ps' m' cs' /\ list_sum cs' < list_sum cs.
Proof.
  intros disj [Hl H] St. inversion St as [? ? i l k v Hi El|? ? i l v k Hi El]; subst.
  - split; [now rewrite set_nth_length|].
    destruct (H i _ Hi) as (c & Hc & C).
    inversion C as [|? ? v0 ? c0 Al El' Ck|]; subst.
    assert (v0 = v) by congruence; subst v0.
    exists (set_nth i c0 cs). split.
    + split; [now rewrite !set_nth_length|]. intros j q Hq.
      destruct (Nat.eq_dec i j) as [<-|Ne].
      * rewrite nth_error_set_nth_eq in Hq by (apply nth_error_Some; congruence).
        injection Hq as <-. exists c0. split; auto.
        apply nth_error_set_nth_eq. rewrite Hl. apply nth_error_Some; congruence.
      * rewrite nth_error_set_nth_neq in Hq by auto.
        destruct (H j _ Hq) as (c' & Hc' & C'). exists c'.
        rewrite nth_error_set_nth_neq by auto. auto.
    + pose proof (set_nth_sum i _ c0 cs Hc). lia.
  - split; [now rewrite set_nth_length|].
    destruct (H i _ Hi) as (c & Hc & C).
    inversion C as [| |? ? ? ? c0 Al [Wl _] El' Ck]; subst.
    exists (set_nth i c0 cs). split.
    + split; [now rewrite !set_nth_length|]. intros j q Hq.
      destruct (Nat.eq_dec i j) as [<-|Ne].
      * rewrite nth_error_set_nth_eq in Hq by (apply nth_error_Some; congruence).
        injection Hq as <-. exists c0. split; auto.
        apply nth_error_set_nth_eq. rewrite Hl. apply nth_error_Some; congruence.
      * rewrite nth_error_set_nth_neq in Hq by auto.
        destruct (H j _ Hq) as (c' & Hc' & C'). exists c'.
        rewrite nth_error_set_nth_neq by auto. split; auto.
        eapply cost_ext; eauto. intros x Hx. apply mset_neq. intros ->.
        eapply (disj i j); eauto; try (apply nth_error_Some; congruence).
    + pose proof (set_nth_sum i _ c0 cs Hc). lia.
Qed.

Lemma costs_acc (A W : nat -> loc -> Prop) k : forall ps m cs,
  (forall i j l, i < length ps -> j < length ps -> i <> j -> W i l -> ~ A j l) ->
  costs A W ps m cs -> list_sum cs < k ->
  Acc (fun c' c => step c c') (ps, m).
Proof.
  induction k; intros ps m cs disj H Hk; [lia|].
  constructor. intros [ps' m'] St.
  destruct (costs_step A W ps m cs ps' m' disj H St) as (E & cs' & Hc & Hlt).
  eapply IHk; eauto.
  - rewrite E. auto.
  - lia.
Qed.

(** Main rule: a task whose units have disjoint footprints. *)
Lemma par_rule (A W : nat -> loc -> Prop) (mf : nat -> mem V) ps cs Q m :
  (forall i j l, i < length ps -> j < length ps -> i <> j -> W i l -> ~ A j l) ->
  (forall i l, i < length ps -> W i l -> A i l) ->
  (forall i p, nth_error ps i = Some p -> runs (A i) (W i) p m (mf i)) ->
  (forall m', merged (length ps) W mf m m' -> ensures cs Q m') ->
  ensures (Par ps :: cs) Q m.
Proof.
  intros disj sub R K. cbn.
  assert (R' : forall i p, nth_error ps i = Some p ->
     runs (A i) (fun l => W i l /\ A i l) p m (mf i)).
  { intros i p Hp. eapply runs_weaken; [| |apply R; auto]; auto.
    assert (i < length ps) by (apply nth_error_Some; congruence). auto. }
  assert (disjW : forall i j l, i < length ps -> j < length ps -> i <> j -> W i l -> ~ W j l).
  { intros i j l Hi Hj Hij Hw Hw'. apply (disj i j l Hi Hj Hij Hw), (sub j l Hj Hw'). }
  split.
  - destruct (costs_exist A W ps m) as [c Hc].
    { intros i p Hp. eapply runs_cost. apply R'; auto. }
    eapply (costs_acc A W (S (list_sum c))); eauto.
  - intros ps' m' St.
    assert (I : tinv A W mf m (length ps) (ps', m')).
    { eapply tinv_steps; eauto. apply tinv_init; auto. }
    split; [exact (tinv_safe A W mf m (length ps) disj disjW _ I)|].
    intros D. apply K. eapply tinv_done; [exact disj|exact disjW|exact I|exact D].
Qed.

Lemma ensures_weaken cs : forall (Q Q' : mem V -> Prop) m,
  (forall m, Q m -> Q' m) -> ensures cs Q m -> ensures cs Q' m.
Proof.
  induction cs as [|c cs IH]; intros Q Q' m HQ H; cbn in *; auto.
  destruct c.
  - intros m' Hm. eauto.
  - eauto.
  - destruct H as [HA H]. split; auto. intros ps' m' St.
    destruct (H _ _ St) as [Hs Hd]. split; auto. intros D. eauto.
Qed.

Lemma ensures_app cs1 cs2 : forall (Q : mem V -> Prop) m,
  ensures cs1 (ensures cs2 Q) m -> ensures (cs1 ++ cs2) Q m.
Proof.
  induction cs1 as [|c cs1 IH]; intros Q m H; cbn in *; auto.
  destruct c.
  - intros m' Hm. eauto.
  - eauto.
  - destruct H as [HA H]. split; auto. intros ps' m' St.
    destruct (H _ _ St) as [Hs Hd]. split; auto.
Qed.

(** [ensures] is not vacuous: an execution exists. *)
Lemma not_done_access (ps : list (prog V)) :
  all_done ps \/ exists i p, nth_error ps i = Some p /\ p <> Ret.
Proof.
  induction ps as [|p ps IH].
  - left. intros p [].
  - destruct IH as [IH|(i & q & Hi & Hq)].
    + destruct p as [| |l k|l v k].
      * left. intros q [<-|Hq]; auto.
      * right. exists 0. eexists; split; [reflexivity|discriminate].
      * right. exists 0. eexists; split; [reflexivity|discriminate].
      * right. exists 0. eexists; split; [reflexivity|discriminate].
    + right. exists (S i), q. auto.
Qed.

Lemma par_terminates (c : list (prog V) * mem V) :
  Acc (fun c' c => step c c') c ->
  (forall c', steps c c' -> safe c') ->
  exists ps' m', steps c (ps', m') /\ all_done ps'.
Proof.
  induction 1 as [[ps m] _ IH]. intros Hs.
  destruct (not_done_access ps) as [D|(i & p & Hp & Hne)].
  - exists ps, m. split; auto. constructor.
  - assert (exists c', step (ps, m) c') as [c' St].
    { pose proof (Hs (ps, m) (steps_refl _)) as (S0 & S1 & _). cbn in S0, S1.
      destruct p as [| |l k|l v k]; [congruence| | |].
      - exfalso. apply S0. eapply nth_error_In; eauto.
      - specialize (S1 i _ false l Hp eq_refl).
        destruct (m l) as [v|] eqn:E; [|congruence].
        eexists. eapply step_rd; eauto.
      - specialize (S1 i _ true l Hp eq_refl).
        eexists. eapply step_wr; eauto. }
    destruct (IH c' St) as (ps' & m' & St' & D).
    { intros c'' St''. apply Hs. econstructor; eauto. }
    exists ps', m'. split; auto. econstructor; eauto.
Qed.

Lemma ensures_possible (v0 : V) cs : forall (Q : mem V -> Prop) m,
  ensures cs Q m -> exists m', Q m'.
Proof.
  induction cs as [|c cs IH]; intros Q m H; cbn in *; eauto.
  destruct c as [b n|b|ps].
  - apply (IH Q (fun l => if (fst l =? b)%N
                          then if (snd l <? n)%N then Some v0 else None else m l)).
    apply H. repeat split; cbn.
    + intros i Hi. exists v0. rewrite N.eqb_refl.
      replace (i <? n)%N with true by lia. auto.
    + intros i Hi. rewrite N.eqb_refl. replace (i <? n)%N with false by lia. auto.
    + intros l Hl. replace (fst l =? b)%N with false by lia. auto.
  - eauto.
  - destruct H as [HA H].
    destruct (par_terminates (ps, m) HA) as (ps' & m' & St & D).
    { intros [ps' m'] St. destruct (H _ _ St); auto. }
    destruct (H _ _ St) as [_ K]. eauto.
Qed.

(** Weakest precondition of an isolated unit with footprint. *)
Fixpoint wp (A W : loc -> Prop) (p : prog V) (Q : mem V -> Prop) (m : mem V) : Prop :=
  match p with
  | Ret => Q m
  | Fault => False
  | Rd l k => A l /\ exists v, m l = Some v /\ wp A W (k v) Q m
  | Wr l v k => A l /\ W l /\ m l <> None /\ wp A W k Q (mset m l v)
  end.

Lemma wp_runs A W p : forall Q m, wp A W p Q m -> exists mf, runs A W p m mf /\ Q mf.
Proof.
  induction p as [| |l k IH|l v k IH]; intros Q m H; cbn in H.
  - exists m. split; [constructor|auto].
  - destruct H.
  - destruct H as (Al & v & E & H). destruct (IH v Q m H) as (mf & R & HQ).
    exists mf. split; auto. econstructor; eauto.
  - destruct H as (Al & Wl & E & H). destruct (IH Q _ H) as (mf & R & HQ).
    exists mf. split; auto. econstructor; eauto.
Qed.

Lemma wp_weaken A W p : forall (Q Q' : mem V -> Prop) m,
  (forall m, Q m -> Q' m) -> wp A W p Q m -> wp A W p Q' m.
Proof.
  induction p as [| |l k IH|l v k IH]; intros Q Q' m HQ H; cbn in *; auto.
  - destruct H as (Al & v & E & H). split; auto. exists v. split; auto. eapply IH; eauto.
  - destruct H as (Al & Wl & E & H). repeat split; auto. eapply IH; eauto.
Qed.

Lemma finite_choice (m : mem V) (P : nat -> mem V -> Prop) n :
  (forall i, i < n -> exists mf, P i mf) ->
  exists mf : nat -> mem V, forall i, i < n -> P i (mf i).
Proof.
  revert P. induction n as [|n IH]; intros P H.
  - exists (fun _ => m). intros; lia.
  - destruct (IH (fun i => P (S i))) as [mf Hmf]. { intros i Hi. apply H. lia. }
    destruct (H 0) as [m0 H0]; [lia|].
    exists (fun i => match i with O => m0 | S i => mf i end).
    intros [|i] Hi; auto. apply Hmf. lia.
Qed.

Lemma par_wp (A W : nat -> loc -> Prop) (P : nat -> mem V -> Prop) ps cs Q m :
  (forall i j l, i < length ps -> j < length ps -> i <> j -> W i l -> ~ A j l) ->
  (forall i l, i < length ps -> W i l -> A i l) ->
  (forall i p, nth_error ps i = Some p -> wp (A i) (W i) p (P i) m) ->
  (forall mf m', (forall i, i < length ps -> P i (mf i)) ->
     merged (length ps) W mf m m' -> ensures cs Q m') ->
  ensures (Par ps :: cs) Q m.
Proof.
  intros disj sub H K.
  destruct (finite_choice m (fun i mf => forall p, nth_error ps i = Some p ->
              runs (A i) (W i) p m mf /\ P i mf) (length ps)) as [mf Hmf].
  { intros i Hi. destruct (nth_error ps i) as [p|] eqn:E.
    - destruct (wp_runs _ _ _ _ _ (H i p E)) as (mf & R & HP). exists mf.
      intros q Hq. injection Hq as <-. auto.
    - apply nth_error_None in E. lia. }
  eapply (par_rule A W mf); eauto.
  - intros i p Hp. apply Hmf; auto. apply nth_error_Some; congruence.
  - intros m' Hm. eapply K; eauto. intros i Hi.
    destruct (nth_error ps i) as [p|] eqn:E.
    + destruct (Hmf i Hi p E); auto.
    + apply nth_error_None in E. lia.
Qed.

Lemma units_length n (f : N -> prog V) : length (units n f) = N.to_nat n.
Proof. unfold units. now rewrite map_length, seq_length. Qed.

Lemma nth_error_units n (f : N -> prog V) i p :
  nth_error (units n f) i = Some p -> (N.of_nat i < n)%N /\ p = f (N.of_nat i).
Proof.
  unfold units. intros H.
  assert (i < N.to_nat n)%nat.
  { assert (X : nth_error (map (fun t => f (N.of_nat t)) (seq 0 (N.to_nat n))) i <> None)
      by congruence.
    apply nth_error_Some in X. now rewrite map_length, seq_length in X. }
  split; [lia|].
  rewrite nth_error_map in H.
  rewrite (nth_error_nth' _ 0) in H by (now rewrite seq_length).
  rewrite seq_nth in H by auto. cbn in H. congruence.
Qed.

(** A task of [n] units given by an index function. *)
Lemma units_wp n (f : N -> prog V) (A W : N -> loc -> Prop) (P : N -> mem V -> Prop) cs Q m :
  (forall i j l, (i < n)%N -> (j < n)%N -> i <> j -> W i l -> ~ A j l) ->
  (forall i l, (i < n)%N -> W i l -> A i l) ->
  (forall i, (i < n)%N -> wp (A i) (W i) (f i) (P i) m) ->
  (forall mf m', (forall i, (i < n)%N -> P i (mf i)) ->
     (forall i l, (i < n)%N -> W i l -> m' l = mf i l) ->
     (forall l, (forall i, (i < n)%N -> ~ W i l) -> m' l = m l) ->
     ensures cs Q m') ->
  ensures (Par (units n f) :: cs) Q m.
Proof.
  intros disj sub H K.
  apply (par_wp (fun i => A (N.of_nat i)) (fun i => W (N.of_nat i)) (fun i => P (N.of_nat i))).
  - intros i j l Hi Hj Hij. rewrite units_length in *. apply disj; lia.
  - intros i l Hi. rewrite units_length in *. apply sub; lia.
  - intros i p Hp. apply nth_error_units in Hp as [Hi ->]. auto.
  - intros mf m' HP [M1 M2]. rewrite units_length in *.
    apply (K (fun i => mf (N.to_nat i))).
    + intros i Hi. specialize (HP (N.to_nat i)). rewrite N2Nat.id in HP. apply HP. lia.
    + intros i l Hi Hw. apply M1; [lia|]. now rewrite N2Nat.id.
    + intros l Hl. apply M2. intros i Hi. apply Hl. lia.
Qed.

(** Loops in isolation. *)
Lemma wp_loop {S} (A W : loc -> Prop) (body : N -> S -> (S -> prog V) -> prog V)
    (I : list N -> S -> mem V -> Prop) js (k : S -> prog V) Q :
  (forall done j todo s m kk,
     js = done ++ j :: todo -> I done s m ->
     (forall s' m', I (done ++ [j]) s' m' -> wp A W (kk s') Q m') ->
     wp A W (body j s kk) Q m) ->
  forall s m, I [] s m ->
  (forall s' m', I js s' m' -> wp A W (k s') Q m') ->
  wp A W (loop js body s k) Q m.
Proof.
  intros Hb s m H0 Hk.
  assert (forall todo done s m, js = done ++ todo -> I done s m ->
            wp A W (loop todo body s k) Q m) as X.
  { induction todo as [|j todo IH]; intros done s1 m1 E H1; cbn.
    - rewrite app_nil_r in E. subst done. auto.
    - eapply Hb; eauto. intros s' m' H'. apply (IH (done ++ [j])); auto.
      rewrite <- app_assoc. auto. }
  apply (X js [] s m); auto.
Qed.

End P.
