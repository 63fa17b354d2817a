From Verif Require Import Base Sched_Model Sched_Spec Sched_Proofs Sched_Groups Trav_Model Trav_Spec Trav_Proofs Trav_Total Trav_Group Trav_Collect.
Local Open Scope nat_scope.

(** ** From the traversal to the kernels *)
Lemma filter_perm : forall {A} (f : A -> bool) l l', Permutation l l' -> Permutation (filter f l) (filter f l').
Proof.
  intros A f l l' P. induction P as [|x l l' P IH|x y l|l l' l'' P1 IH1 P2 IH2]; cbn.
  - constructor.
  - destruct (f x); [apply perm_skip|]; exact IH.
  - destruct (f x), (f y); try apply Permutation_refl. apply perm_swap.
  - eapply perm_trans; eauto.
Qed.
Lemma vars_split : forall l k i, before (vars l) k i -> exists a x b y c, l = a ++ x :: b ++ y :: c /\ N.to_nat (sv_index x) = k /\ N.to_nat (sv_index y) = i.
Proof.
  intros l k i (a & b & c & E). unfold vars in E.
  apply map_eq_app in E. destruct E as (la & l1 & -> & _ & E). apply map_eq_cons in E. destruct E as (x & l2 & -> & EX & E).
  apply map_eq_app in E. destruct E as (lb & l3 & -> & _ & E). apply map_eq_cons in E. destruct E as (y & lc & -> & EY & _).
  exists la, x, lb, y, lc. auto.
Qed.
Lemma split_vars : forall a x b y c, before (vars (a ++ x :: b ++ y :: c)) (N.to_nat (sv_index x)) (N.to_nat (sv_index y)).
Proof. intros. exists (vars a), (vars b), (vars c). rewrite vars_app. cbn [vars map]. rewrite map_app. reflexivity. Qed.
Lemma two_in : forall {A} (l : list A) x y, In x l -> In y l -> x <> y ->
  (exists a b c, l = a ++ x :: b ++ y :: c) \/ (exists a b c, l = a ++ y :: b ++ x :: c).
Proof.
  intros A l x y IX IY NE. apply in_split in IX. destruct IX as (a & b & ->). apply in_app_iff in IY. destruct IY as [I|[E|I]]; [|congruence|].
  - right. apply in_split in I. destruct I as (a1 & a2 & ->). exists a1, a2, b. rewrite <- app_assoc. reflexivity.
  - left. apply in_split in I. destruct I as (b1 & b2 & ->). exists a, b1, b2. reflexivity.
Qed.
Lemma nodup_before : forall {A} (l : list A) a b c a' b' c' x y, NoDup l -> l = a ++ x :: b ++ y :: c -> l = a' ++ y :: b' ++ x :: c' -> False.
Proof.
  intros A l a b c a' b' c' x y ND E1 E2. revert l a' E1 E2 ND. induction a as [|z a IH]; intros l a' E1 E2 ND.
  - cbn in E1. destruct a' as [|z' a']; cbn in E2; rewrite E1 in E2; injection E2 as EA EB.
    + subst y. rewrite E1 in ND. inversion ND; subst. apply H1. rewrite in_app_iff. right. left. reflexivity.
    + subst z'. rewrite E1, EB in ND. inversion ND; subst. apply H1. rewrite in_app_iff. right. right. rewrite in_app_iff. right. left. reflexivity.
  - destruct a' as [|z' a']; cbn in E1, E2; rewrite E1 in E2; injection E2 as EA EB.
    + subst z. rewrite E1 in ND. inversion ND; subst. apply H1. rewrite in_app_iff. right. right. rewrite in_app_iff. right. left. reflexivity.
    + subst z'. rewrite E1 in ND. inversion ND; subst. exact (IH _ a' eq_refl EB H2).
Qed.
Lemma sorted_split : forall {A} (R : A -> A -> Prop) a x b y c, StronglySorted R (a ++ x :: b ++ y :: c) -> R x y.
Proof.
  intros A R a. induction a as [|z a IH]; intros x b y c H; cbn in H; inversion H; subst; [|exact (IH _ _ _ _ H2)].
  rewrite Forall_forall in H3. apply H3. rewrite in_app_iff. right. left. reflexivity.
Qed.
Lemma sorted_filter : forall {A} (R : A -> A -> Prop) f l, StronglySorted R l -> StronglySorted R (filter f l).
Proof.
  intros A R f l H. induction H as [|x l H IH F]; cbn; [constructor|]. destruct (f x); [|exact IH]. constructor; [exact IH|].
  apply Forall_forall. intros y I. apply filter_In in I. rewrite Forall_forall in F. apply F. apply I.
Qed.
Lemma filter_split : forall {A} (f : A -> bool) a x b y c, f x = true -> f y = true ->
  filter f (a ++ x :: b ++ y :: c) = filter f a ++ x :: filter f b ++ y :: filter f c.
Proof. intros. rewrite filter_app. cbn. rewrite H, filter_app. cbn. rewrite H0. reflexivity. Qed.

Lemma final_order : forall g l r size, stably_sorted l r ->
  (forall x, In x l -> exists v, has g (N.to_nat (sv_index x)) v /\ sv_scope x = n_scope v) ->
  NoDup (vars (of_size size l)) -> operands_first g (of_size size l) -> scoped_operands_first g (of_size size r).
Proof.
  intros g l r size (PE & SS & ST) SC ND OF i k v w I HV HW LW OP LE.
  pose proof (filter_perm (fun x => (sv_size x =? size)%N) _ _ PE) as PF. fold (of_size size l) in PF. fold (of_size size r) in PF.
  assert (IL : In i (vars (of_size size l))) by (exact (Permutation_in _ (Permutation_sym (Permutation_map _ PF)) I)).
  assert (LK : forall u, has g k u -> live u) by (intros u HU; unfold has in *; rewrite HW in HU; injection HU as <-; exact LW).
  destruct (vars_split _ _ _ (OF i k IL OP LK)) as (a & x & b & y & c & E & EX & EY).
  assert (XY : x <> y).
  { intros ->. rewrite E, vars_app in ND. cbn [vars map] in ND. apply NoDup_remove_2 in ND. apply ND. rewrite !in_app_iff. right. unfold vars. rewrite map_app, in_app_iff. right. left. reflexivity. }
  assert (IX : In x (of_size size l)) by (rewrite E; rewrite in_app_iff; right; left; reflexivity).
  assert (IY : In y (of_size size l)) by (rewrite E; rewrite in_app_iff; right; right; rewrite in_app_iff; right; left; reflexivity).
  assert (ZX : sv_size x = size) by (apply filter_In in IX; apply N.eqb_eq; apply IX).
  assert (ZY : sv_size y = size) by (apply filter_In in IY; apply N.eqb_eq; apply IY).
  assert (CX : sv_scope x = n_scope w).
  { apply filter_In in IX. destruct (SC x (proj1 IX)) as (u & HU & EU). rewrite EX in HU. unfold has in *. rewrite HW in HU. injection HU as <-. exact EU. }
  assert (CY : sv_scope y = n_scope v).
  { apply filter_In in IY. destruct (SC y (proj1 IY)) as (u & HU & EU). rewrite EY in HU. unfold has in *. rewrite HV in HU. injection HU as <-. exact EU. }
  destruct (two_in _ x y (Permutation_in _ PF IX) (Permutation_in _ PF IY) XY) as [(a' & b' & c' & E')|(a' & b' & c' & E')].
  - rewrite E', <- EX, <- EY. apply split_vars.
  - exfalso. pose proof (sorted_filter _ (fun x => (sv_size x =? size)%N) _ SS) as SF. fold (of_size size r) in SF. rewrite E' in SF.
    pose proof (sorted_split _ _ _ _ _ _ SF) as MP. unfold may_precede, sv_key in MP. cbn [fst snd] in MP.
    assert (EQ : sv_scope x = sv_scope y) by (clear - MP ZX ZY CX CY LE; lia).
    specialize (ST size (sv_scope x)).
    assert (FF : forall m, filter (fun x0 => (sv_size x0 =? size) && (sv_scope x0 =? sv_scope x))%N m = filter (fun x0 => (sv_scope x0 =? sv_scope x)%N) (of_size size m)).
    { intros m. unfold of_size. induction m as [|z m IHm]; [reflexivity|]. cbn. destruct (sv_size z =? size)%N; cbn; rewrite IHm; reflexivity. }
    rewrite !FF, E, E' in ST. rewrite !filter_split in ST by (apply N.eqb_eq; congruence).
    assert (NDF : NoDup (filter (fun x0 => (sv_scope x0 =? sv_scope x)%N) (of_size size l))) by (apply NoDup_filter; exact (NoDup_map_inv _ _ ND)).
    rewrite E, filter_split in NDF by (apply N.eqb_eq; congruence).
    exact (nodup_before _ _ _ _ _ _ _ _ _ NDF eq_refl (eq_sym ST)).
Qed.

Lemma scopes_deps : forall g l, scoped_operands_first g l -> scopes_ok g l = true -> (forall i, In i (vars l) -> forall v, has g i v -> live v) -> dependencies_first g l.
Proof.
  intros g l SF OK LV i k v w I HV NC ID HW LW. apply (SF i k v w I HV HW LW); [eapply op_dep; eauto|].
  unfold scopes_ok in OK. rewrite forallb_forall in OK. pose proof I as I'. unfold vars in I'. apply in_map_iff in I'. destruct I' as (x & EX & IX).
  specialize (OK x IX). rewrite EX in OK. unfold has in HV, HW. rewrite HV in OK. rewrite forallb_forall in OK. specialize (OK k ID). rewrite HW in OK. apply N.leb_le. exact OK.
Qed.

Lemma slice_size : forall r gs, flat_map (slice r) gs = r -> (forall g x, In g gs -> In x (slice r g) -> sv_size x = g_size g) ->
  StronglySorted (fun g h => (g_size h < g_size g)%N) gs -> forall gr, In gr gs -> slice r gr = of_size (g_size gr) r.
Proof.
  intros r gs FM SZ SS gr I. unfold of_size. rewrite <- FM at 2. clear FM. revert SZ SS I. generalize (slice r) as f. intros f SZ SS I.
  induction gs as [|h gs IH]; [destruct I|]. cbn [flat_map]. rewrite filter_app. inversion SS; subst. rewrite Forall_forall in H2. destruct I as [->|I].
  - rewrite filter_id by (intros x J; apply N.eqb_eq; apply SZ; [left; reflexivity|exact J]). rewrite filter_nil; [symmetry; apply app_nil_r|].
    intros x J. apply in_flat_map in J. destruct J as (h & IH' & J). apply N.eqb_neq. rewrite (SZ h x (or_intror IH') J). specialize (H2 h IH'). lia.
  - rewrite (filter_nil _ (f h)).
    + cbn [app]. apply IH; [|exact H1|exact I]. intros g0 x J. apply SZ. right. exact J.
    + intros x J. apply N.eqb_neq. rewrite (SZ h x (or_introl eq_refl) J). specialize (H2 gr I). lia.
Qed.

Lemma exact_perm : forall g roots l l', Permutation l l' -> exact_schedule g roots l -> exact_schedule g roots l'.
Proof.
  intros g roots l l' P [ND EX]. pose proof (Permutation_map (fun x => N.to_nat (sv_index x)) P) as PM. split.
  - exact (Permutation_NoDup PM ND).
  - intros i. rewrite <- EX. split; intros I; [exact (Permutation_in _ (Permutation_sym PM) I)|exact (Permutation_in _ PM I)].
Qed.

Lemma kernels_ok : forall g sort ssv stask old gen scratch0 tasks s gen',
  sorts sort -> sorts_stably ssv -> sorts stask -> closed g -> acyclic g -> (gen <= 0x7fffffff)%N -> stale gen scratch0 ->
  Forall (fun t => t_index t < length g) tasks ->
  collect g stask gen scratch0 tasks = (Done s, gen') -> sched s <> [] -> (N.of_nat (length (sched s)) < 2 ^ 32)%N ->
  exists r gs, schedule_sort sort ssv old (sched s) = Some r /\ partition r = Some gs /\ flat_map (slice r) gs = r /\
    forall gr, In gr gs ->
      let roots := roots_of (g_size gr) tasks in
      NoDup (vars (slice r gr)) /\
      (forall i, In i (vars (slice r gr)) -> needed g roots (i, 0) /\ forall v, has g i v -> live v) /\
      (levelled g roots -> exact_schedule g roots (slice r gr)) /\
      scoped_operands_first g (slice r gr) /\
      (scopes_ok g (slice r gr) = true -> dependencies_first g (slice r gr)) /\
      (forall i k v w, In i (vars (slice r gr)) -> In k (vars (slice r gr)) -> has g i v -> has g k w -> (n_scope w < n_scope v)%N ->
         before (vars (slice r gr)) k i).
Proof.
  intros g sort ssv stask old gen scratch0 tasks s gen' SO SST STK CL AC G ST RNG CO NE LEN.
  pose proof (collect_ok g stask gen scratch0 tasks STK CL AC G ST RNG) as C. rewrite CO in C. destruct C as (_ & _ & EN & SZ).
  destruct (schedule_sort_ok sort ssv old (sched s) SO SST LEN) as (r & ER & STB). pose proof STB as (PE & SS & _).
  assert (NR : r <> []) by (intros ->; apply Permutation_sym, Permutation_nil in PE; contradiction).
  destruct (partition_ok r NR SS) as (gs & EP & _ & FM & SG & _ & SD); [rewrite <- (Permutation_length PE); exact LEN|].
  exists r, gs. split; [exact ER|]. split; [exact EP|]. split; [exact FM|]. intros gr I roots. rewrite (slice_size r gs FM SG SD gr I).
  destruct (SZ (g_size gr)) as (ND & NEED & EX & OF). fold roots in NEED, EX.
  pose proof (filter_perm (fun x => (sv_size x =? g_size gr)%N) _ _ PE) as PF. fold (of_size (g_size gr) (sched s)) in PF. fold (of_size (g_size gr) r) in PF.
  pose proof (Permutation_map (fun x => N.to_nat (sv_index x)) PF) as PM. fold (vars (of_size (g_size gr) (sched s))) in PM. fold (vars (of_size (g_size gr) r)) in PM.
  assert (SF : scoped_operands_first g (of_size (g_size gr) r)).
  { apply (final_order g (sched s)); [exact STB| |exact ND|exact OF]. intros x IX. exact (proj2 (EN x IX)). }
  split; [exact (Permutation_NoDup PM ND)|]. split; [intros i J; exact (NEED i (Permutation_in _ (Permutation_sym PM) J))|].
  split; [intros LEV; exact (exact_perm _ _ _ _ PF (EX LEV))|]. split; [exact SF|].
  split; [intros OK; apply scopes_deps; [exact SF|exact OK|]; intros i J v HV; exact (proj2 (NEED i (Permutation_in _ (Permutation_sym PM) J)) v HV)|].
  intros i k v w II IK HV HW LT. unfold vars in II, IK. apply in_map_iff in II. apply in_map_iff in IK. destruct II as (y & EY & IY), IK as (x & EX' & IX).
  assert (SCO : forall z, In z (of_size (g_size gr) r) -> exists u, has g (N.to_nat (sv_index z)) u /\ sv_scope z = n_scope u).
  { intros z IZ. apply (EN z). apply (Permutation_in _ (Permutation_sym PE)). apply filter_In in IZ. apply IZ. }
  destruct (SCO x IX) as (ux & HX & CX), (SCO y IY) as (uy & HY & CY). rewrite EX' in HX. rewrite EY in HY. unfold has in *. rewrite HW in HX. rewrite HV in HY. injection HX as <-. injection HY as <-.
  destruct (two_in _ x y IX IY) as [(a & b & c & E)|(a & b & c & E)]; [intros ->; lia|rewrite E, <- EX', <- EY; apply split_vars|].
  exfalso. pose proof (sorted_filter _ (fun x => (sv_size x =? g_size gr)%N) _ SS) as SF2. fold (of_size (g_size gr) r) in SF2. rewrite E in SF2. pose proof (sorted_split _ _ _ _ _ _ SF2) as MP.
  unfold may_precede, sv_key in MP. cbn [fst snd] in MP. apply filter_In in IX. apply filter_In in IY. destruct IX as [_ IX], IY as [_ IY]. apply N.eqb_eq in IX, IY. lia.
Qed.

(** Operands of concrete graphs. *)
Definition edges (v : node) (d : nat) : list (nat * nat) :=
  match n_kind v with
  | Scatter true => []
  | CallInput => match d, n_dep v with S d, j :: _ => [(j, d)] | _, _ => [] end
  | _ => match prelude v d with
         | Some l => flat_map (fun a => match a with Visit j e => [(j, e)] | Defer _ _ => [] end) (l ++ deps v d)
         | None => map (fun j => (j, d)) (n_dep v)
         end
  end.
Lemma operand_edges : forall g i d q v, has g i v -> operand g (i, d) q -> In q (edges v d).
Proof.
  intros g i d [j e] v HV O.
  assert (C : live v -> n_kind v <> CallInput -> In (j, e) match prelude v d with
         | Some l => flat_map (fun a => match a with Visit j e => [(j, e)] | Defer _ _ => [] end) (l ++ deps v d)
         | None => map (fun j => (j, d)) (n_dep v) end).
  { intros LV NC. destruct (prelude v d) as [l|] eqn:P.
    - apply in_flat_map. exists (Visit j e). split; [apply (proj1 (acts_spec g i v d l HV LV NC P)); exact O|left; reflexivity].
    - assert (K : n_kind v = LoopPhi None \/ n_kind v = LoopOutput None) by (unfold prelude in P; destruct (n_kind v) as [| | |[[]|]|[[[]]|]| | | |]; try discriminate; auto).
      inversion O; subst; match goal with A : has g i ?w |- _ => assert (w = v) by (unfold has in *; congruence); subst w end; try (destruct K; congruence).
      apply in_map_iff. eauto. }
  unfold edges. unfold live in C. destruct (n_kind v) as [|[]| | | | | | |] eqn:K; try (apply C; discriminate).
  - inversion O; subst; match goal with A : has g i ?w |- _ => assert (w = v) by (unfold has in *; congruence); subst w end; try congruence.
  - inversion O; subst; match goal with A : has g i ?w |- _ => assert (w = v) by (unfold has in *; congruence); subst w end; try congruence.
    match goal with A : n_dep v = _ |- _ => rewrite A end. left. reflexivity.
Qed.
