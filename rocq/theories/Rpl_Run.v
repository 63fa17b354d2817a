(** Frozen functions: replay of all operations. *)
From Verif Require Import Base Rpl_Model Rpl_Spec Rpl_Rec Rpl_Call Rpl_Law Rpl_Sim Rpl_Step.
Local Open Scope N_scope.

Lemma same_outs c c' : Forall2 same_arg (c_args c) (c_args c') -> outs_of c = outs_of c' /\ ins_of c = ins_of c'.
Proof.
  unfold outs_of, ins_of. intros S. induction S as [|a b l l' (H1 & H2 & _) S IH]; cbn [filter map]; [auto|]. rewrite H2. destruct IH as [IH1 IH2].
  destruct (a_out b); cbn [negb map]; split; congruence.
Qed.
Lemma minv_fits {C} xs s known t (m : st (C := C)) : minv xs s known t -> (length (r_vars s) <= length (t_slots m))%nat -> fits (length xs) xs (r_map s) m.
Proof.
  intros I L x i E. split; [pose proof (mi_bound _ _ _ _ I _ _ E); lia|]. intros NX. destruct (mi_inputs _ _ _ _ I _ _ E) as [X|X]; [|apply X]. apply nth_error_In in X. contradiction.
Qed.
Lemma minv_free xs s known t x : minv xs s known t -> ~ In x xs -> minv xs (rec_free s x) (fun y => y <> x /\ known y) (set_ty t x Void).
Proof.
  intros I NX.
  assert (F : forall y i, find y (r_map (rec_free s x)) = Some i -> y <> x /\ find y (r_map s) = Some i).
  { intros y i. cbn [rec_free r_map]. rewrite find_erase by apply I. destruct (N.eqb_spec y x); [discriminate|auto]. }
  constructor.
  - apply erase_nodup, I.
  - intros y i E. apply F in E as [_ E]. apply (mi_bound _ _ _ _ I _ _ E).
  - intros y z i E1 E2. apply F in E1 as [_ E1], E2 as [_ E2]. apply (mi_inj _ _ _ _ I _ _ _ E1 E2).
  - intros y. cbn [rec_free r_map]. rewrite find_erase by apply I. destruct (N.eqb_spec y x) as [->|NE]; [split; [tauto|intros [i X]; discriminate]|].
    rewrite <- (mi_known _ _ _ _ I y). tauto.
  - intros y i E. apply F in E as [NE E]. unfold set_ty. rewrite (proj2 (N.eqb_neq y x) NE). apply (mi_ty _ _ _ _ I _ _ E).
  - intros y NK. unfold set_ty. destruct (N.eqb_spec y x); [reflexivity|]. apply (mi_void _ _ _ _ I). tauto.
  - apply I.
  - apply (mi_in _ _ _ _ I).
  - apply I.
  - intros y i E. apply F in E as [_ E]. apply (mi_inputs _ _ _ _ I _ _ E).
Qed.

Section Run.
Context {C : Type} (blank : C) (dev : kind -> list C -> list C) (count : kind -> list C -> N).
Hypothesis DEV : forall k cs, length (dev k cs) = length cs.
Notation st := (st (C := C)). Notation env := (env (C := C)).

Lemma run_call_some (e : env) c : fills e c -> exists e', run_call blank dev count e c = Some e' /\ (forall x, e' x <> None <-> In x (outs_of c) \/ e x <> None).
Proof.
  intros FI. assert (KI : forall a, In a (c_args c) -> a_out a = false -> e (a_p a) <> None).
  { intros a Ha Oa. unfold fills in FI. rewrite Forall_forall in FI. destruct (FI a Ha Oa) as [d ->]. discriminate. }
  destruct (reads_some blank e (c_args c) KI) as (cs & ER & LR). unfold run_call. rewrite ER. cbn [bind]. eexists. split; [reflexivity|].
  assert (WK : forall x, writes e (c_args c) (dev (c_kind c) cs) x <> None <-> In x (outs_of c) \/ e x <> None) by (intros x; apply writes_known; [now rewrite DEV|exact KI]).
  intros x. unfold shrunk. destruct (c_kind c) eqn:EK; try apply WK.
  destruct (c_args c) as [|s0 [|d [|? ?]]] eqn:EA; try apply WK. rewrite <- WK. unfold bindv at 1. destruct (N.eqb_spec x (a_p d)) as [->|NE]; [|reflexivity].
  destruct (writes e [s0; d] (dev (KCompress n) cs) (a_p d)); cbn [option_map]; split; congruence.
Qed.

Lemma app_ops d (l1 l2 : list rop) : forall t : st, replay_ops blank dev count d t (l1 ++ l2) = match replay_ops blank dev count d t l1 with Ok t' => replay_ops blank dev count d t' l2 | r => r end.
Proof. induction l1 as [|o l1 IH]; intros t; cbn [app replay_ops]; [reflexivity|]. destruct (replay_op blank dev count d t o); auto. Qed.

(** One operation *)
Lemma call_step xs s tt (e : env) c c' s' os : minv xs s' (fun x => In x (outs_of c) \/ e x <> None) (track tt c) ->
  Forall2 (link s' tt) (rargs tt c) os -> grows s s' -> (forall x, e x <> None -> find x (r_map s) <> None) ->
  separate xs c -> regular tt c -> regular tt c' -> Forall2 same_arg (c_args c) (c_args c') -> scales c c' -> fills e c' -> small_count blank count e c' ->
  forall t : st, (length (r_vars s') <= length (t_slots t))%nat -> mem (r_map s) t e -> ledger (length xs) t ->
  exists e' t', run_call blank dev count e c' = Some e' /\ replay_ops blank dev count false t (pre_of s' c ++ [rop_of c os]) = Ok t' /\
    ledger (length xs) t' /\ length (t_slots t') = length (t_slots t) /\ mem (r_map s') t' e'.
Proof.
  intros I' FL GR KN [ND SEP] R R' SA SC FI SM t LN MEM LG.
  destruct (same_outs _ _ SA) as [SO SI]. rewrite SO, SI in *.
  pose proof (rargs_lk _ _ _ _ _ R SA FL) as LK. pose proof (minv_fits xs s' _ _ t I' LN) as FT.
  assert (MR : forall x i, find x (r_map s') = Some i -> ~ In x (outs_of c') -> e x <> None -> okslot t i (e x)).
  { intros x i E _ NE. apply MEM; auto. pose proof (KN x NE) as K. destruct (find x (r_map s)) as [j|] eqn:Ej; [|congruence]. destruct GR as (_ & G & _). rewrite (G _ _ Ej) in E. congruence. }
  assert (CV : forall n, c_kind c' = KCompress n -> forall a j, os = [a; j] -> o_vt j = TUInt32).
  { intros n EK a j ->. unfold scales in SC. rewrite EK in SC. unfold rargs in FL. unfold regular in R. destruct (c_kind c) eqn:EK2; try contradiction.
    destruct (c_args c) as [|s0 [|d [|? ?]]]; try contradiction. inversion FL as [|? ? ? ? L0 F0]; subst. inversion F0 as [|? ? ? ? L1 F1]; subst. destruct L1 as (_ & L1 & _). destruct R as (_ & [R1 R2] & _). rewrite L1, R1. exact R2. }
  assert (PL : forall bs, bsok (c_args c') bs -> plan_of false (rop_of c os) bs = Go (c_kind c') (map a_b (filter a_out (c_args c')))) by (intros bs B; eapply plan_ok; eassumption).
  assert (FIN : forall t1 : st, ledger (length xs) t1 -> length (t_slots t1) = length (t_slots t) ->
    (forall x i, find x (r_map s') = Some i -> ~ In x (outs_of c') -> e x <> None -> okslot t1 i (e x)) ->
    exists e' t', run_call blank dev count e c' = Some e' /\ replay_ops blank dev count false t1 [rop_of c os] = Ok t' /\
    ledger (length xs) t' /\ length (t_slots t') = length (t_slots t) /\ mem (r_map s') t' e').
  { intros t1 G1 L1 M1. destruct (exec_ok blank dev count DEV (length xs) xs (r_map s') t1 e tt c' os (rop_of c os)) as (e' & t' & X1 & X2 & X3 & X4 & X5 & _); auto.
    - apply (mi_inj _ _ _ _ I').
    - eapply fits_len; [exact L1|exact FT].
    - exists e', t'. split; [exact X1|]. cbn [replay_ops]. rewrite X2. split; [reflexivity|]. split; [exact X3|]. split; [congruence|exact X5]. }
  rewrite app_ops. unfold pre_of. destruct (c_kind c) eqn:EK; try (cbn [replay_ops]; now apply FIN).
  unfold regular in R. rewrite EK in R. destruct (c_args c) as [|s0 [|d [|? ?]]] eqn:EA; try contradiction.
  (* width: the memset before *)
  unfold rargs in FL. rewrite EK, EA in FL. inversion FL as [|? ? ? ? L0 F0]; subst. inversion F0 as [|? ? ? ? L1 F1]; subst. destruct L1 as (L1a & L1b & L1c). rewrite L1c.
  destruct (FT _ _ L1c) as [Bd Bn]. destruct R as (R0 & _ & [R1 R2] & _).
  assert (Od : In (a_p d) (outs_of c')). { rewrite <- SO. unfold outs_of. rewrite EA. cbn [filter]. destruct (a_out s0); rewrite R1; cbn [map In]; auto. }
  specialize (Bn (proj2 (SEP _ Od))).
  destruct (alloc_ok blank (length xs) t (o_slot y0) 4 LG Bd Bn) as (A1 & A2 & A3 & (b0 & c0 & A4) & A5 & A6).
  cbn [replay_ops]. unfold replay_op at 1. cbn [o_args map plan_of o_kind alloc_all load filter o_out o_slot].
  change (elems (u32 1 * u32 4) (u32 4)) with (Some 1%N). change (u32 1 * u32 4) with 4. cbv iota beta.
  set (t1 := alloc blank false t (o_slot y0) 4) in *.
  rewrite A4. cbn [bind resize].
  assert (B1 : (o_slot y0 < length (t_slots t1))%nat) by (rewrite A2; exact Bd).
  set (o1 := {| o_slot := o_slot y0; o_out := true; o_vt := Void |}).
  pose proof (store_bufs [o1] (dev (KMemset 1 4 n) [blank]) t1 ltac:(constructor; [exact B1|constructor])) as SB.
  apply FIN.
  - eapply ledger_bufs; eassumption.
  - destruct SB as (SB & _). rewrite SB. exact A2.
  - intros x i E NI NE. assert (i <> o_slot y0). { intros ->. apply NI. rewrite (mi_inj _ _ _ _ I' _ _ _ E L1c). exact Od. }
    unfold okslot. rewrite store_other; [|constructor; [exact B1|constructor]|cbn [map In o1 o_slot]; intros [X|[]]; congruence].
    rewrite A3 by assumption. apply (MR x i E NI NE).
Qed.

Lemma all_steps xs : forall tr tr' s tt (e : env), minv xs s (fun x => e x <> None) tt -> follows blank dev count xs tt e tr tr' ->
  exists s' ops e' tt', rec_all s tr = Some s' /\ r_ops s' = r_ops s ++ ops /\ r_ins s' = r_ins s /\ (length (r_vars s) <= length (r_vars s'))%nat /\
    run blank dev count e tr' = Some e' /\ minv xs s' (fun x => e' x <> None) tt' /\
    forall t : st, (length (r_vars s') <= length (t_slots t))%nat -> mem (r_map s) t e -> ledger (length xs) t ->
    exists t', replay_ops blank dev count false t ops = Ok t' /\ mem (r_map s') t' e' /\ ledger (length xs) t' /\ length (t_slots t') = length (t_slots t).
Proof.
  induction tr as [|v tr IH]; intros tr' s tt e I F; destruct tr' as [|v' tr']; cbn [follows] in F; try contradiction; try (destruct v; contradiction).
  - exists s, [], e, tt. cbn [rec_all run]. rewrite app_nil_r. split; [reflexivity|]. split; [reflexivity|]. split; [reflexivity|]. split; [lia|]. split; [reflexivity|]. split; [exact I|]. intros t _ M L. exists t. cbn [replay_ops]. auto.
  - destruct v as [c|x], v' as [c'|y]; try contradiction; cbn [rec_all rec_ev run run_ev].
    + destruct F as (SEP & R & R' & SA & SC & FI & SM & NX).
      assert (KI : forall a, In a (c_args c) -> a_out a = false -> e (a_p a) <> None).
      { intros a Ha Oa. clear - Ha Oa FI SA. unfold fills in FI. induction SA as [|b b' l l' (H1 & H2 & _) SA IH]; [contradiction|]. apply Forall_cons_iff in FI as [FI1 FI2].
        destruct Ha as [->|Ha]; [|now apply IH]. destruct FI1 as [d X]; [congruence|]. rewrite H1, X. discriminate. }
      destruct (rec_call_ok xs s _ tt c I KI SEP R) as (s1 & os & E1 & O1 & I1 & FL & GR & N1).
      destruct (run_call_some e c' FI) as (e1 & ER & EK). destruct (same_outs _ _ SA) as [SO SI].
      assert (I1' : minv xs s1 (fun x => e1 x <> None) (track tt c)) by (eapply minv_ext; [exact I1| |reflexivity]; intros x; cbn beta; rewrite EK, SO; reflexivity).
      destruct (IH tr' s1 (track tt c) e1 I1' (NX _ ER)) as (s' & ops & e' & tt' & A1 & A2 & A3 & A4 & A5 & A6 & A7).
      exists s', ((pre_of s1 c ++ [rop_of c os]) ++ ops), e', tt'. rewrite E1, ER. cbn [bind]. split; [exact A1|]. split; [rewrite A2, O1; now rewrite !app_assoc|]. split; [congruence|].
      destruct GR as (GR1 & GR2 & GR3). split; [lia|]. split; [exact A5|]. split; [exact A6|]. intros t LN M LG.
      destruct (call_step xs s tt e c c' s1 os I1 FL (conj GR1 (conj GR2 GR3))) with (t := t) as (e2 & t1 & X1 & X2 & X3 & X4 & X5); auto.
      { intros x NE. destruct (proj1 (mi_known _ _ _ _ I x) NE) as [i ->]. discriminate. }
      { lia. }
      assert (e2 = e1) by congruence. subst e2. destruct (A7 t1) as (t' & Y1 & Y2 & Y3 & Y4); auto; [lia|]. exists t'. rewrite app_ops, X2. split; [exact Y1|]. split; [exact Y2|]. split; [exact Y3|congruence].
    + destruct F as (<- & NX & F).
      assert (I' : minv xs (rec_free s x) (fun y => bindv e x None y <> None) (set_ty tt x Void)).
      { eapply minv_ext; [apply (minv_free xs s _ tt x I NX)| |reflexivity]. intros y. cbn beta. unfold bindv. destruct (N.eqb_spec y x) as [->|]; tauto. }
      destruct (IH tr' (rec_free s x) _ _ I' F) as (s' & ops & e' & tt' & A1 & A2 & A3 & A4 & A5 & A6 & A7).
      exists s', ops, e', tt'. cbn [bind]. split; [exact A1|]. split; [exact A2|]. split; [exact A3|]. split; [exact A4|]. split; [exact A5|]. split; [exact A6|].
      intros t LN M LG. apply A7; auto. intros y i Ey NE. cbn [rec_free r_map] in Ey. rewrite find_erase in Ey by apply I. unfold bindv in *. destruct (N.eqb_spec y x); [discriminate|]. now apply M.
Qed.
End Run.
