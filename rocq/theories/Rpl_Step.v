(** Frozen functions: replay of one operation, and of all. *)
From Verif Require Import Base Rpl_Model Rpl_Spec Rpl_Rec Rpl_Call Rpl_Law Rpl_Sim.
Local Open Scope N_scope.

Lemma rargs_lk s t c c' os : regular t c -> Forall2 same_arg (c_args c) (c_args c') -> Forall2 (link s t) (rargs t c) os -> Forall2 (lk (r_map s)) (c_args c') os.
Proof.
  intros R S F.
  assert (G : forall l l', Forall2 same_arg l l' -> forall os, Forall2 (link s t) l os -> Forall2 (lk (r_map s)) l' os).
  { clear. intros l l' S. induction S as [|a b l l' H S IH]; intros os F; inversion F as [|? o ? os' L F']; subst; constructor; auto.
    destruct H as (H1 & H2 & _). destruct L as (L1 & _ & L3). split; congruence. }
  unfold rargs in F. destruct (c_kind c) eqn:EK; try (eapply G; eassumption).
  unfold regular in R. rewrite EK in R. destruct (c_args c) as [|s1 [|d [|? ?]]]; try contradiction.
  destruct R as (_ & [D _] & _).
  inversion F as [|? o1 ? os1 L1 F1]; subst. inversion F1 as [|? o2 ? os2 L2 F2]; subst. inversion F2; subst.
  inversion S as [|? b1 ? l1 A1 S1 E1]; subst. inversion S1 as [|? b2 ? l2 A2 S2 E2]; subst. inversion S2; subst.
  destruct A1 as (P1 & O1 & _), A2 as (P2 & O2 & _), L1 as (Q1 & _ & W1), L2 as (Q2 & _ & W2). cbn [a_out a_p] in *.
  constructor; [split; congruence|]. constructor; [split; congruence|constructor].
Qed.
Lemma lk_filter m : forall l os, Forall2 (lk m) l os -> Forall2 (lk m) (filter a_out l) (filter o_out os).
Proof. intros l os F. induction F as [|a o l os H F IH]; cbn [filter]; [constructor|]. destruct H as [H1 H2]. rewrite H1. destruct (a_out a) eqn:E; [constructor; [split; congruence|exact IH]|exact IH]. Qed.
Lemma lk_in m : forall l os o, Forall2 (lk m) l os -> In o os -> exists a, In a l /\ lk m a o.
Proof. intros l os o F. induction F as [|a o' l os H F IH]; intros X; [contradiction|]. destruct X as [->|X]; [exists a; split; [now left|exact H]|]. destruct (IH X) as (b & Hb & L). exists b. split; [now right|exact L]. Qed.
Lemma lk_slots m : forall l os, Forall2 (lk m) l os -> map (@Some nat) (map o_slot os) = map (fun x => find x m) (map a_p l).
Proof. intros l os F. induction F as [|a o l os [H1 H2] F IH]; cbn [map]; [reflexivity|]. now rewrite IH, H2. Qed.
Lemma lk_nodup m : (forall x y i, find x m = Some i -> find y m = Some i -> x = y) -> forall l os, Forall2 (lk m) l os -> NoDup (map a_p l) -> NoDup (map o_slot os).
Proof.
  intros INJ l os F. induction F as [|a o l os [H1 H2] F IH]; cbn [map]; intros ND; [constructor|]. apply NoDup_cons_iff in ND as [NI ND]. constructor; [|auto].
  intros X. apply in_map_iff in X as (o' & E & X). destruct (lk_in _ _ _ _ F X) as (b & Hb & [_ L]). apply NI. rewrite <- E in H2. rewrite (INJ _ _ _ H2 L). now apply in_map.
Qed.

Section Step.
Context {C : Type} (blank : C) (dev : kind -> list C -> list C) (count : kind -> list C -> N).
Hypothesis DEV : forall k cs, length (dev k cs) = length cs.
Notation st := (st (C := C)). Notation env := (env (C := C)).

Definition mem (m : list (N * nat)) (t : st) (e : env) : Prop := forall x i, find x m = Some i -> e x <> None -> okslot t i (e x).
Definition fits (nin : nat) (xs : list N) (m : list (N * nat)) (t : st) : Prop :=
  forall x i, find x m = Some i -> (i < length (t_slots t))%nat /\ (~ In x xs -> (nin <= i)%nat).

Lemma fits_len nin xs m (t t' : st) : length (t_slots t') = length (t_slots t) -> fits nin xs m t -> fits nin xs m t'.
Proof. intros L F x i E. rewrite L. now apply F. Qed.

(** The allocations before an operation *)
Lemma prep nin xs m (t : st) l os (ds : list N) : (forall x y i, find x m = Some i -> find y m = Some i -> x = y) -> ledger nin t -> fits nin xs m t ->
  Forall2 (lk m) l os -> NoDup (outs l) -> (forall x, In x (outs l) -> ~ In x xs) -> ds = map a_b (filter a_out l) ->
  let t' := alloc_all blank false t (filter o_out os) ds in
  ledger nin t' /\ length (t_slots t') = length (t_slots t) /\
  (forall x i, find x m = Some i -> ~ In x (outs l) -> get t' i = get t i) /\
  (forall a i, In a l -> a_out a = true -> find (a_p a) m = Some i -> ready t' i (a_b a)).
Proof.
  intros INJ LG FT FL ND NX -> t'. pose proof (lk_filter _ _ _ FL) as FF.
  destruct (alloc_all_ok blank nin (filter o_out os) (map a_b (filter a_out l)) t LG) as (G1 & G2 & G3 & G4).
  - apply (lk_nodup m INJ _ _ FF). exact ND.
  - apply Forall_forall. intros o Ho. destruct (lk_in _ _ _ _ FF Ho) as (a & Ha & [_ La]). destruct (FT _ _ La) as [B1 B2]. split; [|exact B1]. apply B2. apply NX. now apply in_map.
  - rewrite map_length. clear -FF. induction FF; cbn [length]; lia.
  - fold t' in G1, G2, G3, G4. split; [exact G1|]. split; [exact G2|]. split.
    + intros x i E NI. apply G3. intros X. apply NI. apply in_map_iff in X as (o & Eo & Ho). destruct (lk_in _ _ _ _ FF Ho) as (a & Ha & [_ La]).
      rewrite Eo in La. rewrite (INJ _ _ _ E La). now apply in_map.
    + intros a i Ha Oa Ea. assert (HF : In a (filter a_out l)) by (apply filter_In; auto). clearbody t'. clear - FF HF Ea G4. revert G4. induction FF as [|b o l' os' [H1 H2] FF IH]; [contradiction|]. cbn [map]. intros G4. inversion G4 as [|? ? ? ? R1 R2]; subst.
      destruct HF as [->|HF]; [replace i with (o_slot o) by congruence; exact R1|auto].
Qed.

Lemma exec_ok nin xs m (t : st) (e : env) tt c' os o : (forall x y i, find x m = Some i -> find y m = Some i -> x = y) -> ledger nin t -> fits nin xs m t ->
  Forall2 (lk m) (c_args c') os -> o_args o = os -> NoDup (outs_of c') -> (forall x, In x (outs_of c') -> ~ In x (ins_of c') /\ ~ In x xs) ->
  (forall x i, find x m = Some i -> ~ In x (outs_of c') -> e x <> None -> okslot t i (e x)) ->
  fills e c' -> regular tt c' -> small_count blank count e c' ->
  (forall n, c_kind c' = KCompress n -> forall a j, os = [a; j] -> o_vt j = TUInt32) ->
  (forall bs, bsok (c_args c') bs -> plan_of false o bs = Go (c_kind c') (map a_b (filter a_out (c_args c')))) ->
  exists e' t', run_call blank dev count e c' = Some e' /\ replay_op blank dev count false t o = Ok t' /\ ledger nin t' /\ length (t_slots t') = length (t_slots t) /\
    mem m t' e' /\ (forall x, e' x <> None <-> In x (outs_of c') \/ e x <> None).
Proof.
  intros INJ LG FT FL EO ND SEP MR FI R SC CV PL.
  assert (KI : forall a, In a (c_args c') -> a_out a = false -> e (a_p a) <> None).
  { intros a Ha Oa. unfold fills in FI. rewrite Forall_forall in FI. destruct (FI a Ha Oa) as [d ->]. discriminate. }
  assert (DJ : forall a b, In a (c_args c') -> In b (c_args c') -> a_out a = true -> a_out b = false -> a_p a <> a_p b).
  { intros a b Ha Hb Ea Eb X. apply (proj1 (SEP (a_p a) (in_outs _ _ Ha Ea))). rewrite X. now apply in_ins. }
  assert (INO : forall a, In a (c_args c') -> a_out a = false -> ~ In (a_p a) (outs_of c')).
  { intros a Ha Oa X. apply (proj1 (SEP _ X)). now apply in_ins. }
  destruct (reads_some blank e (c_args c') KI) as (cs & ER & LR).
  unfold run_call, replay_op. rewrite ER. cbn [bind]. rewrite EO. clear EO.
  rewrite PL.
  2: { unfold bsok. clear - FL KI FI MR INO. unfold fills in FI.
       assert (G : forall l os, Forall2 (lk m) l os -> (forall a, In a l -> In a (c_args c')) -> Forall2 (fun a b => a_out a = false -> b = a_b a) l (map (fun a => s_size (get t (o_slot a))) os)).
       { intros l os' F. induction F as [|a o l os' [H1 H2] F IH]; intros SU; cbn [map]; constructor; [|apply IH; intros; apply SU; now right].
         intros Oa. assert (Ha := SU a (or_introl eq_refl)). pose proof (MR _ _ H2 (INO a Ha Oa) (KI a Ha Oa)) as OK. rewrite Forall_forall in FI. destruct (FI a Ha Oa) as [d Ed]. rewrite Ed in OK. destruct OK as (d' & _ & -> & _). reflexivity. }
       apply G; auto. }
  destruct (prep nin xs m t (c_args c') os _ INJ LG FT FL ND (fun x Hx => proj2 (SEP x Hx)) eq_refl) as (G1 & G2 & G3 & G4).
  set (t1 := alloc_all blank false t (filter o_out os) (map a_b (filter a_out (c_args c')))) in *.
  assert (MR1 : forall x i, find x m = Some i -> ~ In x (outs (c_args c')) -> e x <> None -> okslot t1 i (e x)).
  { intros x i E NI NE. unfold okslot. rewrite (G3 _ _ E NI). now apply MR. }
  rewrite (load_ok blank m t1 e (c_args c') os cs FL); [| |  |exact ER].
  2: { intros a Ha Oa i Ea. apply MR1; auto. }
  2: { intros a Ha Oa i Ea. apply (G4 a i Ha Oa Ea). }
  assert (FB : Forall (fun a => (o_slot a < length (t_slots t1))%nat) os).
  { apply Forall_forall. intros o' Ho. destruct (lk_in _ _ _ _ FL Ho) as (a & Ha & [_ La]). rewrite G2. apply (FT _ _ La). }
  assert (LD : length (dev (c_kind c') cs) = length (c_args c')) by (rewrite DEV; exact LR).
  pose proof (store_ok m INJ (c_args c') os (dev (c_kind c') cs) t1 e FL LD FB ND DJ MR1 G4 KI) as ST.
  pose proof (store_bufs os (dev (c_kind c') cs) t1 FB) as SB.
  pose proof (fun x => writes_known (c_args c') (dev (c_kind c') cs) e x LD KI) as WK.
  set (t2 := store t1 os (dev (c_kind c') cs)) in *. set (e2 := writes e (c_args c') (dev (c_kind c') cs)) in *.
  assert (L2 : length (t_slots t2) = length (t_slots t)) by (destruct SB as (-> & _); exact G2).
  eexists _, _. split; [reflexivity|]. split; [reflexivity|].
  assert (PLAIN : ledger nin t2 /\ length (t_slots t2) = length (t_slots t) /\ mem m t2 e2 /\ (forall x, e2 x <> None <-> In x (outs_of c') \/ e x <> None)).
  { split; [eapply ledger_bufs; eassumption|]. split; [exact L2|]. split; [exact ST|exact WK]. }
  unfold shrunk, resize. unfold small_count in SC. unfold regular in R. fold e2.
  destruct (c_kind c') as [k n|n isz v|n|rp n|n|n bsz bc|vt rp n bsz|vt rp n bsz ex rev|vt n|es|n|n|] eqn:EK; try exact PLAIN.
  destruct (c_args c') as [|s0 [|d [|? ?]]] eqn:EA; try contradiction. destruct PLAIN as (P1 & P2 & P3 & P4).
  inversion FL as [|? o0 ? os0 K0 FL0]; subst. inversion FL0 as [|? o1 ? os1 K1 FL1 EL2]; subst. inversion FL1; subst.
  rewrite (CV n eq_refl o0 o1 eq_refl). destruct R as (_ & [RO RV] & _ & _ & RB). destruct SC as [SC1 SC2]. specialize (SC2 cs ER).
  destruct K1 as [K1 K2].
  assert (CU : u32 (count (KCompress n) cs * tsz TUInt32) = 4 * count (KCompress n) cs).
  { change (tsz TUInt32) with 4. unfold u32. rewrite N.mod_small; lia. }
  rewrite CU. assert (B1 : (o_slot o1 < length (t_slots t2))%nat) by (rewrite L2; apply (FT _ _ K2)).
  assert (E2d : e2 (a_p d) <> None). { apply P4. left. unfold outs_of. rewrite EA. cbn [filter]. destruct (a_out s0); rewrite RO; cbn [map In]; auto. }
  pose proof (P3 _ _ K2 E2d) as OKd.
  assert (SZ : exists cc, e2 (a_p d) = Some (cc, a_b d)).
  { unfold e2. destruct (dev (KCompress n) cs) as [|c1 [|c2 [|? ?]]]; cbn [length] in LD; try discriminate. cbn [writes]. unfold bindv at 1. rewrite N.eqb_refl, RO. eauto. }
  destruct SZ as [cc SZ]. rewrite SZ in *. cbn [okslot] in OKd. destruct OKd as (bd & OD & OS & OA).
  split; [|split; [|split]].
  - eapply ledger_bufs; [|exact P1]. split; [unfold put; cbn [t_slots]; now rewrite set_nth_length|]. split; [reflexivity|]. split; [reflexivity|]. intros j. rewrite get_set by assumption. destruct (Nat.eqb_spec j (o_slot o1)) as [->|]; reflexivity.
  - unfold put. cbn [t_slots]. now rewrite set_nth_length.
  - intros x i Ex NN. unfold bindv in *. unfold okslot. rewrite get_set by assumption. destruct (N.eqb_spec x (a_p d)) as [->|NE].
    + assert (i = o_slot o1) by congruence. subst i. rewrite Nat.eqb_refl. cbn [option_map fst s_data s_size s_alloc]. exists bd. split; [exact OD|]. split; [reflexivity|]. lia.
    + assert (i <> o_slot o1) by (intros ->; apply NE; apply (INJ _ _ _ Ex K2)). rewrite (proj2 (Nat.eqb_neq i (o_slot o1))) by assumption. apply (P3 x i Ex NN).
  - intros x. unfold bindv. destruct (N.eqb_spec x (a_p d)) as [->|NE]; [|apply P4]. cbn [option_map]. split; [|discriminate]. intros _. apply P4. rewrite SZ. discriminate.
Qed.
End Step.
