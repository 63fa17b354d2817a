(** The rendered kernel computes the values of the variables. *)

From Verif Require Import Base Arr_Model Arr_Spec Arr_Proofs Arr_State.

Definition oks (o : option Z) (z : Z) : Prop :=
  match o with Some y => z = y | None => True end.

Lemma Forall2_set : forall s l n v z, Forall2 oks s l -> oks v z ->
  Forall2 oks (set_nth n v s) (set_nth n z l).
Proof.
  intros s l n v z H. revert n. induction H as [|x y s l R H IH]; intros n V.
  - destruct n; constructor.
  - destruct n; cbn [set_nth]; constructor; auto.
Qed.

Lemma Forall2_len : forall s l, Forall2 oks s l -> length s = length l.
Proof. induction 1; cbn; congruence. Qed.

Lemma Forall2_get : forall s l n o, Forall2 oks s l -> nth_error s n = Some o ->
  exists z, nth_error l n = Some z /\ oks o z.
Proof.
  intros s l n o H. revert n. induction H as [|x y s l R H IH]; intros n E.
  - destruct n; discriminate.
  - destruct n; cbn in *; [injection E as <-; eauto|auto].
Qed.

Lemma Forall2_none : forall n l, length l = n -> Forall2 oks (repeat None n) l.
Proof.
  induction n as [|n IH]; intros l L; destruct l; cbn in *; try discriminate; constructor.
  - exact I.
  - apply IH. congruence.
Qed.

Lemma Forall2_rep : forall n o z, oks o z -> Forall2 oks (repeat o n) (repeat z n).
Proof. induction n; intros; cbn; constructor; auto. Qed.

Lemma Forall2_some : forall d, Forall2 oks (map Some d) d.
Proof. induction d; cbn; constructor; auto. reflexivity. Qed.

Lemma arr_ok_def : forall v l, arr_ok v l <-> exists s, v = VArr s /\ Forall2 oks s l.
Proof.
  intros v l. split.
  - destruct v; cbn; try contradiction. eauto.
  - intros (s & -> & H). exact H.
Qed.

Section Run.
Variable t : table.
Variable outs : nat -> bool.
Variable order : list nat.
Variable st0 st : states.
Variable mem0 : nat -> list Z.
Hypothesis W : wf t.
Hypothesis SCH : schedule t order.
Hypothesis IU : init_use t outs order.
Hypothesis PST : process_all t outs order st0 = Some st.
Hypothesis GOOD : forall i, In i order -> val_of t i <> VBad.
Hypothesis INT : forall i, In i order -> (i < length t)%nat.
Hypothesis MEM0 : forall i len, In i order -> nth_error t i = Some (NArray len None) ->
  length (mem0 i) = len.

Definition r0 : nat -> nat := render_arrays t st order (fun i => i).

Definition ua (i : nat) : Prop :=
  exists n, nth_error t i = Some n /\ array_node n /\ ~ storage_node n.

Definition dyn (i : nat) : Prop :=
  exists n, nth_error t i = Some n /\
    match n with NInit _ _ _ | NWrite _ _ _ _ _ _ => True | _ => False end.

Definition plain (i : nat) : Prop :=
  exists n, nth_error t i = Some n /\
    match n with NArray _ None | NEvald _ => True | _ => False end.

Definition live (l : list nat) (i : nat) : Prop := exists y, In y l /\ acc t y i.

Definition own (l : list nat) (o : nat) : Prop :=
  (In o l /\ plain o) \/
  (exists w len a m p v, In w l /\ nth_error t w = Some (NWrite len a o m p v)).

(** *** Registers after the first pass *)

Lemma render_arrays_id : forall l rg i,
  (forall len p, nth_error t i = Some (NArray len (Some p)) -> st p = Conflicted) ->
  render_arrays t st l rg i = rg i.
Proof.
  induction l as [|j l IH]; intros rg i H; cbn [render_arrays]; [reflexivity|].
  destruct (is_arr (nth_error t j)); [|reflexivity].
  rewrite IH by exact H. unfold render_array.
  destruct (nth_error t j) as [n|] eqn:E; [|reflexivity].
  destruct n as [| | |len p| | | |]; try reflexivity.
  destruct p as [p|]; [|reflexivity].
  destruct (conflicted (st p)) eqn:C; [reflexivity|]. cbn [negb].
  apply fupd_neq. intros ->. specialize (H len p E). rewrite H in C. discriminate.
Qed.

Lemma render_arrays_notin : forall l rg i, ~ In i l -> render_arrays t st l rg i = rg i.
Proof.
  induction l as [|j l IH]; intros rg i H; cbn [render_arrays]; [reflexivity|].
  destruct (is_arr (nth_error t j)); [|reflexivity].
  rewrite IH by (intros X; apply H; right; exact X). unfold render_array.
  destruct (nth_error t j) as [n|] eqn:E; [|reflexivity].
  destruct n as [| | |len p| | | |]; try reflexivity.
  destruct p as [p|]; [|reflexivity].
  destruct (conflicted (st p)) eqn:C; [reflexivity|]. cbn [negb].
  apply fupd_neq. intros ->. apply H. left. reflexivity.
Qed.

Lemma r0_id : forall i,
  (forall len p, nth_error t i = Some (NArray len (Some p)) -> st p = Conflicted) ->
  r0 i = i.
Proof. intros i H. unfold r0. apply render_arrays_id. exact H. Qed.

Lemma r0_pred : forall s len p len', In s order -> nth_error t s = Some (NArray len (Some p)) ->
  nth_error t p = Some (NArray len' None) -> conflicted (st p) = false -> r0 s = p.
Proof.
  intros s len p len' IS E EP C. unfold r0.
  destruct SCH as (ND & _ & a & b & EO & FA & FB).
  assert (SA : In s a).
  { rewrite EO in IS. apply in_app_or in IS. destruct IS as [IS|IS]; [exact IS|].
    rewrite Forall_forall in FB. destruct (FB s IS) as (n & N & M).
    rewrite E in N. injection N as <-. contradiction. }
  rewrite EO in ND. rewrite EO.
  assert (G : forall a rg, NoDup (a ++ b) -> Forall (is_store t) a -> In s a -> rg p = p ->
    render_arrays t st (a ++ b) rg s = p).
  { clear a EO FA ND SA. induction a as [|j a IH]; intros rg ND FA SA RP; [contradiction|].
    cbn [app render_arrays]. inversion FA as [|? ? (n & N & M) FA']; subst.
    cbn [app] in ND. inversion ND as [|? ? ND1 ND2]; subst.
    assert (IA : is_arr (nth_error t j) = true).
    { rewrite N. destruct n; try contradiction; reflexivity. }
    rewrite IA. destruct SA as [->|SA].
    - rewrite render_arrays_notin by exact ND1.
      unfold render_array. rewrite E, C. cbn [negb]. rewrite fupd_eq. exact RP.
    - apply IH; auto. unfold render_array. rewrite N.
      destruct n as [| | |ln q| | | |]; try exact RP. destruct q as [q|]; [|exact RP].
      destruct (conflicted (st q)); [exact RP|]. cbn [negb].
      rewrite fupd_neq; [exact RP|]. intros ->. congruence. }
  apply G; auto.
Qed.

(** *** The invariant *)

Record inv (l1 l2 : list nat) (k : kst) : Prop := {
  i_reg : forall i, (In i l1 -> ~ dyn i) -> k_reg k i = r0 i;
  i_own : forall i, In i l1 -> ua i -> own l1 (k_reg k i);
  i_sep : forall i j, In i l1 -> In j l1 -> ua i -> ua j -> i <> j ->
    k_reg k i = k_reg k j -> live l2 i -> live l2 j -> False;
  i_arr : forall i, In i l1 -> ua i -> live l2 i -> arr_ok (val_of t i) (k_mem k (k_reg k i));
  i_num : forall i z, In i l1 -> val_of t i = VNum (Some z) -> k_ev k i = z;
  i_init : forall i len a v, In i l1 -> nth_error t i = Some (NInit len a v) -> k_reg k i = a;
  i_new : forall i len, In i order -> nth_error t i = Some (NArray len None) -> ~ In i l1 ->
    k_mem k i = mem0 i }.

Lemma live_mono : forall i l j, live l j -> live (i :: l) j.
Proof. intros i l j (y & Y & A). exists y. split; [right; exact Y|exact A]. Qed.

Lemma own_mono : forall l i o, own l o -> own (l ++ [i]) o.
Proof.
  intros l i o [[A B]|(w & len & a & m & p & v & A & B)].
  - left. split; [apply in_or_app; auto|exact B].
  - right. exists w, len, a, m, p, v. split; [apply in_or_app; auto|exact B].
Qed.

Lemma acc_ua : forall y i, acc t y i -> ua i.
Proof.
  intros y i (n & E & A). destruct (wf_acc t W _ _ _ E A) as (m & M & L & N).
  exists m. split; [exact M|]. split; [|exact N]. destruct m; cbn in *; auto; lia.
Qed.

Lemma array_not_num : forall i n z, nth_error t i = Some n -> array_node n ->
  val_of t i <> VNum z.
Proof.
  intros i n z E A H. destruct (val_of_node t i n (wf_ops t W) E) as [V _].
  rewrite V in H. destruct n; try contradiction; cbn [node_val] in H; try discriminate.
  - destruct (nth_error (values t) target) as [[]|]; try discriminate.
    destruct (num (values t) value); discriminate.
  - destruct (nth_error (values t) target) as [[]|]; try discriminate.
    destruct (num (values t) mask); try discriminate.
    destruct (num (values t) off); try discriminate.
    destruct (num (values t) value); try discriminate.
    unfold write_val in H. destruct o; [|discriminate].
    destruct (Z.eqb z0 0); [discriminate|]. destruct o0; [|discriminate].
    destruct (_ && _)%bool; discriminate.
Qed.

Lemma num_val : forall i z, num (values t) i = Some z -> (i < length t)%nat -> val_of t i = VNum z.
Proof.
  intros i z H L. unfold num in H. destruct (nth_error (values t) i) as [v|] eqn:E; [|discriminate].
  destruct v; try discriminate. injection H as ->.
  unfold val_of. apply nth_error_nth. exact E.
Qed.

(** A new scalar. *)
Lemma step_num : forall l1 i l2 k z n, inv l1 (i :: l2) k -> ~ In i l1 ->
  nth_error t i = Some n -> ~ array_node n ->
  (forall y, val_of t i = VNum (Some y) -> z = y) ->
  inv (l1 ++ [i]) l2 (set_ev i z k).
Proof.
  intros l1 i l2 k z n H NI E NA V.
  assert (NU : ~ ua i) by (intros (m & M & A & _); congruence).
  assert (IL : forall j, In j (l1 ++ [i]) -> ua j -> In j l1).
  { intros j J U. apply in_app_or in J. destruct J as [J|[<-|[]]]; [exact J|contradiction]. }
  destruct H as [H1 H2 H3 H4 H5 H7 H6]. constructor; cbn [k_reg k_mem k_ev set_ev].
  - intros j J. apply H1. intros X. apply J. apply in_or_app. auto.
  - intros j J U. apply own_mono. apply H2; auto.
  - intros j1 j2 J1 J2 U1 U2 N Q L1 L2. apply (H3 j1 j2); auto using live_mono.
  - intros j J U L. apply H4; auto using live_mono.
  - intros j y J Y. unfold fupd. destruct (j =? i)%nat eqn:Q.
    + apply Nat.eqb_eq in Q. subst j. apply V. exact Y.
    + apply Nat.eqb_neq in Q. apply H5; [|exact Y].
      apply in_app_or in J. destruct J as [J|[J|[]]]; [exact J|congruence].
  - intros j len a v J EJ. apply (H7 j len a v); [|exact EJ].
    apply in_app_or in J. destruct J as [J|[<-|[]]]; [exact J|].
    rewrite E in EJ. injection EJ as ->. exfalso. apply NA. exact I.
  - intros j len J EJ NJ. apply (H6 j len); auto. intros X. apply NJ. apply in_or_app. auto.
Qed.

(** A new array in buffer [b]. *)
Lemma step_put : forall l1 i l2 k k' b, inv l1 (i :: l2) k -> ~ In i l1 -> ua i ->
  (forall j, j <> i -> k_reg k' j = k_reg k j) -> k_reg k' i = b ->
  (forall r, r <> b -> k_mem k' r = k_mem k r) -> k_ev k' = k_ev k ->
  arr_ok (val_of t i) (k_mem k' b) ->
  own (l1 ++ [i]) b ->
  (~ dyn i -> b = r0 i) ->
  (forall len a v, nth_error t i = Some (NInit len a v) -> b = a) ->
  (forall j, In j l1 -> ua j -> k_reg k j = b -> ~ live l2 j) ->
  inv (l1 ++ [i]) l2 k'.
Proof.
  intros l1 i l2 k k' b H NI U R1 R2 M EV OK OW DY IA DEAD.
  destruct H as [H1 H2 H3 H4 H5 H7 H6].
  assert (IL : forall j, In j (l1 ++ [i]) -> j = i \/ (j <> i /\ In j l1)).
  { intros j J. apply in_app_or in J. destruct J as [J|[<-|[]]]; [|auto].
    right. split; [intros ->; contradiction|exact J]. }
  constructor.
  - intros j J. destruct (Nat.eq_dec j i) as [->|N].
    + rewrite R2. apply DY. apply J. apply in_or_app. right. left. reflexivity.
    + rewrite R1 by exact N. apply H1. intros X. apply J. apply in_or_app. auto.
  - intros j J UJ. destruct (IL j J) as [->|[N J']].
    + rewrite R2. exact OW.
    + rewrite R1 by exact N. apply own_mono. apply H2; auto.
  - intros j1 j2 J1 J2 U1 U2 N Q L1 L2.
    destruct (IL _ J1) as [->|[N1 J1']]; destruct (IL _ J2) as [->|[N2 J2']].
    + congruence.
    + rewrite R2, (R1 j2 N2) in Q. apply (DEAD j2); auto.
    + rewrite R2, (R1 j1 N1) in Q. apply (DEAD j1); auto.
    + rewrite (R1 j1 N1), (R1 j2 N2) in Q. apply (H3 j1 j2); auto using live_mono.
  - intros j J UJ L. destruct (IL j J) as [->|[N J']].
    + rewrite R2. exact OK.
    + rewrite R1 by exact N. rewrite M.
      * apply H4; auto using live_mono.
      * intros Q. apply (DEAD j); auto.
  - intros j z J Z. rewrite EV. destruct (IL j J) as [->|[N J']]; [|auto].
    destruct U as (n & N & A & _). exfalso. eapply array_not_num; eauto.
  - intros j len a v J EJ. destruct (IL j J) as [->|[N J']].
    + rewrite R2. eapply IA; eauto.
    + rewrite R1 by exact N. eapply H7; eauto.
  - intros j len J EJ NJ. rewrite M.
    + apply (H6 j len); auto. intros X. apply NJ. apply in_or_app. auto.
    + intros ->. destruct OW as [[OW _]|(w & ln & a & m & p & v & _ & OW)]; [contradiction|].
      destruct (wf_wr t W _ _ _ _ _ _ _ OW) as (_ & b' & B & _). congruence.
Qed.

(** *** Where a write goes *)

Lemma plain_fresh : forall l1 i l2 k, inv l1 (i :: l2) k -> ~ In i l1 -> plain i ->
  forall j, In j l1 -> ua j -> k_reg k j <> i.
Proof.
  intros l1 i l2 k H NI (n & N & P) j J U Q.
  assert (O := i_own _ _ _ H j J U). rewrite Q in O.
  destruct O as [[O _]|(w & len & a & m & p & v & _ & E)]; [contradiction|].
  destruct (wf_wr t W _ _ _ _ _ _ _ E) as (_ & b & B & _).
  rewrite B in N. injection N as <-. contradiction.
Qed.

Lemma storage_fresh : forall l1 i l2 k len a s m o v, inv l1 (i :: l2) k -> ~ In i l1 ->
  nth_error t i = Some (NWrite len a s m o v) ->
  forall j, In j l1 -> ua j -> k_reg k j <> s.
Proof.
  intros l1 i l2 k len a s m o v H NI E j J U Q.
  assert (O := i_own _ _ _ H j J U). rewrite Q in O.
  destruct O as [[_ (n & N & P)]|(w & len' & a' & m' & p' & v' & IW & E')].
  - destruct (wf_wr t W _ _ _ _ _ _ _ E) as (_ & b & B & _).
    rewrite B in N. injection N as <-. contradiction.
  - apply NI. assert (w = i); [|congruence]. eapply (wf_one t W); eauto.
Qed.

(** When the target is conflicted, the storage is a buffer of its own, or it
    is the buffer of a target that is not used any more. *)
Lemma copy_target : forall l1 i l2 len a s m o v, order = l1 ++ i :: l2 ->
  nth_error t i = Some (NWrite len a s m o v) -> st a = Conflicted ->
  r0 s = s \/
  (exists ln a0 vv, nth_error t a = Some (NInit ln a0 vv) /\
     (exists l', nth_error t a0 = Some (NArray l' None)) /\
     r0 s = a0 /\ ~ live l2 a).
Proof.
  intros l1 i l2 len a s m o v EO E C.
  destruct (wf_wr t W _ _ _ _ _ _ _ E) as (_ & b & B & BU).
  assert (AI : acc t i a) by (eexists; split; [exact E|reflexivity]).
  assert (A1 := order_before _ _ SCH _ _ _ _ EO AI).
  assert (AO : In a order) by (rewrite EO; apply in_or_app; auto).
  destruct (acc_ua _ _ AI) as (n & N & AN & NS).
  destruct n as [| | |ln q|d|ln a0 vv|ln a1 s1 m1 o1 v1|]; try contradiction.
  - rewrite (buffer_self _ _ _ N I) in BU. injection BU as <-.
    left. apply r0_id. intros len' p X. congruence.
  - rewrite (buffer_self _ _ _ N I) in BU. injection BU as <-.
    left. apply r0_id. intros len' p X. congruence.
  - destruct (IU a ln a0 vv AO N) as ((l' & P) & U2 & U3).
    rewrite (buffer_init _ _ _ _ _ _ N P) in BU. injection BU as <-.
    destruct U3 as [U3|U3].
    + left. apply r0_id. intros len' p X. assert (p = a0) by congruence. subst p.
      destruct (in_split _ _ AO) as (x & y & XY).
      assert (CA : chg t a a0) by (eexists; split; [exact N|reflexivity]).
      assert (ND := proj1 SCH). assert (ND' := ND). rewrite XY in ND'.
      destruct (nodup_split _ _ _ _ ND') as (D1 & D2 & D3).
      apply (conflict_output t outs W x a y st0 st a0); auto.
      * rewrite <- XY. exact PST.
      * assert (I0 : In a0 x).
        { apply (order_before _ _ SCH x a y); [exact XY|]. apply chg_acc. exact CA. }
        intros [Q|Q]; [subst a0; contradiction|]. apply (D3 a0 I0 Q).
    + assert (NL : ~ live l2 a).
      { intros (y & Y & (ny & NY & AY)).
        apply (U3 l1 i l2 _ EO E eq_refl y ny Y NY AY). }
      destruct (conflicted (st a0)) eqn:CC.
      * left. apply r0_id. intros len' p X. assert (p = a0) by congruence. subst p.
        destruct (st a0); try discriminate. reflexivity.
      * right. exists ln, a0, vv. split; [exact N|]. split; [eauto|]. split; [|exact NL].
        eapply r0_pred; eauto.
        destruct SCH as (_ & D & _).
        assert (In s l1) by (apply (D l1 i l2 _ s EO E); cbn; auto).
        rewrite EO. apply in_or_app. auto.
  - rewrite (buffer_write _ _ _ _ _ _ _ _ W N) in BU. injection BU as <-.
    left. apply r0_id. intros len' p X. assert (p = s1) by congruence. subst p.
    rewrite (state_storage t outs W order SCH _ _ _ _ _ _ _ _ _ PST AO N). exact C.
Qed.

Lemma inplace_dead : forall l1 i l2 a, order = l1 ++ i :: l2 -> chg t i a ->
  st a <> Conflicted -> ~ live l2 a.
Proof.
  intros l1 i l2 a EO C NC (y & Y & A). apply NC.
  assert (A1 := order_before _ _ SCH _ _ _ _ EO (chg_acc _ _ _ C)).
  assert (ND := proj1 SCH). rewrite EO in ND.
  destruct (nodup_split _ _ _ _ ND) as (D1 & D2 & D3).
  apply (conflict_found t outs W l1 i l2 st0 st a y); auto.
  - rewrite <- EO. exact PST.
  - intros [Q|Q]; [subst; contradiction|]. apply (D3 a A1 Q).
Qed.

(** Sharing: whoever has the buffer of the operand of [i] is not used later. *)
Lemma share_dead : forall l1 i l2 k a, inv l1 (i :: l2) k -> acc t i a -> In a l1 ->
  ~ live l2 a ->
  forall j, In j l1 -> ua j -> k_reg k j = k_reg k a -> ~ live l2 j.
Proof.
  intros l1 i l2 k a H A IA NL j J U Q L.
  destruct (Nat.eq_dec j a) as [->|N]; [contradiction|].
  apply (i_sep _ _ _ H j a); auto using live_mono.
  - eapply acc_ua; eauto.
  - exists i. split; [left; reflexivity|exact A].
Qed.

(** Register and state of an initialized array. *)
Lemma nums_map : forall l1 l2 k args l, inv l1 l2 k ->
  (forall j, In j args -> In j l1 /\ (j < length t)%nat) ->
  nums (values t) args = Some (Some l) -> map (k_ev k) args = l.
Proof.
  intros l1 l2 k args l H. revert l. induction args as [|x args IH]; intros l A N; cbn [nums map] in *.
  - injection N as <-. reflexivity.
  - destruct (num (values t) x) as [[z|]|] eqn:E; try discriminate;
      destruct (nums (values t) args) as [[r|]|] eqn:E2; try discriminate.
    injection N as <-. destruct (A x (or_introl eq_refl)) as [X1 X2].
    rewrite (i_num _ _ _ H x z X1 (num_val _ _ E X2)).
    f_equal. apply IH; [|reflexivity]. intros j J. apply A. right. exact J.
Qed.

(** *** One variable *)

Lemma step : forall l1 i l2 k, order = l1 ++ i :: l2 -> inv l1 (i :: l2) k ->
  exists k', render_op t st i k = Some k' /\ inv (l1 ++ [i]) l2 k' /\
    (ua i -> arr_ok (val_of t i) (k_mem k' (k_reg k' i))) /\
    k_outa k' = k_outa k /\ k_outs k' = k_outs k.
Proof.
  intros l1 i l2 k EO H.
  assert (ND := proj1 SCH). rewrite EO in ND.
  destruct (nodup_split _ _ _ _ ND) as (D1 & D2 & D3).
  assert (IO : In i order) by (rewrite EO; apply in_or_app; right; left; reflexivity).
  assert (L := INT i IO).
  destruct (nth_error t i) as [n|] eqn:E; [|apply nth_error_None in E; lia].
  assert (OPS : forall j, In j (operands n) -> In j l1 /\ (j < length t)%nat).
  { intros j J. destruct SCH as (_ & D & _). split; [eapply D; eauto|].
    assert (j < i)%nat by (eapply (wf_ops t W); eauto). lia. }
  destruct (val_of_node t i n (wf_ops t W) E) as [V _].
  assert (GI := GOOD i IO). rewrite V in GI.
  assert (GV : forall j, In j (operands n) -> nth_error (values t) j = Some (val_of t j)).
  { intros j J. destruct (OPS j J) as [_ LJ].
    destruct (nth_error t j) as [nj|] eqn:EJ; [|apply nth_error_None in EJ; lia].
    apply (val_of_node t j nj (wf_ops t W) EJ). }
  assert (NUM : forall z, ~ array_node n ->
    (forall y, val_of t i = VNum (Some y) -> z = y) ->
    exists k', Some (set_ev i z k) = Some k' /\ inv (l1 ++ [i]) l2 k' /\
      (ua i -> arr_ok (val_of t i) (k_mem k' (k_reg k' i))) /\
      k_outa k' = k_outa k /\ k_outs k' = k_outs k).
  { intros z NA Z. exists (set_ev i z k). split; [reflexivity|]. split; [|split].
    - eapply step_num; eauto.
    - intros (m & M & A & _). congruence.
    - split; reflexivity. }
  assert (PUT : forall k' b, ua i ->
    (forall j, j <> i -> k_reg k' j = k_reg k j) -> k_reg k' i = b ->
    (forall r, r <> b -> k_mem k' r = k_mem k r) -> k_ev k' = k_ev k ->
    arr_ok (val_of t i) (k_mem k' b) -> own (l1 ++ [i]) b ->
    (~ dyn i -> b = r0 i) ->
    (forall len a v, nth_error t i = Some (NInit len a v) -> b = a) ->
    (forall j, In j l1 -> ua j -> k_reg k j = b -> ~ live l2 j) ->
    k_outa k' = k_outa k -> k_outs k' = k_outs k ->
    exists k2, Some k' = Some k2 /\ inv (l1 ++ [i]) l2 k2 /\
      (ua i -> arr_ok (val_of t i) (k_mem k2 (k_reg k2 i))) /\
      k_outa k2 = k_outa k /\ k_outs k2 = k_outs k).
  { intros k' b U R1 R2 M EV OK OW DY IA DEAD O1 O2. exists k'. split; [reflexivity|].
    split; [|split].
    - eapply step_put; eauto.
    - intros _. rewrite R2. exact OK.
    - split; assumption. }
  unfold render_op. rewrite E.
  destruct n as [z| |args f|len q|d|len a v|len a s m o v|a m o]; cbn [node_val operands] in *.
  - (* literal *)
    apply NUM; [cbn; auto|]. intros y Y. congruence.
  - (* undefined *)
    apply NUM; [cbn; auto|]. intros y Y. congruence.
  - (* scalar operation *)
    apply NUM; [cbn; auto|]. intros y Y. rewrite V in Y.
    destruct (nums (values t) args) as [[l|]|] eqn:NA; try discriminate.
    injection Y as <-. f_equal. eapply nums_map; eauto.
  - destruct q as [q|].
    + (* storage *)
      exists k. split; [reflexivity|].
      assert (NU : ~ ua i).
      { intros (x & X & _ & S). rewrite E in X. injection X as <-. apply S. exact I. }
      split; [|split; [intros; contradiction|auto]].
      destruct H as [H1 H2 H3 H4 H5 H7 H6].
      assert (IL : forall j, In j (l1 ++ [i]) -> ua j -> In j l1).
      { intros j J U. apply in_app_or in J. destruct J as [J|[<-|[]]]; [exact J|contradiction]. }
      constructor.
      * intros j J. apply H1. intros X. apply J. apply in_or_app. auto.
      * intros j J U. apply own_mono. apply H2; auto.
      * intros j1 j2 J1 J2 U1 U2 N Q L1 L2. apply (H3 j1 j2); auto using live_mono.
      * intros j J U LJ. apply H4; auto using live_mono.
      * intros j z J Z. apply in_app_or in J. destruct J as [J|[<-|[]]]; [auto|].
        exfalso. eapply array_not_num; eauto. exact I.
      * intros j len' a v J EJ. apply (H7 j len' a v); [|exact EJ].
        apply in_app_or in J. destruct J as [J|[<-|[]]]; [exact J|congruence].
      * intros j len' J EJ NJ. apply (H6 j len'); auto. intros X. apply NJ. apply in_or_app. auto.
    + (* fresh array *)
      assert (P : plain i) by (eexists; split; [exact E|exact I]).
      assert (RI : k_reg k i = i).
      { rewrite (i_reg _ _ _ H i) by (intros; contradiction). apply r0_id. intros; congruence. }
      apply (PUT k i); auto.
      * exists (NArray len None). split; [exact E|]. split; [exact I|cbn; auto].
      * rewrite V. rewrite (i_new _ _ _ H i len IO E D1). cbn.
        apply Forall2_none. apply MEM0; auto.
      * left. split; [apply in_or_app; right; left; reflexivity|exact P].
      * intros _. symmetry. apply r0_id. intros; congruence.
      * intros; congruence.
      * intros j J U Q. exfalso. eapply plain_fresh; eauto.
  - (* evaluated array *)
    assert (P : plain i) by (eexists; split; [exact E|exact I]).
    assert (RI : k_reg k i = i).
    { rewrite (i_reg _ _ _ H i) by (intros; contradiction). apply r0_id. intros; congruence. }
    apply (PUT (set_mem (k_reg k i) d k) i); auto.
    + exists (NEvald d). split; [exact E|]. split; [exact I|cbn; auto].
    + intros r R. cbn. rewrite RI. apply fupd_neq. congruence.
    + cbn. rewrite RI, fupd_eq, V. apply Forall2_some.
    + left. split; [apply in_or_app; right; left; reflexivity|exact P].
    + intros _. symmetry. apply r0_id. intros; congruence.
    + intros; congruence.
    + intros j J U Q. exfalso. eapply plain_fresh; eauto.
  - (* init *)
    destruct (IU i len a v IO E) as ((l' & P) & U2 & _).
    assert (AI : acc t i a) by (eexists; split; [exact E|reflexivity]).
    destruct (OPS a (or_introl eq_refl)) as [A1 _].
    assert (RA : k_reg k a = a).
    { rewrite (i_reg _ _ _ H a).
      - apply r0_id. intros; congruence.
      - intros _ (x & X & Y). rewrite P in X. injection X as <-. contradiction. }
    assert (NL : ~ live l2 a).
    { intros (y & Y & (ny & NY & AY)).
      assert (y = i); [|subst; contradiction].
      apply (U2 y ny); auto. rewrite EO. apply in_or_app. right. right. exact Y. }
    rewrite (GV a) in GI, V by (cbn; auto).
    destruct (val_of t a) as [| la |] eqn:VA; try congruence.
    destruct (num (values t) v) as [z|] eqn:NV; [|congruence].
    destruct (OPS v (or_intror (or_introl eq_refl))) as [V1 V2].
    cbv zeta. cbn [k_reg set_reg]. rewrite fupd_eq.
    apply (PUT _ (k_reg k a)); auto.
    + eexists. split; [exact E|]. split; [exact I|cbn; auto].
    + intros j J. cbn. apply fupd_neq. congruence.
    + cbn. apply fupd_eq.
    + intros r R. cbn. apply fupd_neq. congruence.
    + cbn. rewrite fupd_eq, V. cbn. apply Forall2_rep. destruct z as [z|]; [|exact I].
      cbn. apply (i_num _ _ _ H v z V1). apply num_val; auto.
    + rewrite RA. left. split; [apply in_or_app; auto|]. eexists. split; [exact P|exact I].
    + intros ND'. exfalso. apply ND'. eexists. split; [exact E|exact I].
    + intros len0 a0 v0 E0. congruence.
    + intros j J U Q. eapply share_dead; eauto.
  - (* write *)
    assert (AI : acc t i a) by (eexists; split; [exact E|reflexivity]).
    assert (CI : chg t i a) by (eexists; split; [exact E|reflexivity]).
    destruct (OPS a (or_introl eq_refl)) as [A1 _].
    assert (UA := acc_ua _ _ AI).
    assert (UI : ua i) by (eexists; split; [exact E|]; split; [exact I|cbn; auto]).
    assert (OKA : arr_ok (val_of t a) (k_mem k (k_reg k a))).
    { apply (i_arr _ _ _ H a); auto. exists i. split; [left; reflexivity|exact AI]. }
    rewrite (GV a) in GI, V by (cbn; auto).
    destruct (val_of t a) as [| la |] eqn:VA; try congruence.
    destruct (num (values t) m) as [vm|] eqn:NM; [|congruence].
    destruct (num (values t) o) as [vo|] eqn:NO; [|congruence].
    destruct (num (values t) v) as [vv|] eqn:NV; [|congruence].
    assert (I2 : In m [a; s; m; o; v]) by (cbn; auto 10).
    assert (I3 : In o [a; s; m; o; v]) by (cbn; auto 10).
    assert (I4 : In v [a; s; m; o; v]) by (cbn; auto 10).
    destruct (OPS m I2) as [M1 M2]. destruct (OPS o I3) as [O1 O2]. destruct (OPS v I4) as [V1 V2].
    set (copy := conflicted (st a)).
    set (b := if copy then k_reg k s else k_reg k a).
    assert (BB : (own (l1 ++ [i]) b) /\
                 (forall j, In j l1 -> ua j -> k_reg k j = b -> ~ live l2 j)).
    { unfold b, copy. destruct (conflicted (st a)) eqn:C.
      - assert (CA : st a = Conflicted) by (destruct (st a); try discriminate; reflexivity).
        assert (RS : k_reg k s = r0 s).
        { apply (i_reg _ _ _ H). intros _ (x & X & Y).
          destruct (wf_wr t W _ _ _ _ _ _ _ E) as (_ & b' & B & _).
          rewrite B in X. injection X as <-. contradiction. }
        rewrite RS.
        destruct (copy_target _ _ _ _ _ _ _ _ _ EO E CA) as [Q|(ln & a0 & vv' & N & (l' & P) & Q & NL)].
        + rewrite Q. split.
          * right. exists i, len, a, m, o, v. split; [|exact E].
            apply in_or_app. right. left. reflexivity.
          * intros j J U R. exfalso. eapply storage_fresh; eauto.
        + rewrite Q.
          assert (AO : In a order) by (rewrite EO; apply in_or_app; auto).
          assert (A0 : In a0 l1).
          { destruct (in_split _ _ A1) as (x & y & XY).
            assert (In a0 x).
            { apply (order_before t order SCH x a (y ++ i :: l2)).
              - rewrite EO, XY, <- app_assoc. reflexivity.
              - eexists. split; [exact N|reflexivity]. }
            rewrite XY. apply in_or_app. auto. }
          split.
          * apply own_mono. left. split; [exact A0|]. eexists. split; [exact P|exact I].
          * (* the buffer of [a0] is that of [a] *)
            intros j J U R LJ.
            destruct (Nat.eq_dec j a) as [->|NJ]; [contradiction|].
            apply (i_sep _ _ _ H j a); auto using live_mono.
            -- rewrite R. symmetry. eapply (i_init _ _ _ H); eauto.
            -- exists i. split; [left; reflexivity|exact AI].
      - assert (NC : st a <> Conflicted) by (intros Q; rewrite Q in C; discriminate).
        assert (NL := inplace_dead _ _ _ _ EO CI NC).
        split; [apply own_mono; apply (i_own _ _ _ H); auto|].
        intros j J U Q. eapply share_dead; eauto. }
    destruct BB as [OWB DEADB].
    set (content := k_mem k (k_reg k a)).
    set (k1 := set_reg i b (if copy then set_mem b content k else k)).
    cbv zeta. fold copy. fold b. fold content. fold k1.
    assert (EV1 : k_ev k1 = k_ev k) by (unfold k1; destruct copy; reflexivity).
    assert (RG1 : forall j, j <> i -> k_reg k1 j = k_reg k j).
    { intros j J. unfold k1; destruct copy; cbn; apply fupd_neq; congruence. }
    assert (RG2 : k_reg k1 i = b) by (unfold k1; destruct copy; cbn; apply fupd_eq).
    assert (MM1 : k_mem k1 b = content).
    { unfold k1, b, content. destruct copy; [cbn; apply fupd_eq|reflexivity]. }
    assert (MM2 : forall r, r <> b -> k_mem k1 r = k_mem k r).
    { intros r R. unfold k1. destruct copy; cbn; [apply fupd_neq; congruence|reflexivity]. }
    assert (OA1 : k_outa k1 = k_outa k) by (unfold k1; destruct copy; reflexivity).
    assert (OS1 : k_outs k1 = k_outs k) by (unfold k1; destruct copy; reflexivity).
    assert (DYN : dyn i) by (eexists; split; [exact E|exact I]).
    rewrite EV1, MM1. clearbody k1.
    unfold write_val in GI, V.
    destruct vm as [zm|]; [|congruence].
    rewrite (i_num _ _ _ H m zm M1 (num_val _ _ NM M2)).
    destruct (Z.eqb zm 0).
    + apply (PUT k1 b); auto.
      * rewrite V, MM1. exact OKA.
      * intros; contradiction.
      * intros; congruence.
    + destruct vo as [zo|]; [|congruence].
      rewrite (i_num _ _ _ H o zo O1 (num_val _ _ NO O2)).
      destruct (0 <=? zo)%Z eqn:Z0; [|exfalso; apply GI; reflexivity].
      destruct (zo <? Z.of_nat (length la))%Z eqn:Z1; [|exfalso; apply GI; reflexivity].
      cbn [andb] in *. apply Z.leb_le in Z0. apply Z.ltb_lt in Z1.
      assert (LL := Forall2_len _ _ OKA). fold content in LL.
      assert (Z2 : (Z.to_nat zo <? length content)%nat = true) by (apply Nat.ltb_lt; lia).
      rewrite Z2.
      apply (PUT _ b); auto.
      * intros r R. cbn. rewrite fupd_neq by congruence. auto.
      * cbn. rewrite fupd_eq, V. cbn. apply Forall2_set; [exact OKA|].
        destruct vv as [zv|]; [|exact I]. cbn.
        apply (i_num _ _ _ H v zv V1). apply num_val; auto.
      * intros; contradiction.
      * intros; congruence.
  - (* read *)
    assert (AI : acc t i a) by (eexists; split; [exact E|reflexivity]).
    destruct (OPS a (or_introl eq_refl)) as [A1 _].
    assert (UA := acc_ua _ _ AI).
    assert (OKA : arr_ok (val_of t a) (k_mem k (k_reg k a))).
    { apply (i_arr _ _ _ H a); auto. exists i. split; [left; reflexivity|exact AI]. }
    rewrite (GV a) in GI, V by (cbn; auto).
    destruct (val_of t a) as [| la |] eqn:VA; try congruence.
    destruct (num (values t) m) as [vm|] eqn:NM; [|congruence].
    destruct (num (values t) o) as [vo|] eqn:NO; [|congruence].
    assert (I2 : In m [a; m; o]) by (cbn; auto 10).
    assert (I3 : In o [a; m; o]) by (cbn; auto 10).
    destruct (OPS m I2) as [M1 M2]. destruct (OPS o I3) as [O1 O2].
    unfold read_val in GI, V.
    destruct vm as [zm|]; [|congruence].
    rewrite (i_num _ _ _ H m zm M1 (num_val _ _ NM M2)).
    destruct (Z.eqb zm 0).
    + apply NUM; [cbn; auto|]. intros y Y. congruence.
    + destruct vo as [zo|]; [|congruence].
      rewrite (i_num _ _ _ H o zo O1 (num_val _ _ NO O2)).
      destruct (0 <=? zo)%Z eqn:Z0; [|exfalso; apply GI; reflexivity].
      destruct (nth_error la (Z.to_nat zo)) as [oz|] eqn:NZ; [|exfalso; apply GI; reflexivity].
      destruct (Forall2_get _ _ _ _ OKA NZ) as (z & ZE & ZO). rewrite ZE.
      apply NUM; [cbn; auto|]. intros y Y. rewrite V in Y. injection Y as ->. exact ZO.
Qed.

(** *** The whole kernel *)

Definition outputs (l1 : list nat) (k : kst) : Prop :=
  (forall i l, In (i, l) (k_outa k) -> outs i = true /\ In i l1 /\ arr_ok (val_of t i) l) /\
  (forall i z, In (i, z) (k_outs k) -> outs i = true /\ In i l1 /\ num_ok (val_of t i) z) /\
  (forall i s, In i l1 -> outs i = true -> val_of t i = VArr s ->
     exists l, In (i, l) (k_outa k)) /\
  (forall i z, In i l1 -> outs i = true -> val_of t i = VNum z ->
     exists y, In (i, y) (k_outs k)).

Hypothesis OUT : forall i n, outs i = true -> nth_error t i = Some n -> ~ storage_node n.

Lemma scalar_val : forall i n, In i order -> nth_error t i = Some n -> ~ array_node n ->
  exists z, val_of t i = VNum z.
Proof.
  intros i n IO E NA. destruct (val_of_node t i n (wf_ops t W) E) as [V _].
  assert (G := GOOD i IO). rewrite V in *.
  destruct n; cbn [node_val array_node] in *; try (exfalso; apply NA; exact I); eauto.
  - destruct (nums (values t) args) as [[l|]|]; eauto. congruence.
  - destruct (nth_error (values t) source) as [[]|]; try congruence.
    destruct (num (values t) mask) as [[m|]|]; try congruence.
    + destruct (num (values t) off) as [[o|]|]; try congruence; unfold read_val in *.
      * destruct (Z.eqb m 0); [eauto|]. destruct (0 <=? o)%Z; [|congruence].
        destruct (nth_error l (Z.to_nat o)); [eauto|congruence].
      * destruct (Z.eqb m 0); [eauto|congruence].
    + destruct (num (values t) off); unfold read_val in *; congruence.
Qed.

Lemma outputs_step : forall l1 i l2 k, order = l1 ++ i :: l2 -> inv (l1 ++ [i]) l2 k ->
  (ua i -> arr_ok (val_of t i) (k_mem k (k_reg k i))) ->
  outputs l1 k -> outputs (l1 ++ [i]) (store_out t outs i k).
Proof.
  intros l1 i l2 k EO IV A (H1 & H2 & H3 & H4).
  assert (IO : In i order) by (rewrite EO; apply in_or_app; right; left; reflexivity).
  assert (L := INT i IO).
  destruct (nth_error t i) as [n|] eqn:E; [|apply nth_error_None in E; lia].
  assert (II : In i (l1 ++ [i])) by (apply in_or_app; right; left; reflexivity).
  assert (H1' : forall j l, In (j, l) (k_outa k) -> outs j = true /\ In j (l1 ++ [i]) /\ arr_ok (val_of t j) l).
  { intros j l J. destruct (H1 j l J) as (X & Y & Z). split; [exact X|]. split; [|exact Z].
    apply in_or_app. auto. }
  assert (H2' : forall j z, In (j, z) (k_outs k) -> outs j = true /\ In j (l1 ++ [i]) /\ num_ok (val_of t j) z).
  { intros j l J. destruct (H2 j l J) as (X & Y & Z). split; [exact X|]. split; [|exact Z].
    apply in_or_app. auto. }
  assert (CASE : forall j, In j (l1 ++ [i]) -> In j l1 \/ j = i).
  { intros j J. apply in_app_or in J. destruct J as [J|[J|[]]]; auto. }
  unfold store_out. destruct (outs i) eqn:O.
  2:{ split; [exact H1'|]. split; [exact H2'|]. split.
      - intros j s J OJ V. destruct (CASE j J) as [J'| ->]; [eauto|congruence].
      - intros j z J OJ V. destruct (CASE j J) as [J'| ->]; [eauto|congruence]. }
  rewrite E. destruct (alen n =? 0)%nat eqn:AL.
  - apply Nat.eqb_eq in AL.
    assert (NA : ~ array_node n).
    { intros X. assert (P := wf_pos t W i n E X). lia. }
    destruct (scalar_val i n IO E NA) as (z & V).
    split; [exact H1'|]. split; [|split]; cbn [k_outa k_outs].
    + intros j y J. apply in_app_or in J. destruct J as [J|[J|[]]]; [auto|].
      injection J as <- <-. split; [exact O|]. split; [exact II|]. rewrite V. cbn.
      destruct z as [z|]; [|exact I]. apply (i_num _ _ _ IV i z II V).
    + intros j s J OJ VJ. destruct (CASE j J) as [J'| ->]; [eauto|congruence].
    + intros j y J OJ VJ. destruct (CASE j J) as [J'| ->].
      * destruct (H4 j y J' OJ VJ) as (q & Q). exists q. apply in_or_app. auto.
      * eexists. apply in_or_app. right. left. reflexivity.
  - apply Nat.eqb_neq in AL.
    assert (NA : array_node n) by (destruct n; cbn in *; auto).
    split; [|split; [exact H2'|split]]; cbn [k_outa k_outs].
    + intros j y J. apply in_app_or in J. destruct J as [J|[J|[]]]; [auto|].
      injection J as <- <-. split; [exact O|]. split; [exact II|]. apply A.
      exists n. split; [exact E|]. split; [exact NA|]. apply (OUT i n O E).
    + intros j s J OJ VJ. destruct (CASE j J) as [J'| ->].
      * destruct (H3 j s J' OJ VJ) as (q & Q). exists q. apply in_or_app. auto.
      * eexists. apply in_or_app. right. left. reflexivity.
    + intros j z J OJ VJ. destruct (CASE j J) as [J'| ->]; [eauto|].
      exfalso. eapply array_not_num; eauto.
Qed.

Lemma inv_store : forall l1 l2 i k, inv l1 l2 k -> inv l1 l2 (store_out t outs i k).
Proof.
  intros l1 l2 i k [H1 H2 H3 H4 H5 H6 H7]. unfold store_out.
  destruct (outs i); [|constructor; assumption].
  destruct (nth_error t i); [|constructor; assumption].
  destruct (alen n =? 0)%nat; constructor; assumption.
Qed.

Lemma run_all : forall l2 l1 k, order = l1 ++ l2 -> inv l1 l2 k -> outputs l1 k ->
  exists k', render_all t st outs l2 k = Some k' /\ inv order [] k' /\ outputs order k'.
Proof.
  induction l2 as [|i l2 IH]; intros l1 k EO IV OP; cbn [render_all].
  - exists k. rewrite app_nil_r in EO. subst l1. auto.
  - destruct (step l1 i l2 k EO IV) as (k' & E & IV' & A & O1 & O2). rewrite E.
    apply (IH (l1 ++ [i])).
    + rewrite <- app_assoc. exact EO.
    + apply inv_store. exact IV'.
    + apply (outputs_step l1 i l2); auto.
      destruct OP as (P1 & P2 & P3 & P4). unfold outputs. rewrite O1, O2. auto.
Qed.

Lemma run_start : forall ev0,
  inv [] order {| k_reg := r0; k_mem := mem0; k_ev := ev0; k_outa := []; k_outs := [] |}.
Proof.
  intros ev0. constructor; cbn; intros; try contradiction; reflexivity.
Qed.

End Run.

Theorem kernel_values : forall calls t outs order st0 mem0 ev0,
  api_all [] calls = Some t -> eval_use [] calls ->
  schedule t order -> init_use t outs order ->
  (forall i, In i order -> val_of t i <> VBad) ->
  (forall i n, outs i = true -> nth_error t i = Some n ->
     match n with NArray _ (Some _) => False | _ => True end) ->
  (forall i d, In i order -> nth_error t i = Some (NEvald d) -> st0 i <> Invalid) ->
  (forall i len, In i order -> nth_error t i = Some (NArray len None) ->
     length (mem0 i) = len) ->
  exists k, kernel t outs order st0 mem0 ev0 = Some k /\
    (forall i l, In (i, l) (k_outa k) -> outs i = true /\ In i order /\ arr_ok (val_of t i) l) /\
    (forall i z, In (i, z) (k_outs k) -> outs i = true /\ In i order /\ num_ok (val_of t i) z) /\
    (forall i s, In i order -> outs i = true -> val_of t i = VArr s ->
       exists l, In (i, l) (k_outa k)) /\
    (forall i z, In i order -> outs i = true -> val_of t i = VNum z ->
       exists y, In (i, y) (k_outs k)).
Proof.
  intros calls t outs order st0 mem0 ev0 HA HE SCH IU GOOD OUT S0 M0.
  assert (W := wf_api_all _ _ _ wf_nil HA HE).
  assert (INT : forall i, In i order -> (i < length t)%nat).
  { intros i I. destruct (Nat.lt_ge_cases i (length t)) as [L|L]; [exact L|].
    exfalso. apply (GOOD i I). unfold val_of. apply nth_overflow. rewrite values_length. exact L. }
  destruct (process_defined t outs W order SCH st0 S0) as (st & PST).
  unfold kernel. rewrite PST.
  assert (OUT' : forall i n, outs i = true -> nth_error t i = Some n -> ~ storage_node n).
  { intros i n O E. specialize (OUT i n O E). destruct n; cbn; auto. destruct pred; auto. }
  destruct (run_all t outs order st0 st mem0 W SCH IU PST GOOD INT M0 OUT' order [] _ eq_refl
              (run_start t order st mem0 ev0)) as (k & E & _ & O).
  - split; [|split; [|split]]; cbn; intros; contradiction.
  - exists k. split; [exact E|exact O].
Qed.
