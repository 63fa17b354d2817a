(** The invariant of scatter programs, evaluation, and changes of the graph. *)
From Verif Require Import Base Sct_Model Sct_Spec Sct_Proofs.
#[local] Ltac Zify.zify_post_hook ::= idtac.

Section Inv.
Context {V : Type}.
Variable veq : V -> V -> bool.
Variable zero : V.
Variable red : rop -> V -> V -> V.
Variable to_idx : V -> nat.
Variable truth : V -> bool.
Variable llvm : bool.
Variable sh : nat -> list (@upd V) -> list (@upd V).
Variable own : nat -> @upd V -> bool.
Hypothesis sh_perm : forall e l, Permutation (sh e l) l.
Hypothesis red_comm : forall o, o <> RId -> forall a x y, red o (red o a x) y = red o (red o a y) x.

Notation var := (@var V). Notation mst := (@mst V). Notation arr := (@arr V).
Notation getv := (@getv V zero).
Notation value := (@value V zero to_idx truth).
Notation updates := (@updates V zero to_idx truth).
Notation effect := (@effect V zero to_idx truth own).
Notation eval_roots := (@eval_roots V zero red to_idx truth sh own).
Notation internal := (@internal V zero).
Notation elided := (@elided V zero).

Definition under (st : mst) (h : nat) : list nat := below zero (length (vars st)) (vars st) h.
Definition on (st : mst) (h : nat) : list scat := filter (fun s => Nat.eqb (s_t s) h) (pend st).
Definition cur (st : mst) (h k : nat) : V :=
  match v_k (getv (vars st) h) with
  | KMem b => fold_left (apply red) (flat_map (updates st) (on st h)) (bufs st) b k
  | _ => value st h k
  end.
Definition uniform (l : list scat) : Prop := (exists s, l = [s]) \/ exists o, o <> RId /\ Forall (fun s => s_op s = o) l.
Definition tidy (st : mst) (h : nat) : Prop := forall d, In d (under st h) -> dirty st d = false.
Definition paired (l : list scat) : Prop := forall s, In s l -> s_x s = true -> exists s', In s' l /\ s_c s' = true.
Record Slot (st : mst) (t : option (rop * bool)) (h : nat) : Prop := {
  sl_lt : h < length (vars st);
  sl_tidy : tidy st h;
  sl_uni : uniform (on st h);
  sl_some : on st h <> [] -> t <> None;
  sl_op : forall o e, t = Some (o, e) -> o <> RId -> Forall (fun s => s_op s = o /\ s_x s = e) (on st h);
  sl_ex : forall s, In s (on st h) -> s_x s = true -> v_ex (getv (vars st) h) <> None;
  sl_pair : paired (on st h) }.
Definition Ex (st : mst) (h : nat) : Prop :=
  forall o, v_ex (getv (vars st) h) = Some o -> exists s, In s (on st h) /\ s_c s = true /\ s_op s = o.
Definition Val (st : mst) (h : nat) (a : arr) : Prop := a_n a = v_n (getv (vars st) h) /\ forall k, k < a_n a -> cur st h k = a_at a k.
Record Inv (st : mst) (sl : list (option arr)) (tr : nat -> option (rop * bool)) : Prop := {
  i_ac : acyclic zero (vars st);
  i_buf : forall h b, v_k (getv (vars st) h) = KMem b -> b < nb st;
  i_inj : forall h h' b, v_k (getv (vars st) h) = KMem b -> v_k (getv (vars st) h') = KMem b -> h = h';
  i_pend : forall s, In s (pend st) -> v_k (getv (vars st) (s_t s)) = KMem (s_b s);
  i_ops : forall s o, In s (pend st) -> In o (operands s) -> o < length (vars st) /\ dirty st o = false /\ tidy st o;
  i_nodup : forall s, In s (pend st) -> s_op s = RId -> NoDup (map u_i (updates st s));
  i_len : length (slots st) = length sl;
  i_slot : forall x h, nth_error (slots st) x = Some (Some h) -> Slot st (tr x) h /\ Ex st h;
  i_none : forall x, nth_error (slots st) x = Some None -> nth_error sl x = Some None;
  i_val : forall x h, nth_error (slots st) x = Some (Some h) -> exists a, nth_error sl x = Some (Some a) /\ Val st h a }.

Lemma held_In (st : mst) h : In h (held st) <-> exists x, nth_error (slots st) x = Some (Some h).
Proof.
  unfold held. rewrite in_flat_map. split.
  - intros [o [H H']]. destruct o as [h'|]; [|easy]. destruct H' as [<-|[]]. apply In_nth_error in H. auto.
  - intros [x H]. exists (Some h). split; [eapply nth_error_In; eauto|simpl; auto].
Qed.
Lemma dirty_on (st : mst) h : dirty st h = false <-> on st h = [].
Proof.
  unfold dirty, on. rewrite mem_not_In. induction (pend st) as [|s l IH]; simpl; [split; auto|].
  destruct (Nat.eqb_spec (s_t s) h) as [E|E]; [split; [intros H; exfalso; auto|easy]|]. rewrite <- IH. tauto.
Qed.
Lemma dirty_no (st : mst) h : dirty st h = false <-> forall s, In s (pend st) -> s_t s <> h.
Proof.
  unfold dirty. rewrite mem_not_In, in_map_iff. split.
  - intros H s Hs E. apply H. eauto.
  - intros H [s [E Hs]]. eapply H; eauto.
Qed.
Lemma on_In (st : mst) h s : In s (on st h) <-> In s (pend st) /\ s_t s = h.
Proof. unfold on. rewrite filter_In, Nat.eqb_eq. tauto. Qed.
Lemma kmem_lt (vs : list var) h b : v_k (getv vs h) = KMem b -> h < length vs.
Proof. intros H. destruct (Nat.lt_ge_cases h (length vs)) as [L|L]; [auto|]. rewrite getv_out in H by auto. easy. Qed.
Lemma node_clean st sl tr h : Inv st sl tr -> is_node (getv (vars st) h) = true -> dirty st h = false.
Proof.
  intros I H. apply dirty_no. intros s Hs <-. apply (i_pend _ _ _ I) in Hs. unfold is_node in H. rewrite Hs in H. easy.
Qed.
Lemma under_internal (st : mst) h r : In r (held st) \/ (exists s, In s (pend st) /\ In r (operands s)) -> In h (under st r) -> In h (internal st).
Proof.
  intros H H'. unfold Sct_Model.internal. apply in_or_app. left. apply in_flat_map. exists r. split; [|exact H'].
  apply in_or_app. destruct H as [H|[s [H1 H2]]]; [auto|]. right. apply in_flat_map. eauto.
Qed.
Lemma operand_internal (st : mst) o s : In s (pend st) -> In o (operands s) -> In o (internal st).
Proof. intros H H'. unfold Sct_Model.internal. apply in_or_app. right. apply in_flat_map. eauto. Qed.
Lemma value_mem st h b k : v_k (getv (vars st) h) = KMem b -> value st h k = bufs st b k.
Proof.
  intros H. pose proof (kmem_lt _ _ _ H) as L. unfold Sct_Model.value. destruct (length (vars st)) as [|f]; [lia|].
  cbn [den]. rewrite H. auto.
Qed.
Lemma value_lit st h x k : h < length (vars st) -> v_k (getv (vars st) h) = KLit x -> value st h k = x.
Proof. intros L H. unfold Sct_Model.value. destruct (length (vars st)) as [|f]; [lia|]. cbn [den]. rewrite H. auto. Qed.
Lemma cur_clean st h k : dirty st h = false -> cur st h k = value st h k.
Proof.
  intros H. unfold cur. apply dirty_on in H. rewrite H. destruct (v_k (getv (vars st) h)) eqn:E; auto.
  simpl. symmetry. eapply value_mem; eauto.
Qed.
Lemma updates_facts st s u : In u (updates st s) -> u_b u = s_b s /\ u_op u = s_op s.
Proof.
  unfold Sct_Model.updates. intros H. apply in_flat_map in H. destruct H as [k [_ H]].
  destruct (truth _); [|easy]. destruct H as [<-|[]]. auto.
Qed.
Lemma filter_flat_map {A B} (p : B -> bool) (f : A -> list B) l : filter p (flat_map f l) = flat_map (fun x => filter p (f x)) l.
Proof. induction l as [|x l IH]; [auto|]. simpl. rewrite filter_app, IH. auto. Qed.
Lemma filter_nil {A} (p : A -> bool) l : (forall x, In x l -> p x = false) -> filter p l = [].
Proof. induction l as [|x l IH]; intros H; [auto|]. simpl. rewrite H by (simpl; auto). apply IH. intros; apply H; simpl; auto. Qed.

(** ** Evaluation *)
Definition alive (st : mst) : list scat := filter (fun s => negb (elided st s)) (pend st).
Lemma alive_held st s : In s (pend st) -> In (s_t s) (held st) -> In s (alive st).
Proof.
  intros H H'. unfold alive. apply filter_In. split; [auto|]. unfold Sct_Model.elided. rewrite negb_involutive. apply mem_In.
  apply in_or_app. auto.
Qed.
Lemma hits st sl tr h b j :
  Inv st sl tr -> v_k (getv (vars st) h) = KMem b ->
  (forall s, In s (pend st) -> s_t s = h -> In (s_t s) (held st) /\ stray (alive st) s = false) ->
  filter (hit b j) (flat_map (effect st (alive st)) (alive st)) = filter (hit b j) (flat_map (updates st) (on st h)).
Proof.
  intros I K H. rewrite !filter_flat_map.
  assert (G : forall P, (forall s, In s P -> In s (pend st)) ->
    flat_map (fun s => filter (hit b j) (effect st (alive st) s)) (filter (fun s => negb (elided st s)) P)
    = flat_map (fun s => filter (hit b j) (updates st s)) (filter (fun s => Nat.eqb (s_t s) h) P)).
  { induction P as [|s P IH]; intros HP; [auto|]. cbn [filter].
    destruct (Nat.eqb_spec (s_t s) h) as [E|E].
    - destruct (H s (HP s (or_introl eq_refl)) E) as [H1 H2].
      pose proof (alive_held st s (HP s (or_introl eq_refl)) H1) as H3. unfold alive in H3. apply filter_In in H3. destruct H3 as [_ H3].
      rewrite H3. cbn [flat_map]. rewrite IH by (intros; apply HP; simpl; auto). f_equal. unfold Sct_Model.effect. rewrite H2. auto.
    - rewrite <- IH by (intros; apply HP; simpl; auto). destruct (negb (elided st s)); [|auto]. cbn [flat_map].
      rewrite filter_nil; [auto|]. intros u Hu.
      assert (Hu' : In u (updates st s)).
      { unfold Sct_Model.effect in Hu. destruct (stray _ _); [apply filter_In in Hu; tauto|auto]. }
      apply updates_facts in Hu'. unfold hit. destruct (Nat.eqb_spec b (u_b u)) as [Eb|]; [|auto]. exfalso. apply E.
      apply (i_inj _ _ _ I) with b; [|auto]. rewrite (i_pend _ _ _ I) by (apply HP; simpl; auto). f_equal. destruct Hu'. congruence. }
  apply G. auto.
Qed.
Lemma uniform_ops st sl tr h : Inv st sl tr -> uniform (on st h) ->
  (exists o, o <> RId /\ Forall (fun u => u_op u = o) (flat_map (updates st) (on st h)))
  \/ (forall b j, length (filter (hit b j) (flat_map (updates st) (on st h))) <= 1).
Proof.
  intros I [[s E]|[o [N F]]].
  - assert (Hs : In s (pend st)) by (apply (on_In st h); rewrite E; simpl; auto).
    destruct (rop_eqb (s_op s) RId) eqn:R.
    + right. intros b j. rewrite E. simpl. rewrite app_nil_r. apply hit_nodup. apply (i_nodup _ _ _ I); auto. apply rop_eqb_eq; auto.
    + left. exists (s_op s). split; [intros N; rewrite N in R; easy|]. rewrite E. simpl. rewrite app_nil_r. apply Forall_forall.
      intros u Hu. apply updates_facts in Hu. tauto.
  - left. exists o. split; [auto|]. apply Forall_forall. intros u Hu. apply in_flat_map in Hu. destruct Hu as [s [Hs Hu]].
    rewrite Forall_forall in F. rewrite <- (F s Hs). apply updates_facts in Hu. tauto.
Qed.
Definition ready (st : mst) (h : nat) : Prop :=
  h < length (vars st) /\ tidy st h /\ (dirty st h = true -> In h (held st) /\ uniform (on st h) /\ paired (on st h)).

Lemma eval_ok st sl tr roots : Inv st sl tr ->
  (forall r, In r roots -> r < length (vars st) /\ dirty st r = false /\ tidy st r) ->
  exists st', eval_roots st roots = Ok st' /\ pend st' = [] /\ slots st' = slots st /\ nb st' = nb st
    /\ length (vars st') = length (vars st) /\ (forall d, same zero (vars st) (vars st') d)
    /\ (forall d, dirty st d = false -> v_ex (getv (vars st') d) = v_ex (getv (vars st) d))
    /\ (forall h k, ready st h -> value st' h k = cur st h k)
    /\ (forall tr', Inv st' sl tr').
Proof.
  intros I HR. unfold Sct_Model.eval_roots. fold (alive st).
  assert (HRO : forall r, In r (roots ++ flat_map operands (alive st)) -> r < length (vars st) /\ dirty st r = false /\ tidy st r).
  { intros r Hr. apply in_app_or in Hr. destruct Hr as [Hr|Hr]; [auto|]. apply in_flat_map in Hr. destruct Hr as [s [Hs Hr]].
    unfold alive in Hs. apply filter_In in Hs. destruct Hs as [Hs _]. eapply (i_ops _ _ _ I); eauto. }
  assert (HC : forall d, In d (flat_map (cone zero st) (roots ++ flat_map operands (alive st))) -> dirty st d = false).
  { intros d Hd. apply in_flat_map in Hd. destruct Hd as [r [Hr Hd]]. apply HRO in Hr. destruct Hr as [_ [H1 H2]].
    destruct Hd as [<-|Hd]; auto. }
  assert (B1 : blocked zero st roots (alive st) = false).
  { unfold blocked. destruct (existsb _ _) eqn:E; [|auto]. apply existsb_exists in E. destruct E as [d [Hd E]].
    rewrite HC in E by auto. easy. }
  rewrite B1.
  assert (B2 : existsb (fun b => mem b (map s_b (alive st))) (flat_map (reads zero st) (roots ++ flat_map operands (alive st))) = false).
  { destruct (existsb _ _) eqn:E; [|auto]. exfalso. apply existsb_exists in E. destruct E as [b [Hb E]].
    apply mem_In in E. apply in_map_iff in E. destruct E as [s [Es Hs]]. unfold alive in Hs. apply filter_In in Hs. destruct Hs as [Hs _].
    apply in_flat_map in Hb. destruct Hb as [r [Hr Hb]]. unfold reads in Hb. apply in_flat_map in Hb. destruct Hb as [d [Hd Hb]].
    assert (D : dirty st d = false) by (apply HC; apply in_flat_map; eauto).
    destruct (v_k (getv (vars st) d)) eqn:Kd; try easy. destruct Hb as [Hb|[]]. subst b0.
    rewrite dirty_no in D. apply (D s Hs). apply (i_inj _ _ _ I) with b; [|auto]. rewrite (i_pend _ _ _ I) by auto. congruence. }
  rewrite B2. eexists. split; [reflexivity|]. cbn [pend slots nb vars].
  set (st' := {| vars := _ |}).
  assert (SM : forall d, same zero (vars st) (vars st') d) by (intros d; apply same_finish).
  assert (BUF : forall h b j, v_k (getv (vars st) h) = KMem b -> (dirty st h = true -> In h (held st) /\ uniform (on st h) /\ paired (on st h)) ->
    bufs st' b j = fold_left (apply red) (flat_map (updates st) (on st h)) (bufs st) b j).
  { intros h b j Kh D. unfold st'. cbn [bufs]. rewrite !apply_at.
    assert (HH : forall s, In s (pend st) -> s_t s = h -> In (s_t s) (held st) /\ stray (alive st) s = false).
    { intros s Hs E. destruct (dirty st h) eqn:Dh.
      - destruct (D eq_refl) as [D1 [D2 D3]]. rewrite E. split; [auto|]. unfold stray. destruct (s_x s) eqn:X; [|auto].
        destruct (D3 s (proj2 (on_In st h s) (conj Hs E)) X) as [s' [Hs' C]]. apply on_In in Hs'. destruct Hs' as [Hs' E'].
        cut (existsb (fun s' => s_c s' && Nat.eqb (s_t s') (s_t s)) (alive st) = true); [intros ->; auto|].
        apply existsb_exists. exists s'. split; [apply alive_held; [auto|congruence]|]. rewrite C, E, E'. simpl. apply Nat.eqb_refl.
      - rewrite dirty_no in Dh. exfalso. eapply Dh; eauto. }
    pose proof (hits st sl tr h b j I Kh HH) as EQ.
    assert (P : Permutation (filter (hit b j) (sh (evs st) (flat_map (effect st (alive st)) (alive st)))) (filter (hit b j) (flat_map (updates st) (on st h)))).
    { rewrite <- EQ. apply filter_perm. apply sh_perm. }
    destruct (dirty st h) eqn:Dh.
    - destruct (D eq_refl) as [_ [D2 _]]. symmetry. destruct (uniform_ops st sl tr h I D2) as [[o [No F]]|S1].
      + apply acc_perm with o; auto. symmetry; auto. apply Forall_forall. intros u Hu. apply filter_In in Hu. rewrite Forall_forall in F. apply F. tauto.
      + apply acc_perm_small; auto. symmetry; auto.
    - apply dirty_on in Dh. rewrite Dh in *. simpl in P. apply Permutation_sym in P. apply Permutation_nil in P. rewrite P. auto. }
  assert (VAL : forall h k, ready st h -> value st' h k = cur st h k).
  { intros h k [L [T D]]. destruct (v_k (getv (vars st) h)) as [x|b|f args|s i m] eqn:Kh.
    2:{ unfold cur. rewrite Kh. rewrite <- (BUF h b k Kh D). apply value_mem. destruct (SM h) as [E _]. congruence. }
    all: assert (Dh : dirty st h = false) by
      (apply dirty_no; intros s0 Hs <-; pose proof (i_pend _ _ _ I s0 Hs); congruence);
      rewrite cur_clean by auto; symmetry; unfold Sct_Model.value;
      replace (length (vars st')) with (length (vars st)) by (unfold st'; cbn [vars]; rewrite mapi_length; auto);
      apply den_agree; intros d Hd; split; [apply SM|]; intros b Kd j;
      assert (Dd : dirty st d = false) by (destruct Hd as [->|Hd]; [auto|apply T; exact Hd]);
      rewrite (BUF d b j Kd) by congruence; apply dirty_on in Dd; rewrite Dd; reflexivity. }
  refine (conj eq_refl (conj eq_refl (conj eq_refl (conj _ (conj SM (conj _ (conj VAL _))))))).
  { unfold st'. cbn [vars]. apply mapi_length. }
  { intros d D. unfold st'. cbn [vars]. rewrite getv_finish. destruct (Nat.ltb_spec d (length (vars st))) as [L|L].
    + unfold finish. destruct (mem d _) eqn:M; [|auto]. exfalso. apply mem_In in M. apply in_map_iff in M. destruct M as [s [E M]].
      apply filter_In in M. destruct M as [M _]. unfold alive in M. apply filter_In in M. destruct M as [M _].
      rewrite dirty_no in D. eapply D; eauto.
    + rewrite getv_out by auto. reflexivity. }
  intros tr'. constructor.
  - apply acyclic_finish. apply (i_ac _ _ _ I).
  - intros h b H. apply (i_buf _ _ _ I) with h. destruct (SM h) as [E _]. congruence.
  - intros h h' b H H'. apply (i_inj _ _ _ I) with b; [destruct (SM h) as [E _]|destruct (SM h') as [E _]]; congruence.
  - intros s [].
  - intros s o [].
  - intros s [].
  - apply (i_len _ _ _ I).
  - intros x h H. destruct (i_slot _ _ _ I x h H) as [S1 E1]. assert (L : h < length (vars st)) by apply S1. split.
    + constructor.
      * unfold st'. cbn [vars]. rewrite mapi_length. auto.
      * intros d Hd. reflexivity.
      * right. exists RAdd. split; [easy|constructor].
      * intros H'. exfalso. apply H'. reflexivity.
      * intros o e Ho No. constructor.
      * intros s [].
      * intros s [].
    + intros o Ho. exfalso.
      unfold st' in Ho. cbn [vars] in Ho. rewrite getv_finish in Ho. apply Nat.ltb_lt in L. rewrite L in Ho. unfold finish in Ho.
      destruct (mem h (map s_t (filter s_c (alive st)))) eqn:M; [easy|]. apply mem_not_In in M. apply M.
      destruct (E1 o Ho) as [s [Hs [C _]]]. apply on_In in Hs. destruct Hs as [Hs E]. apply in_map_iff. exists s. split; [auto|].
      apply filter_In. split; [|auto]. apply alive_held; [auto|]. rewrite E. apply held_In. eauto.
  - apply (i_none _ _ _ I).
  - intros x h H. destruct (i_val _ _ _ I x h H) as [a [Ha [Hn Hv]]]. exists a. split; [auto|]. split.
    + rewrite Hn. apply SM.
    + intros k Hk. rewrite cur_clean by reflexivity. destruct (i_slot _ _ _ I x h H) as [[L T U _ _ _ P] _].
      rewrite VAL; [auto|]. split; [auto|]. split; [auto|]. intros _. split; [|auto]. apply held_In. eauto.
Qed.

(** ** New variables *)
Record grows (st st' : mst) (v : var) : Prop := {
  g_vars : vars st' = vars st ++ [v];
  g_slots : slots st' = slots st;
  g_pend : pend st' = pend st;
  g_evs : evs st' = evs st;
  g_buf : forall b, b < nb st -> bufs st' b = bufs st b;
  g_nb : nb st <= nb st';
  g_k : forall b, v_k v = KMem b -> nb st <= b /\ b < nb st';
  g_dep : forall d, In d (deps v) -> d < length (vars st) }.
Lemma grow_under st st' v h : acyclic zero (vars st) -> grows st st' v -> h < length (vars st) -> under st' h = under st h.
Proof.
  intros A G L. unfold under. rewrite (g_vars _ _ _ G). symmetry.
  rewrite (below_fuel zero (vars st ++ [v]) (acyclic_app zero _ _ A (g_dep _ _ _ G)) _ (length (vars st))) by (rewrite ?app_length; simpl; lia).
  apply below_agree. intros d Hd. unfold same. rewrite getv_app; [auto|]. destruct Hd as [->|Hd]; [auto|].
  apply below_lt in Hd; auto. lia.
Qed.
Lemma grow_value st st' v h k : acyclic zero (vars st) -> (forall h b, v_k (getv (vars st) h) = KMem b -> b < nb st) -> grows st st' v -> h < length (vars st) -> value st' h k = value st h k.
Proof.
  intros A B G L. unfold Sct_Model.value. rewrite (g_vars _ _ _ G). symmetry.
  rewrite (den_fuel zero to_idx truth (vars st ++ [v]) (bufs st') (acyclic_app zero _ _ A (g_dep _ _ _ G)) _ (length (vars st))) by (rewrite ?app_length; simpl; lia).
  apply den_agree. intros d Hd. assert (Ld : d < length (vars st)).
  { destruct Hd as [->|Hd]; [auto|]. apply below_lt in Hd; auto. lia. }
  split; [unfold same; rewrite getv_app; auto|]. intros b Kb j. rewrite (g_buf _ _ _ G); [auto|]. eapply B; eauto.
Qed.
Record grown (st st' : mst) (v : var) : Prop := {
  gr_len : length (vars st') = S (length (vars st));
  gr_new : getv (vars st') (length (vars st)) = v;
  gr_old : forall h, h < length (vars st) -> getv (vars st') h = getv (vars st) h;
  gr_under : forall h, h < length (vars st) -> under st' h = under st h;
  gr_value : forall h k, h < length (vars st) -> value st' h k = value st h k;
  gr_dirty : forall h, dirty st' h = dirty st h;
  gr_on : forall h, on st' h = on st h;
  gr_cur : forall h k, h < length (vars st) -> cur st' h k = cur st h k;
  gr_held : held st' = held st;
  gr_slots : slots st' = slots st;
  gr_pend : pend st' = pend st;
  gr_int : forall h, In h (internal st') -> h < length (vars st) /\ In h (internal st);
  gr_clean : dirty st (length (vars st)) = false }.
Lemma grow_ok st st' v sl tr : Inv st sl tr -> grows st st' v -> grown st st' v /\ Inv st' sl tr.
Proof.
  intros I G. pose proof (i_ac _ _ _ I) as A.
  assert (F1 : length (vars st') = S (length (vars st))) by (rewrite (g_vars _ _ _ G), app_length; simpl; lia).
  assert (F2 : getv (vars st') (length (vars st)) = v) by (rewrite (g_vars _ _ _ G); apply getv_new).
  assert (F3 : forall h, h < length (vars st) -> getv (vars st') h = getv (vars st) h) by (intros h L; rewrite (g_vars _ _ _ G); apply getv_app; auto).
  assert (F4 : forall h, h < length (vars st) -> under st' h = under st h) by (intros h L; eapply grow_under; eauto).
  assert (F5 : forall h k, h < length (vars st) -> value st' h k = value st h k) by (intros h k L; eapply grow_value; eauto; apply (i_buf _ _ _ I)).
  assert (F6 : forall h, dirty st' h = dirty st h) by (intros h; unfold dirty; rewrite (g_pend _ _ _ G); auto).
  assert (F7 : forall h, on st' h = on st h) by (intros h; unfold on; rewrite (g_pend _ _ _ G); auto).
  assert (F8 : held st' = held st) by (unfold held; rewrite (g_slots _ _ _ G); auto).
  assert (F9 : forall s, In s (pend st) -> updates st' s = updates st s).
  { intros s Hs. unfold Sct_Model.updates. apply flat_map_ext_in. intros k _.
    assert (L : forall o, In o (operands s) -> o < length (vars st)) by (intros o Ho; eapply (i_ops _ _ _ I); eauto).
    rewrite !F3 by (apply L; simpl; auto). rewrite !F5 by (apply L; simpl; auto). auto. }
  assert (F10 : forall h k, h < length (vars st) -> cur st' h k = cur st h k).
  { intros h k L. unfold cur. rewrite F3, F7, F5 by auto. destruct (v_k (getv (vars st) h)) eqn:Kh; auto. rewrite !apply_at.
    rewrite (g_buf _ _ _ G) by (eapply (i_buf _ _ _ I); eauto). f_equal. f_equal. apply flat_map_ext_in. intros s Hs. apply F9. apply on_In in Hs. tauto. }
  assert (F11 : forall s, In s (pend st) -> s_t s < length (vars st)).
  { intros s Hs. eapply kmem_lt. eapply (i_pend _ _ _ I); eauto. }
  assert (KM : forall h b, v_k (getv (vars st') h) = KMem b -> (h < length (vars st) /\ v_k (getv (vars st) h) = KMem b) \/ (h = length (vars st) /\ nb st <= b /\ b < nb st')).
  { intros h b Kh. pose proof (kmem_lt _ _ _ Kh) as L. destruct (Nat.eq_dec h (length (vars st))) as [->|N].
    - right. split; [auto|]. rewrite F2 in Kh. apply (g_k _ _ _ G); auto.
    - left. assert (h < length (vars st)) by lia. split; [auto|]. rewrite F3 in Kh; auto. }
  assert (HO : forall r, In r (held st) \/ (exists s, In s (pend st) /\ In r (operands s)) -> r < length (vars st)).
  { intros r [H|[s [H1 H2]]].
    - apply held_In in H. destruct H as [x H]. apply (i_slot _ _ _ I) in H. destruct H as [[L _ _ _ _ _ _] _]. auto.
    - eapply (i_ops _ _ _ I); eauto. }
  split; [constructor; auto|constructor].
  - apply (g_slots _ _ _ G).
  - apply (g_pend _ _ _ G).
  - intros h H. unfold Sct_Model.internal in H. rewrite F8, (g_pend _ _ _ G) in H. apply in_app_or in H. destruct H as [H|H].
    + apply in_flat_map in H. destruct H as [r [Hr H]]. apply in_app_or in Hr. change (below zero (length (vars st')) (vars st') r) with (under st' r) in H.
      assert (Hr' : In r (held st) \/ (exists s, In s (pend st) /\ In r (operands s))) by (destruct Hr as [Hr|Hr]; [auto|right; apply in_flat_map in Hr; auto]).
      rewrite F4 in H by auto. split; [|eapply under_internal; eauto].
      apply HO in Hr'. apply below_lt in H; auto. lia.
    + apply in_flat_map in H. destruct H as [s [Hs H]]. split; [eapply (i_ops _ _ _ I); eauto|eapply operand_internal; eauto].
  - apply dirty_no. intros s Hs E. apply F11 in Hs. lia.
  - rewrite (g_vars _ _ _ G). apply acyclic_app; [auto|apply (g_dep _ _ _ G)].
  - intros h b H. pose proof (g_nb _ _ _ G). apply KM in H. destruct H as [[L H]|[-> H]]; [|lia].
    apply (i_buf _ _ _ I) in H. lia.
  - intros h h' b H H'. apply KM in H, H'. destruct H as [[L H]|[-> H]], H' as [[L' H']|[-> H']]; auto.
    + eapply (i_inj _ _ _ I); eauto.
    + apply (i_buf _ _ _ I) in H. lia.
    + apply (i_buf _ _ _ I) in H'. lia.
  - rewrite (g_pend _ _ _ G). intros s Hs. rewrite F3 by auto. apply (i_pend _ _ _ I); auto.
  - rewrite (g_pend _ _ _ G). intros s o Hs Ho. destruct (i_ops _ _ _ I s o Hs Ho) as [L [D T]]. split; [lia|]. split; [rewrite F6; auto|].
    intros d Hd. rewrite F4 in Hd by auto. rewrite F6. auto.
  - rewrite (g_pend _ _ _ G). intros s Hs R. rewrite F9 by auto. apply (i_nodup _ _ _ I); auto.
  - rewrite (g_slots _ _ _ G). apply (i_len _ _ _ I).
  - rewrite (g_slots _ _ _ G). intros x h H. destruct (i_slot _ _ _ I x h H) as [[L T U S1 O1 X1 P] E]. split.
    + constructor; rewrite ?F7, ?F3 by auto; auto; [lia|]. intros d Hd. rewrite F4 in Hd by auto. rewrite F6. auto.
    + intros o. rewrite F3, F7 by auto. apply E.
  - rewrite (g_slots _ _ _ G). apply (i_none _ _ _ I).
  - rewrite (g_slots _ _ _ G). intros x h H. destruct (i_slot _ _ _ I x h H) as [[L _ _ _ _ _ _] _]. destruct (i_val _ _ _ I x h H) as [a [Ha [Hn Hv]]].
    exists a. split; [auto|]. split; [rewrite F3; auto|]. intros k Hk. rewrite F10; auto.
Qed.
Lemma new_grows st v : (forall b, v_k v <> KMem b) -> (forall d, In d (deps v) -> d < length (vars st)) -> grows st (fst (new st v)) v.
Proof. intros H D. constructor; auto. intros b Hb. exfalso. eapply H; eauto. Qed.
Lemma new_mem_grows st n ex c : grows st (fst (new_mem st n ex c)) {| v_k := KMem (nb st); v_n := n; v_ex := ex |}.
Proof.
  constructor; auto.
  - intros b L. cbn. destruct (Nat.eqb_spec b (nb st)); [lia|auto].
  - cbn. lia.
  - intros b E. cbn in *. injection E as <-. lia.
  - intros d [].
Qed.

(** ** A node becomes memory *)
Lemma store_ok st sl tr h c : Inv st sl tr -> pend st = [] -> is_node (getv (vars st) h) = true -> h < length (vars st) ->
  (forall k, c k = value st h k) ->
  (forall tr', Inv (store zero st h c) sl tr')
  /\ (forall u k, u < length (vars st) -> value (store zero st h c) u k = value st u k).
Proof.
  intros I P N L Hc. pose proof (i_ac _ _ _ I) as A.
  assert (NB : forall d, v_k (getv (vars st) d) <> KMem (nb st)).
  { intros d E. apply (i_buf _ _ _ I) in E. lia. }
  assert (LEN : length (vars (store zero st h c)) = length (vars st)) by (cbn; apply set_nth_length).
  assert (F : forall u k, u < length (vars st) -> value (store zero st h c) u k = value st u k).
  { intros u k Lu. unfold Sct_Model.value at 1. rewrite LEN. unfold store. cbn [vars bufs]. rewrite (den_store zero to_idx truth); auto. }
  assert (GV : forall d, getv (vars (store zero st h c)) d = if Nat.eqb d h then {| v_k := KMem (nb st); v_n := v_n (getv (vars st) h); v_ex := None |} else getv (vars st) d).
  { intros d. cbn. apply getv_set; auto. }
  split; [|auto]. intros tr'. constructor; rewrite ?P; cbn [pend slots].
  - intros u d Hd. rewrite GV in Hd. destruct (Nat.eqb_spec u h); [easy|]. apply A; auto.
  - intros u b H. rewrite GV in H. change (nb (store zero st h c)) with (S (nb st)). destruct (Nat.eqb_spec u h); [cbn in H; injection H as <-; lia|].
    apply (i_buf _ _ _ I) in H. lia.
  - intros u u' b H H'. rewrite GV in H, H'. destruct (Nat.eqb_spec u h) as [->|], (Nat.eqb_spec u' h) as [->|]; auto.
    + cbn in H. injection H as <-. exfalso. eapply NB; eauto.
    + cbn in H'. injection H' as <-. exfalso. eapply NB; eauto.
    + eapply (i_inj _ _ _ I); eauto.
  - unfold store. cbn [pend]. rewrite P. intros s [].
  - unfold store. cbn [pend]. rewrite P. intros s o [].
  - unfold store. cbn [pend]. rewrite P. intros s [].
  - apply (i_len _ _ _ I).
  - intros x u H. change (slots (store zero st h c)) with (slots st) in H. destruct (i_slot _ _ _ I x u H) as [[Lu T U S1 O1 X1 P1] E].
    assert (ON : forall w, on (store zero st h c) w = []) by (intros w; unfold on, store; cbn [pend]; rewrite P; auto).
    split.
    + constructor; rewrite ?ON; [lia| |right; exists RAdd; split; [easy|constructor]|easy|constructor|intros ? []|intros ? []].
      intros d _. unfold dirty, store. cbn [pend]. rewrite P. auto.
    + intros o Ho. rewrite GV in Ho. destruct (Nat.eqb_spec u h); [easy|]. apply E in Ho. destruct Ho as [s [Hs _]]. apply on_In in Hs. rewrite P in Hs. destruct Hs as [[] _].
  - intros x H. apply (i_none _ _ _ I); auto.
  - intros x u H. change (slots (store zero st h c)) with (slots st) in H. destruct (i_slot _ _ _ I x u H) as [[Lu _ _ _ _ _ _] _].
    destruct (i_val _ _ _ I x u H) as [a [Ha [Hn Hv]]]. exists a. split; [auto|]. split.
    + rewrite GV. destruct (Nat.eqb_spec u h) as [->|]; auto.
    + intros k Hk. rewrite cur_clean by (unfold dirty, store; cbn [pend]; rewrite P; auto). rewrite F by auto. rewrite <- Hv by auto.
      symmetry. apply cur_clean. unfold dirty. rewrite P. auto.
Qed.

(** ** Slots *)
Definition set_slot (st : mst) (x : nat) (o : option nat) : mst :=
  {| vars := vars st; bufs := bufs st; nb := nb st; slots := set_nth x o (slots st); pend := pend st; evs := evs st |}.
Lemma put_set st x o : x < length (slots st) -> put st x o = Ok (set_slot st x o).
Proof. intros H. unfold put. apply Nat.ltb_lt in H. rewrite H. auto. Qed.
Lemma nth_set {A} (x y : nat) (o : A) l : x < length l -> nth_error (set_nth x o l) y = if Nat.eqb y x then Some o else nth_error l y.
Proof.
  intros H. destruct (Nat.eqb_spec y x) as [->|N]; [apply nth_error_set_nth_eq; auto|apply nth_error_set_nth_neq; auto].
Qed.
Definition tset (tr : nat -> option (rop * bool)) (x : nat) (t : option (rop * bool)) : nat -> option (rop * bool) := fun y => if Nat.eqb y x then t else tr y.
Lemma slot_set st x o t h : Slot st t h -> Slot (set_slot st x o) t h.
Proof. intros [A B C D E F G]. constructor; assumption. Qed.
Lemma put_ok st sl tr x h t a : Inv st sl tr -> x < length (slots st) -> Slot st t h -> Ex st h -> Val st h a ->
  Inv (set_slot st x (Some h)) (set_nth x (Some a) sl) (tset tr x t).
Proof.
  intros I L S1 E1 V1. pose proof (i_len _ _ _ I) as Ln. destruct I as [Ac Bu In_ Pe Op Nd Le Sl No Va]. constructor; auto.
  - cbn [slots set_slot]. rewrite !set_nth_length. auto.
  - intros y u H. cbn [slots set_slot] in H. rewrite nth_set in H by auto. unfold tset. destruct (Nat.eqb_spec y x) as [->|N].
    + injection H as <-. split; [apply slot_set; exact S1|exact E1].
    + destruct (Sl y u H) as [S2 E2]. split; [apply slot_set; exact S2|exact E2].
  - intros y H. cbn [slots set_slot] in H. rewrite nth_set in H by lia. rewrite nth_set by lia. destruct (Nat.eqb_spec y x); [easy|auto].
  - intros y u H. cbn [slots set_slot] in H. rewrite nth_set in H by lia. rewrite nth_set by lia. destruct (Nat.eqb_spec y x) as [->|N].
    + injection H as <-. exists a. split; [auto|exact V1].
    + exact (Va y u H).
Qed.
Lemma put_none st sl tr x t : Inv st sl tr -> x < length (slots st) -> Inv (set_slot st x None) (set_nth x None sl) (tset tr x t).
Proof.
  intros I L. pose proof (i_len _ _ _ I) as Ln. destruct I as [Ac Bu In_ Pe Op Nd Le Sl No Va]. constructor; auto.
  - cbn [slots set_slot]. rewrite !set_nth_length. auto.
  - intros y u H. cbn [slots set_slot] in H. rewrite nth_set in H by auto. unfold tset. destruct (Nat.eqb_spec y x) as [->|N]; [easy|].
    destruct (Sl y u H) as [S2 E2]. split; [apply slot_set; exact S2|exact E2].
  - intros y H. cbn [slots set_slot] in H. rewrite nth_set in H by lia. rewrite nth_set by lia. destruct (Nat.eqb_spec y x); [easy|auto].
  - intros y u H. cbn [slots set_slot] in H. rewrite nth_set in H by lia. rewrite nth_set by lia. destruct (Nat.eqb_spec y x) as [->|N]; [easy|exact (Va y u H)].
Qed.

(** ** A further scatter *)
Definition add_pend (st : mst) (s : scat) : mst :=
  {| vars := vars st; bufs := bufs st; nb := nb st; slots := slots st; pend := pend st ++ [s]; evs := evs st |}.
Lemma on_add st s h : on (add_pend st s) h = if Nat.eqb (s_t s) h then on st h ++ [s] else on st h.
Proof. unfold on, add_pend. cbn [pend]. rewrite filter_app. simpl. destruct (Nat.eqb (s_t s) h); [auto|apply app_nil_r]. Qed.
Lemma dirty_add st s h : h <> s_t s -> dirty (add_pend st s) h = dirty st h.
Proof.
  intros N. unfold dirty, add_pend. cbn [pend]. rewrite map_app. unfold mem. rewrite existsb_app. simpl.
  destruct (Nat.eqb_spec h (s_t s)); [easy|]. simpl. rewrite orb_false_r. auto.
Qed.
Lemma commit st sl tr x b a' s e :
  Inv st sl tr -> x < length (slots st) -> v_k (getv (vars st) (s_t s)) = KMem b -> s_b s = b ->
  (forall y, y <> x -> nth_error (slots st) y <> Some (Some (s_t s))) -> ~ In (s_t s) (internal st) ->
  (forall d, In d (under st (s_t s)) -> dirty st d = false) ->
  (forall o, In o (operands s) -> (exists y, nth_error (slots st) y = Some (Some o)) /\ o <> s_t s /\ dirty st o = false) ->
  Forall (fun s' => s_op s' = s_op s) (on st (s_t s)) -> (s_op s <> RId -> s_x s = e /\ Forall (fun s' => s_x s' = e) (on st (s_t s))) ->
  (forall s', In s' (on st (s_t s) ++ [s]) -> s_x s' = true -> v_ex (getv (vars st) (s_t s)) <> None) -> (s_op s = RId -> on st (s_t s) = []) ->
  paired (on st (s_t s) ++ [s]) ->
  (forall o, v_ex (getv (vars st) (s_t s)) = Some o -> exists s', In s' (on st (s_t s) ++ [s]) /\ s_c s' = true /\ s_op s' = o) ->
  (s_op s = RId -> NoDup (map u_i (updates st s))) ->
  a_n a' = v_n (getv (vars st) (s_t s)) -> (forall k, k < a_n a' -> acc red (filter (hit b k) (updates st s)) (cur st (s_t s) k) = a_at a' k) ->
  Inv (set_slot (add_pend st s) x (Some (s_t s))) (set_nth x (Some a') sl) (tset tr x (Some (s_op s, e))).
Proof.
  intros I L Kt Eb AL NI UT OPS FO FX SX RI PA EX ND HN HV. pose proof (i_len _ _ _ I) as Ln.
  set (t := s_t s) in *. set (st' := set_slot (add_pend st s) x (Some t)).
  assert (DI : forall h, h <> t -> dirty st' h = dirty st h) by (intros h Hh; exact (dirty_add st s h Hh)).
  assert (ON : forall h, on st' h = if Nat.eqb t h then on st h ++ [s] else on st h) by (intros h; exact (on_add st s h)).
  assert (TID : forall h, In h (held st) \/ (exists s, In s (pend st) /\ In h (operands s)) -> tidy st h -> tidy st' h).
  { intros h Hh T d Hd. rewrite DI; [exact (T d Hd)|]. intros ->. apply NI. eapply under_internal; eauto. }
  assert (OPS' : forall o, In o (operands s) -> o < length (vars st) /\ dirty st' o = false /\ tidy st' o).
  { intros o Ho. destruct (OPS o Ho) as [[y Hy] [N D]]. destruct (i_slot _ _ _ I y o Hy) as [[Lo To _ _ _ _ _] _].
    split; [auto|]. split; [rewrite DI; auto|]. apply TID; [|auto]. left. apply held_In. eauto. }
  assert (UNT : ~ In t (under st t)).
  { intros H. apply below_lt in H; [|apply (i_ac _ _ _ I)]. lia. }
  assert (CU : forall h k, h <> t -> cur st' h k = cur st h k).
  { intros h k N. unfold cur. rewrite ON. destruct (Nat.eqb_spec t h); [congruence|]. reflexivity. }
  assert (CT : forall k, cur st' t k = acc red (filter (hit b k) (updates st s)) (cur st t k)).
  { intros k. unfold cur. rewrite ON, Nat.eqb_refl. change (vars st') with (vars st). rewrite Kt. rewrite flat_map_app, fold_left_app.
    rewrite apply_at. simpl. rewrite app_nil_r. reflexivity. }
  constructor.
  - apply (i_ac _ _ _ I).
  - apply (i_buf _ _ _ I).
  - apply (i_inj _ _ _ I).
  - intros s' Hs. cbn [pend set_slot add_pend st'] in Hs. apply in_app_or in Hs. destruct Hs as [Hs|[<-|[]]].
    + apply (i_pend _ _ _ I s' Hs).
    + cbn [vars set_slot add_pend st']. rewrite Eb. exact Kt.
  - intros s' o Hs Ho. cbn [pend set_slot add_pend st'] in Hs. apply in_app_or in Hs. destruct Hs as [Hs|[<-|[]]]; [|apply OPS'; auto].
    destruct (i_ops _ _ _ I s' o Hs Ho) as [Lo [Do To]]. split; [auto|].
    assert (o <> t) by (intros ->; apply NI; eapply operand_internal; eauto). split; [rewrite DI; auto|]. apply TID; eauto.
  - intros s' Hs R. cbn [pend set_slot add_pend st'] in Hs. apply in_app_or in Hs. destruct Hs as [Hs|[<-|[]]].
    + exact (i_nodup _ _ _ I s' Hs R).
    + exact (ND R).
  - cbn [slots set_slot add_pend st']. rewrite !set_nth_length. auto.
  - intros y u H. cbn [slots set_slot add_pend st'] in H. rewrite nth_set in H by auto. unfold tset. destruct (Nat.eqb_spec y x) as [->|N].
    + injection H as <-. fold t. split.
      * constructor.
        -- eapply kmem_lt; exact Kt.
        -- intros d Hd. assert (d <> t) by (intros ->; exact (UNT Hd)). rewrite DI by auto. apply UT; auto.
        -- rewrite ON, Nat.eqb_refl. destruct (rop_eqb (s_op s) RId) eqn:R.
           ++ apply rop_eqb_eq in R. left. exists s. rewrite RI by auto. auto.
           ++ right. exists (s_op s). split; [intros E; rewrite E in R; easy|]. apply Forall_app. split; [auto|]. repeat constructor.
        -- easy.
        -- intros o e' E No. injection E as <- <-. rewrite ON, Nat.eqb_refl. destruct (FX No) as [FX1 FX2]. apply Forall_app.
           split; [|repeat constructor; auto]. rewrite Forall_forall in *. auto.
        -- intros s' Hs X. rewrite ON, Nat.eqb_refl in Hs. exact (SX s' Hs X).
        -- rewrite ON, Nat.eqb_refl. auto.
      * intros o Ho. rewrite ON, Nat.eqb_refl. apply EX. exact Ho.
    + assert (u <> t) by (intros ->; eapply AL; eauto). destruct (i_slot _ _ _ I y u H) as [[Lu Tu U S1 O1 X1 P1] E1].
      assert (OU : on st' u = on st u) by (rewrite ON; destruct (Nat.eqb_spec t u); congruence).
      split.
      * constructor; rewrite ?OU; auto. apply TID; [|auto]. left. apply held_In. eauto.
      * intros o Ho. rewrite OU. apply E1. exact Ho.
  - intros y H. cbn [slots set_slot add_pend st'] in H. rewrite nth_set in H by lia. rewrite nth_set by lia. destruct (Nat.eqb_spec y x); [easy|apply (i_none _ _ _ I); auto].
  - intros y u H. cbn [slots set_slot add_pend st'] in H. rewrite nth_set in H by lia. rewrite nth_set by lia. destruct (Nat.eqb_spec y x) as [->|N].
    + injection H as <-. fold t. exists a'. split; [auto|]. split; [exact HN|]. intros k Hk. rewrite CT. auto.
    + assert (u <> t) by (intros ->; eapply AL; eauto). destruct (i_val _ _ _ I y u H) as [a [Ha [Hn Hv]]]. exists a. split; [auto|]. split; [exact Hn|].
      intros k Hk. rewrite CU; auto.
Qed.

(** ** What evaluations keep *)
Record evo (st st' : mst) : Prop := {
  e_slots : slots st' = slots st;
  e_len : length (vars st') = length (vars st);
  e_n : forall d, v_n (getv (vars st') d) = v_n (getv (vars st) d);
  e_lit : forall d c, v_k (getv (vars st) d) = KLit c -> v_k (getv (vars st') d) = KLit c;
  e_mem : forall d b, v_k (getv (vars st) d) = KMem b -> v_k (getv (vars st') d) = KMem b;
  e_node : forall d, is_node (getv (vars st) d) = false -> is_node (getv (vars st') d) = false;
  e_ex : forall d, dirty st d = false -> is_node (getv (vars st) d) = false -> v_ex (getv (vars st') d) = v_ex (getv (vars st) d);
  e_on : forall d, on st' d = on st d \/ on st' d = [];
  e_cur : forall u k, ready st u -> cur st' u k = cur st u k;
  e_ready : forall u, ready st u -> ready st' u;
  e_int : forall u, In u (internal st') -> In u (internal st) }.
Lemma evo_refl st : evo st st.
Proof. constructor; auto. Qed.
Lemma evo_trans st1 st2 st3 : evo st1 st2 -> evo st2 st3 -> evo st1 st3.
Proof.
  intros A B. constructor.
  - rewrite (e_slots _ _ B). apply (e_slots _ _ A).
  - rewrite (e_len _ _ B). apply (e_len _ _ A).
  - intros d. rewrite (e_n _ _ B). apply (e_n _ _ A).
  - intros d c H. apply (e_lit _ _ B), (e_lit _ _ A), H.
  - intros d c H. apply (e_mem _ _ B), (e_mem _ _ A), H.
  - intros d H. apply (e_node _ _ B), (e_node _ _ A), H.
  - intros d D N. rewrite (e_ex _ _ B); [apply (e_ex _ _ A); auto| |apply (e_node _ _ A); auto].
    apply dirty_on. apply dirty_on in D. destruct (e_on _ _ A d); congruence.
  - intros d. destruct (e_on _ _ A d), (e_on _ _ B d); first [left; congruence | right; congruence].
  - intros u k H. rewrite (e_cur _ _ B); [apply (e_cur _ _ A); auto|apply (e_ready _ _ A); auto].
  - intros u H. apply (e_ready _ _ B), (e_ready _ _ A), H.
  - intros u H. apply (e_int _ _ A), (e_int _ _ B), H.
Qed.
Lemma evo_dirty st st' u : evo st st' -> dirty st u = false -> dirty st' u = false.
Proof. intros E H. apply dirty_on. apply dirty_on in H. destruct (e_on _ _ E u); congruence. Qed.
Lemma ready_clean st h : pend st = [] -> h < length (vars st) -> ready st h.
Proof. intros P L. split; [auto|]. unfold tidy, dirty. rewrite P. split; [auto|easy]. Qed.
Lemma slot_ready st sl tr x h : Inv st sl tr -> nth_error (slots st) x = Some (Some h) -> ready st h.
Proof.
  intros I H. destruct (i_slot _ _ _ I x h H) as [[L T U _ _ _ P] _]. split; [auto|]. split; [auto|]. intros _. split; [|auto]. apply held_In. eauto.
Qed.
Lemma eval_evo st sl tr roots : Inv st sl tr ->
  (forall r, In r roots -> r < length (vars st) /\ dirty st r = false /\ tidy st r) ->
  exists st', eval_roots st roots = Ok st' /\ evo st st' /\ pend st' = [] /\ (forall d, same zero (vars st) (vars st') d) /\ (forall tr', Inv st' sl tr').
Proof.
  intros I HR. destruct (eval_ok st sl tr roots I HR) as [st' [E [P [S1 [N [Le [SM [EX [VA IN]]]]]]]]].
  exists st'. split; [auto|]. split; [|auto]. constructor; auto.
  - intros d. symmetry. apply SM.
  - intros d c H. rewrite <- H. symmetry. apply SM.
  - intros d c H. rewrite <- H. symmetry. apply SM.
  - intros d. unfold is_node. destruct (SM d) as [-> _]. auto.
  - intros d. right. unfold on. rewrite P. auto.
  - intros u k H. rewrite cur_clean by (unfold dirty; rewrite P; auto). auto.
  - intros u [L _]. apply ready_clean; [auto|lia].
  - intros u H. unfold Sct_Model.internal in H. rewrite P in H. simpl in H. rewrite !app_nil_r in H.
    unfold Sct_Model.internal. apply in_or_app. left. apply in_flat_map in H. destruct H as [r [Hr H]]. apply in_flat_map. exists r.
    unfold held in Hr. rewrite S1 in Hr. split; [apply in_or_app; auto|]. rewrite Le in H. rewrite (below_agree zero (vars st) (vars st')); auto.
Qed.
Lemma below_store vs h v : deps v = [] -> h < length vs -> forall f u d, In d (below zero f (set_nth h v vs) u) -> In d (below zero f vs u).
Proof.
  intros E L. induction f as [|f IH]; intros u d H; [easy|]. cbn [below] in *. apply in_flat_map in H. destruct H as [w [Hw H]].
  rewrite getv_set in Hw by auto. destruct (Nat.eqb u h); [rewrite E in Hw; easy|]. apply in_flat_map. exists w. split; [auto|].
  destruct H as [->|H]; [left; auto|right; auto].
Qed.
Lemma eval_var_ok st sl tr h : Inv st sl tr -> ready st h ->
  exists st', eval_var zero red to_idx truth sh own st h = Ok st' /\ evo st st' /\ Inv st' sl tr /\ dirty st' h = false /\ is_node (getv (vars st') h) = false.
Proof.
  intros I [L [T D]]. unfold eval_var. destruct (is_node (getv (vars st) h)) eqn:N.
  - pose proof (node_clean _ _ _ _ I N) as Dh.
    destruct (eval_evo st sl tr [h] I) as [st1 [E [EV [P [SM IN]]]]]; [intros r [<-|[]]; auto|].
    rewrite E. cbn [rbind]. eexists. split; [reflexivity|].
    assert (N1 : is_node (getv (vars st1) h) = true) by (unfold is_node; destruct (SM h) as [<- _]; auto).
    assert (L1 : h < length (vars st1)) by (rewrite (e_len _ _ EV); auto).
    assert (HC : forall k, value st h k = value st1 h k).
    { intros k. rewrite <- cur_clean by auto. rewrite <- (e_cur _ _ EV) by (split; auto; split; auto; congruence). apply cur_clean. unfold dirty. rewrite P. auto. }
    destruct (store_ok st1 sl tr h (value st h) (IN tr) P N1 L1 HC) as [I2 V2].
    assert (P2 : pend (store zero st1 h (value st h)) = []) by exact P.
    assert (GV : forall d, getv (vars (store zero st1 h (value st h))) d = if Nat.eqb d h then {| v_k := KMem (nb st1); v_n := v_n (getv (vars st1) h); v_ex := None |} else getv (vars st1) d).
    { intros d. cbn. apply getv_set; auto. }
    assert (EV2 : evo st1 (store zero st1 h (value st h))).
    { constructor; auto.
      - cbn. apply set_nth_length.
      - intros d. rewrite GV. destruct (Nat.eqb_spec d h) as [->|]; auto.
      - intros d c H. rewrite GV. destruct (Nat.eqb_spec d h) as [->|]; [|auto]. unfold is_node in N1. rewrite H in N1. easy.
      - intros d c H. rewrite GV. destruct (Nat.eqb_spec d h) as [->|]; [|auto]. unfold is_node in N1. rewrite H in N1. easy.
      - intros d H. rewrite GV. destruct (Nat.eqb_spec d h) as [->|]; auto.
      - intros d _ Nd. rewrite GV. destruct (Nat.eqb_spec d h) as [->|]; [congruence|auto].
      - intros u k [Lu _]. rewrite !cur_clean by (unfold dirty; rewrite ?P2, ?P; auto). apply V2. auto.
      - intros u [Lu _]. apply ready_clean; [auto|]. cbn. rewrite set_nth_length. auto.
      - intros u H. unfold Sct_Model.internal in *. rewrite P2 in H. rewrite P. simpl in *. rewrite !app_nil_r in *.
        apply in_flat_map in H. destruct H as [r [Hr H]]. apply in_flat_map. exists r. split; [exact Hr|].
        rewrite set_nth_length in H. eapply below_store; [| |exact H]; auto. }
    split; [eapply evo_trans; eauto|]. split; [apply I2|]. split; [unfold dirty; rewrite P2; auto|].
    rewrite GV, Nat.eqb_refl. auto.
  - destruct (dirty st h) eqn:Dh.
    + unfold eval. destruct (eval_evo st sl tr [] I) as [st1 [E [EV [P [SM IN]]]]]; [intros r []|].
      exists st1. split; [auto|]. split; [auto|]. split; [auto|]. split; [unfold dirty; rewrite P; auto|apply (e_node _ _ EV); auto].
    + exists st. split; [auto|]. split; [apply evo_refl|]. auto.
Qed.
Lemma clean_ok st sl tr hs : Inv st sl tr ->
  exists st', clean zero red to_idx truth sh own st hs = Ok st' /\ evo st st' /\ Inv st' sl tr /\ (forall h, In h hs -> dirty st' h = false).
Proof.
  intros I. unfold clean. destruct (existsb (dirty st) hs) eqn:E.
  - unfold eval. destruct (eval_evo st sl tr [] I) as [st1 [E1 [EV [P [SM IN]]]]]; [intros r []|].
    exists st1. split; [auto|]. split; [auto|]. split; [auto|]. intros h _. unfold dirty. rewrite P. auto.
  - exists st. split; [auto|]. split; [apply evo_refl|]. split; [auto|]. intros h Hh. destruct (dirty st h) eqn:D; [|auto].
    cut (existsb (dirty st) hs = true); [congruence|]. apply existsb_exists. eauto.
Qed.

(** ** The contributions of a scatter *)
Lemma lane_ok st sl tr y o a n k : Inv st sl tr -> nth_error (slots st) y = Some (Some o) -> nth_error sl y = Some (Some a) ->
  dirty st o = false -> (a_n a = 1 \/ a_n a = n) -> k < n -> value st o (bc (v_n (getv (vars st) o)) k) = lane a k.
Proof.
  intros I H Ha D N L. destruct (i_val _ _ _ I y o H) as [a' [Ha' [Hn Hv]]]. rewrite Ha in Ha'. injection Ha' as <-.
  rewrite <- cur_clean by auto. unfold bc, lane. rewrite <- Hn. destruct (Nat.eqb_spec (a_n a) 1); apply Hv; lia.
Qed.
Lemma updates_spec st s va ia ma b :
  s_b s = b ->
  (forall k, k < s_n s -> value st (s_v s) (bc (v_n (getv (vars st) (s_v s))) k) = lane va k) ->
  (forall k, k < s_n s -> value st (s_i s) (bc (v_n (getv (vars st) (s_i s))) k) = lane ia k) ->
  (forall k, k < s_n s -> value st (s_m s) (bc (v_n (getv (vars st) (s_m s))) k) = lane ma k) ->
  (forall j c, acc red (filter (hit b j) (updates st s)) c
    = fold_left (red (s_op s)) (map (lane va) (filter (fun k => Nat.eqb (to_idx (lane ia k)) j) (active truth (s_n s) ma))) c)
  /\ map u_i (updates st s) = map (fun k => to_idx (lane ia k)) (active truth (s_n s) ma).
Proof.
  intros <- HV HI HM. unfold Sct_Model.updates, active.
  assert (HL : forall k, In k (seq 0 (s_n s)) -> k < s_n s) by (intros k H; apply in_seq in H; lia).
  revert HL. generalize (seq 0 (s_n s)). intros ls HL. induction ls as [|k ls IH]; [auto|].
  destruct IH as [IH1 IH2]; [intros; apply HL; simpl; auto|]. assert (Lk : k < s_n s) by (apply HL; simpl; auto).
  cbn [flat_map filter]. rewrite HV, HI, HM by auto. destruct (truth (lane ma k)); [|split; auto].
  split.
  - intros j c. cbn [app filter]. unfold hit at 1. cbn [u_b u_i]. rewrite Nat.eqb_refl. rewrite (Nat.eqb_sym j). cbn [andb].
    destruct (Nat.eqb (to_idx (lane ia k)) j); [|apply IH1]. cbn [map fold_left]. unfold acc at 1. cbn [fold_left u_op u_v]. apply IH1.
  - cbn [app map u_i]. f_equal. auto.
Qed.
Lemma distinct_nodup l : distinct l = true -> NoDup l.
Proof.
  induction l as [|x l IH]; intros H; [constructor|]. simpl in H. apply andb_true_iff in H. destruct H as [H1 H2]. constructor; [|auto].
  intros H. apply negb_true_iff in H1. cut (existsb (Nat.eqb x) l = true); [congruence|]. apply existsb_exists. exists x. split; [auto|apply Nat.eqb_refl].
Qed.
Lemma size_ok (st : mst) hs (l : list arr) n : Forall2 (fun h a => a_n a = v_n (getv (vars st) h)) hs l -> joint l = Some n ->
  size_of zero st hs = Ok n /\ forall a, In a l -> a_n a = 1 \/ a_n a = n.
Proof.
  intros F J. unfold joint in J. unfold size_of.
  assert (E : map (fun h => v_n (getv (vars st) h)) hs = map a_n l).
  { clear J. induction F as [|h a hs l H F IH]; [auto|]. simpl. rewrite IH, H. auto. }
  rewrite E. change (list_max (map a_n l)) with (fold_right Nat.max 0 (map a_n l)).
  set (m := fold_right Nat.max 0 (map a_n l)) in *. destruct (forallb (fun a => Nat.eqb (a_n a) 1 || Nat.eqb (a_n a) m) l) eqn:B; [|easy].
  injection J as <-. rewrite forallb_forall in B. split.
  - cut (forallb (fun k => Nat.eqb k m || Nat.eqb k 1) (map a_n l) = true); [intros ->; auto|]. apply forallb_forall.
    intros k Hk. apply in_map_iff in Hk. destruct Hk as [a [<- Ha]]. rewrite orb_comm. auto.
  - intros a Ha. apply B in Ha. apply orb_true_iff in Ha. rewrite !Nat.eqb_eq in Ha. auto.
Qed.
Lemma count_two (l : list (option nat)) h x y : x < y -> nth_error l x = Some (Some h) -> nth_error l y = Some (Some h) ->
  1 < count h (flat_map (fun o => match o with Some h => [h] | None => [] end) l).
Proof.
  assert (ONE : forall l y, nth_error l y = Some (Some h) -> 0 < count h (flat_map (fun o : option nat => match o with Some h => [h] | None => [] end) l)).
  { clear. intros l. induction l as [|o l IH]; intros y H; [destruct y; easy|]. unfold count in *. cbn [flat_map]. rewrite filter_app, app_length.
    destruct y as [|y]; [injection H as ->; simpl; rewrite Nat.eqb_refl; simpl; lia|]. simpl in H. apply IH in H. lia. }
  revert x y. induction l as [|o l IH]; intros x y L Hx Hy; [destruct x; easy|].
  destruct y as [|y]; [lia|]. unfold count in *. cbn [flat_map]. rewrite filter_app, app_length. destruct x as [|x].
  - injection Hx as ->. simpl in Hy. simpl. rewrite Nat.eqb_refl. simpl. apply ONE in Hy. lia.
  - simpl in Hx, Hy. specialize (IH x y ltac:(lia) Hx Hy). lia.
Qed.
Lemma count_one (st : mst) h x y : Nat.ltb 1 (count h (held st)) = false -> nth_error (slots st) x = Some (Some h) -> nth_error (slots st) y = Some (Some h) -> x = y.
Proof.
  intros C Hx Hy. apply Nat.ltb_ge in C. destruct (Nat.lt_trichotomy x y) as [L|[E|L]]; [|auto|].
  - pose proof (count_two _ _ _ _ L Hx Hy). unfold held in C. lia.
  - pose proof (count_two _ _ _ _ L Hy Hx). unfold held in C. lia.
Qed.

Lemma new_getv st v : getv (vars (fst (new st v))) (length (vars st)) = v.
Proof. exact (getv_new zero (vars st) v). Qed.
Lemma new_mem_getv st n ex c : getv (vars (fst (new_mem st n ex c))) (length (vars st)) = {| v_k := KMem (nb st); v_n := n; v_ex := ex |}.
Proof. exact (getv_new zero (vars st) _). Qed.
Lemma under_new st st' v d : acyclic zero (vars st) -> grows st st' v -> In d (under st' (length (vars st))) ->
  exists a, In a (deps v) /\ (d = a \/ In d (under st a)).
Proof.
  intros A G H. unfold under in H. rewrite (g_vars _ _ _ G), app_length, Nat.add_1_r in H. cbn [below] in H. rewrite getv_new in H.
  apply in_flat_map in H. destruct H as [a [Ha H]]. exists a. split; [auto|]. destruct H as [H|H]; [auto|]. right.
  pose proof (g_dep _ _ _ G a Ha) as La. rewrite <- (grow_under st st' v a A G La). unfold under. rewrite (g_vars _ _ _ G).
  rewrite (below_fuel zero _ (acyclic_app zero _ _ A (g_dep _ _ _ G)) _ (length (vars st))); auto. rewrite app_length. lia.
Qed.
Lemma value_new sl tr st st' v a k : Inv st sl tr -> grows st st' v -> a < length (vars st) -> den zero to_idx truth (length (vars st)) (vars st') (bufs st') a k = value st a k.
Proof.
  intros I G La. rewrite <- (grow_value st st' v a k (i_ac _ _ _ I) (i_buf _ _ _ I) G La). unfold Sct_Model.value.
  pose proof (acyclic_app zero _ _ (i_ac _ _ _ I) (g_dep _ _ _ G)) as A. rewrite <- (g_vars _ _ _ G) in A.
  apply den_fuel; auto. rewrite (g_vars _ _ _ G), app_length. lia.
Qed.
Lemma value_node sl tr st st' v f args k : Inv st sl tr -> grows st st' v -> v_k v = KNode f args ->
  value st' (length (vars st)) k = f (map (fun a => value st a (bc (v_n (getv (vars st) a)) k)) args).
Proof.
  intros I G Kv. unfold Sct_Model.value at 1. rewrite (g_vars _ _ _ G) at 1. rewrite app_length, Nat.add_1_r. cbn [den].
  rewrite (g_vars _ _ _ G) at 1. rewrite getv_new, Kv. f_equal. apply map_ext_in. intros a Ha.
  assert (La : a < length (vars st)) by (apply (g_dep _ _ _ G); unfold deps; rewrite Kv; auto).
  rewrite (value_new sl tr st st' v) by auto. rewrite (g_vars _ _ _ G), getv_app by auto. auto.
Qed.
Lemma value_gather sl tr st st' v a b m k : Inv st sl tr -> grows st st' v -> v_k v = KGather a b m ->
  value st' (length (vars st)) k = if truth (value st m (bc (v_n (getv (vars st) m)) k)) then value st a (to_idx (value st b (bc (v_n (getv (vars st) b)) k))) else zero.
Proof.
  intros I G Kv. unfold Sct_Model.value at 1. rewrite (g_vars _ _ _ G) at 1. rewrite app_length, Nat.add_1_r. cbn [den].
  rewrite (g_vars _ _ _ G) at 1. rewrite getv_new, Kv.
  assert (La : forall d, In d [a; b; m] -> d < length (vars st)) by (intros d Hd; apply (g_dep _ _ _ G); unfold deps; rewrite Kv; auto).
  rewrite !(value_new sl tr st st' v) by (auto; apply La; simpl; auto). rewrite (g_vars _ _ _ G), !getv_app by (apply La; simpl; auto). auto.
Qed.
(** ** The target *)
Section Target.
Variables (sl : list (option arr)) (tr : nat -> option (rop * bool)) (x i : nat) (ta : arr) (o : rop) (expand : bool).
Record Tgt (st : mst) (t : nat) : Prop := {
  t_inv : Inv st sl tr;
  t_ready : ready st t;
  t_al : forall y, y <> x -> nth_error (slots st) y <> Some (Some t);
  t_ni : ~ In t (internal st);
  t_val : Val st t ta;
  t_ops : Forall (fun s => s_op s = o) (on st t);
  t_rid : o = RId -> on st t = [];
  t_x : o <> RId -> Forall (fun s => s_x s = expand) (on st t);
  t_sx : forall s, In s (on st t) -> s_x s = true -> v_ex (getv (vars st) t) <> None;
  t_pair : paired (on st t);
  t_i : t <> i }.
Lemma tgt_evo st st' t : Tgt st t -> evo st st' -> Inv st' sl tr -> (on st' t <> [] -> v_ex (getv (vars st') t) = None -> v_ex (getv (vars st) t) = None) -> Tgt st' t.
Proof.
  intros T E I X.
  assert (A : forall y, y <> x -> nth_error (slots st') y <> Some (Some t)) by (rewrite (e_slots _ _ E); apply T).
  assert (N : ~ In t (internal st')) by (intros H; apply (e_int _ _ E) in H; revert H; apply T).
  assert (W : Val st' t ta).
  { destruct (t_val _ _ T) as [N1 C]. split; [rewrite (e_n _ _ E); auto|]. intros k Hk. rewrite (e_cur _ _ E) by apply T. auto. }
  assert (R : ready st' t) by apply (e_ready _ _ E), T.
  destruct (e_on _ _ E t) as [O|O]; constructor; auto; try (apply (t_i _ _ T)); rewrite O; auto; try (now intros s []).
  - apply (t_ops _ _ T).
  - apply (t_rid _ _ T).
  - apply (t_x _ _ T).
  - intros s Hs Sx N1. apply X in N1; [|rewrite O; intros E0; rewrite E0 in Hs; easy]. revert N1. eapply (t_sx _ _ T); eauto.
  - apply (t_pair _ _ T).
Qed.
(** A new variable with the values of the target *)
Lemma tgt_new st st' v : Inv st sl tr -> i < length (vars st) -> grows st st' v -> v_n v = a_n ta ->
  (forall d, In d (under st' (length (vars st))) -> dirty st d = false) ->
  (forall k, k < a_n ta -> value st' (length (vars st)) k = a_at ta k) -> Tgt st' (length (vars st)).
Proof.
  intros I Li G N U C. destruct (grow_ok st st' v sl tr I G) as [[g1 g2 g3 g4 g5 g6 g7 g8 g9 g10 g11 g12 g13] I'].
  assert (D : dirty st' (length (vars st)) = false) by (rewrite g6; auto).
  assert (O : on st' (length (vars st)) = []) by (apply dirty_on; auto).
  constructor; rewrite ?O; auto; try (now intros s []); try lia.
  - split; [lia|]. split; [|congruence]. intros d Hd. rewrite g6. auto.
  - intros y _ H. rewrite g10 in H. destruct (i_slot _ _ _ I _ _ H) as [[L _ _ _ _ _ _] _]. lia.
  - intros H. apply g12 in H. lia.
  - split; [rewrite g2; auto|]. intros k Hk. rewrite cur_clean by auto. auto.
Qed.

Notation eval_var := (@eval_var V zero red to_idx truth sh own).
Notation copy := (@copy V zero red to_idx truth sh own).
Notation data := (@data V zero red to_idx truth sh own).
Notation expand_var := (@expand_var V zero red to_idx truth sh own).
Notation infer := (@infer V zero red to_idx truth sh own).
Lemma tgt_mem st st' n ex c : Inv st sl tr -> i < length (vars st) -> st' = fst (new_mem st n ex c) -> n = a_n ta -> (forall k, k < a_n ta -> c k = a_at ta k) ->
  Tgt st' (length (vars st)).
Proof.
  intros I Li -> -> HC. pose proof (new_mem_grows st (a_n ta) ex c) as G.
  apply tgt_new with {| v_k := KMem (nb st); v_n := a_n ta; v_ex := ex |}; auto.
  - intros d Hd. apply (under_new _ _ _ d (i_ac _ _ _ I) G) in Hd. destruct Hd as [a [[] _]].
  - intros k Hk. rewrite (value_mem _ _ (nb st)); [|rewrite ?new_getv, ?new_mem_getv; auto]. cbn. rewrite Nat.eqb_refl. auto.
Qed.
Lemma copy_tgt st h : Inv st sl tr -> ready st h -> Val st h ta -> i < length (vars st) ->
  exists st' t', copy st h = Ok (st', t') /\ Tgt st' t' /\ slots st' = slots st /\ v_ex (getv (vars st') t') = None /\ on st' t' = [].
Proof.
  intros I R W Li. unfold Sct_Model.copy.
  assert (H1 : exists st1, (if dirty st h then eval_var st h else Ok st) = Ok st1 /\ evo st st1 /\ Inv st1 sl tr /\ dirty st1 h = false).
  { destruct (dirty st h) eqn:D.
    - destruct (eval_var_ok st sl tr h I R) as [st1 [E [EV [I1 [D1 _]]]]]. exists st1. auto.
    - exists st. split; [auto|]. split; [apply evo_refl|auto]. }
  destruct H1 as [st1 [-> [EV [I1 D1]]]]. cbn [rbind].
  assert (R1 : ready st1 h) by (apply (e_ready _ _ EV); auto).
  destruct R1 as [L1 [T1 _]]. assert (Li1 : i < length (vars st1)) by (rewrite (e_len _ _ EV); auto).
  assert (N1 : v_n (getv (vars st1) h) = a_n ta) by (rewrite (e_n _ _ EV); destruct W; auto).
  assert (V1 : forall k, k < a_n ta -> value st1 h k = a_at ta k).
  { intros k Hk. rewrite <- cur_clean by auto. rewrite (e_cur _ _ EV) by auto. apply W; auto. }
  assert (NODE : is_node (getv (vars st1) h) = true ->
     let v := {| v_k := KNode (fun l : list V => nth 0 l zero) [h]; v_n := v_n (getv (vars st1) h); v_ex := None |} in
     let st' := fst (new st1 v) in
     Tgt st' (length (vars st1)) /\ slots st' = slots st /\ v_ex (getv (vars st') (length (vars st1))) = None /\ on st' (length (vars st1)) = []).
  { intros _ v st'. assert (G : grows st1 st' v).
    { apply new_grows; [easy|]. intros d [<-|[]]. auto. }
    assert (T : Tgt st' (length (vars st1))).
    { apply tgt_new with v; auto.
      - intros d Hd. apply (under_new _ _ _ d (i_ac _ _ _ I1) G) in Hd. destruct Hd as [a [[<-|[]] [->|Hd]]]; auto.
      - intros k Hk. rewrite (value_node sl tr st1 st' v _ _ k I1 G eq_refl). cbn [map nth]. rewrite N1. unfold bc.
        destruct (Nat.eqb_spec (a_n ta) 1) as [E1|]; [|auto]. rewrite V1 by lia. f_equal. lia. }
    split; [auto|]. split; [apply (e_slots _ _ EV)|]. split; [unfold st'; rewrite new_getv; auto|].
    destruct (grow_ok _ _ _ _ _ I1 G) as [g _]. rewrite (gr_on _ _ _ g). apply dirty_on. apply (gr_clean _ _ _ g). }
  assert (FRESH : forall n ex c, on (fst (new_mem st1 n ex c)) (length (vars st1)) = []).
  { intros n ex c. destruct (grow_ok _ _ _ _ _ I1 (new_mem_grows st1 n ex c)) as [g _]. rewrite (gr_on _ _ _ g). apply dirty_on. apply (gr_clean _ _ _ g). }
  destruct (v_k (getv (vars st1) h)) as [c|b|f args|s0 i0 m0] eqn:K1.
  - set (v := {| v_k := KLit c; v_n := v_n (getv (vars st1) h); v_ex := None |}). exists (fst (new st1 v)), (length (vars st1)). split; [auto|].
    assert (G : grows st1 (fst (new st1 v)) v) by (apply new_grows; easy).
    split; [|split; [apply (e_slots _ _ EV)|split; [rewrite ?new_getv, ?new_mem_getv; auto|]]].
    + apply tgt_new with v; auto.
      * intros d Hd. apply (under_new _ _ _ d (i_ac _ _ _ I1) G) in Hd. destruct Hd as [a [[] _]].
      * intros k Hk. rewrite (value_lit _ _ c); [|cbn; rewrite app_length; simpl; lia|rewrite ?new_getv, ?new_mem_getv; auto].
        rewrite <- V1 by auto. symmetry. apply value_lit; auto.
    + destruct (grow_ok _ _ _ _ _ I1 G) as [g _]. rewrite (gr_on _ _ _ g). apply dirty_on. apply (gr_clean _ _ _ g).
  - exists (fst (new_mem st1 (v_n (getv (vars st1) h)) None (bufs st1 b))), (length (vars st1)). split; [auto|].
    split; [|split; [apply (e_slots _ _ EV)|split; [rewrite ?new_getv, ?new_mem_getv; auto|auto]]].
    eapply tgt_mem; [exact I1|auto|reflexivity|auto|]. intros k Hk. rewrite <- V1 by auto. symmetry. apply value_mem; auto.
  - destruct NODE as [H1 H2]; [unfold is_node; rewrite K1; auto|]. eexists _, _. split; [reflexivity|]. auto.
  - destruct NODE as [H1 H2]; [unfold is_node; rewrite K1; auto|]. eexists _, _. split; [reflexivity|]. auto.
Qed.
Lemma data_tgt st t : Tgt st t -> i < length (vars st) ->
  exists st' t' b, data st t = Ok (st', t') /\ Tgt st' t' /\ slots st' = slots st /\ v_k (getv (vars st') t') = KMem b
    /\ i < length (vars st') /\ (on st t = [] -> on st' t' = [])
    /\ ((st' = st /\ t' = t) \/ (v_ex (getv (vars st') t') = None /\ forall b, v_k (getv (vars st) t) <> KMem b)).
Proof.
  intros T Li. pose proof (t_inv _ _ T) as I. unfold Sct_Model.data.
  assert (NODE : is_node (getv (vars st) t) = true -> exists st' b, eval_var st t = Ok st' /\ Tgt st' t /\ slots st' = slots st /\ v_k (getv (vars st') t) = KMem b
     /\ i < length (vars st') /\ on st' t = [] /\ v_ex (getv (vars st') t) = None).
  { intros N. destruct (eval_var_ok st sl tr t I (t_ready _ _ T)) as [st' [E [EV [I' [D' _]]]]].
    assert (ON : on st' t = []) by (apply dirty_on; auto).
    unfold Sct_Model.eval_var in E. rewrite N in E.
    destruct (eval_roots st [t]) as [st1| | |] eqn:E1; try easy. cbn [rbind] in E. injection E as E.
    assert (L1 : t < length (vars st1)).
    { destruct (t_ready _ _ T) as [L _]. rewrite <- (e_len _ _ EV) in L. rewrite <- E in L. cbn in L. rewrite set_nth_length in L. auto. }
    exists st', (nb st1). split; [unfold Sct_Model.eval_var; rewrite N, E1; cbn [rbind]; rewrite E; auto|].
    split; [eapply tgt_evo; eauto; congruence|]. split; [apply (e_slots _ _ EV)|].
    split; [rewrite <- E; unfold store; cbn [vars]; rewrite getv_set by auto; rewrite Nat.eqb_refl; auto|].
    split; [rewrite (e_len _ _ EV); auto|]. split; [auto|]. rewrite <- E; unfold store; cbn [vars]; rewrite getv_set by auto; rewrite Nat.eqb_refl; auto. }
  destruct (v_k (getv (vars st) t)) as [c|b|f args|s0 i0 m0] eqn:Kt.
  - exists (fst (new_mem st (v_n (getv (vars st) t)) None (fun _ => c))), (length (vars st)), (nb st). split; [auto|].
    split; [|split; [auto|split; [rewrite ?new_getv, ?new_mem_getv; auto|]]].
    + eapply tgt_mem; [exact I|auto|reflexivity|destruct (t_val _ _ T); auto|]. intros k Hk. destruct (t_val _ _ T) as [_ C]. rewrite <- C by auto.
      unfold cur. rewrite Kt. symmetry. apply value_lit; [apply (t_ready _ _ T)|auto].
    + split; [cbn; rewrite app_length; simpl; lia|]. split; [|right; split; [rewrite ?new_getv, ?new_mem_getv; auto|easy]].
      intros _. destruct (grow_ok _ _ _ _ _ I (new_mem_grows st (v_n (getv (vars st) t)) None (fun _ => c))) as [g _].
      rewrite (gr_on _ _ _ g). apply dirty_on. apply (gr_clean _ _ _ g).
  - exists st, t, b. split; [auto|]. repeat (split; [auto|]). auto.
  - destruct NODE as [st' [b [E [T' [S' [K' [L' [O' X']]]]]]]]; [unfold is_node; rewrite Kt; auto|]. rewrite E. cbn [rbind]. exists st', t, b.
    repeat (split; [auto|]). right. split; [auto|easy].
  - destruct NODE as [st' [b [E [T' [S' [K' [L' [O' X']]]]]]]]; [unfold is_node; rewrite Kt; auto|]. rewrite E. cbn [rbind]. exists st', t, b.
    repeat (split; [auto|]). right. split; [auto|easy].
Qed.
Record Fin (st : mst) (t : nat) (sx sc : bool) : Prop := {
  f_sx : o <> RId -> sx = expand;
  f_rid : o = RId -> sx = false;
  f_ex : sx = true -> v_ex (getv (vars st) t) = Some o;
  f_pair : sx = true -> sc = true \/ exists s, In s (on st t) /\ s_c s = true;
  f_all : forall o', v_ex (getv (vars st) t) = Some o' -> o' = o /\ (sc = true \/ exists s, In s (on st t) /\ s_c s = true /\ s_op s = o');
  f_mem : sx = true -> exists b, v_k (getv (vars st) t) = KMem b;
  f_sc : sc = true -> on st t = [] /\ sx = true }.
Lemma infer_tgt st t : Tgt st t -> Ex st t -> i < length (vars st) ->
  exists st' t' sx sc, infer st t o expand = Ok (st', t', sx, sc) /\ Tgt st' t' /\ slots st' = slots st /\ i < length (vars st') /\ Fin st' t' sx sc
    /\ (sx = true -> sc = false -> st' = st /\ t' = t /\ on st t <> []).
Proof.
  intros T E Li. unfold Sct_Model.infer.
  assert (EO : forall o', v_ex (getv (vars st) t) = Some o' -> o' = o /\ o <> RId /\ on st t <> [] /\ exists s, In s (on st t) /\ s_c s = true /\ s_op s = o').
  { intros o' H. destruct (E o' H) as [s [Hs [C P]]]. pose proof (t_ops _ _ T) as F. rewrite Forall_forall in F. pose proof (F s Hs) as Eo.
    split; [congruence|]. split; [intros R; rewrite (t_rid _ _ T R) in Hs; easy|]. split; [intros Z; rewrite Z in Hs; easy|eauto]. }
  replace (match v_ex (getv (vars st) t) with Some o' => negb (rop_eqb o o') | None => false end) with false.
  2:{ destruct (v_ex (getv (vars st) t)) as [o'|]; [|auto]. destruct (EO o' eq_refl) as [-> _]. rewrite rop_eqb_refl. auto. }
  destruct (negb (rop_eqb o RId) && expand) eqn:B.
  - apply andb_true_iff in B. destruct B as [B1 B2]. assert (NR : o <> RId) by (intros Z; rewrite Z in B1; easy).
    unfold Sct_Model.expand_var. destruct (v_ex (getv (vars st) t)) as [o'|] eqn:X.
    + destruct (EO o' eq_refl) as [-> [_ [NE [s [Hs [C P]]]]]]. rewrite rop_eqb_refl. cbn [rbind]. exists st, t, true, false.
      do 4 (split; [auto|]). split; [|auto]. constructor; auto; try easy.
      * eauto.
      * intros o' H. rewrite X in H. injection H as <-. eauto.
      * intros _. apply on_In in Hs. destruct Hs as [Hs <-]. exists (s_b s). apply (i_pend _ _ _ (t_inv _ _ T)); auto.
    + assert (ON : on st t = []).
      { pose proof (t_x _ _ T NR) as F. pose proof (t_sx _ _ T) as SX. destruct (on st t) as [|s l]; [auto|]. exfalso. apply (SX s); simpl; auto.
        rewrite B2 in F. inversion F; auto. }
      destruct (data_tgt st t T Li) as [st1 [d [b [Ed [T1 [S1 [K1 [L1 [O1 _]]]]]]]]]. rewrite Ed. cbn [rbind]. rewrite K1. cbn [rbind].
      set (n := v_n (getv (vars st1) d)). exists (fst (new_mem st1 n (Some o) (bufs st1 b))), (length (vars st1)), true, true.
      split; [auto|]. pose proof (t_inv _ _ T1) as I1.
      assert (OF : on (fst (new_mem st1 n (Some o) (bufs st1 b))) (length (vars st1)) = []).
      { destruct (grow_ok _ _ _ _ _ I1 (new_mem_grows st1 n (Some o) (bufs st1 b))) as [g _]. rewrite (gr_on _ _ _ g). apply dirty_on. apply (gr_clean _ _ _ g). }
      split.
      { eapply tgt_mem; [exact I1|auto|reflexivity|destruct (t_val _ _ T1); auto|]. intros k Hk. destruct (t_val _ _ T1) as [_ C]. rewrite <- C by auto.
        rewrite cur_clean by (apply dirty_on; auto). symmetry. apply value_mem; auto. }
      split; [auto|]. split; [cbn; rewrite app_length; lia|]. split; [|easy].
      constructor; rewrite ?OF; auto.
      * intros R. congruence.
      * intros _. rewrite new_mem_getv. auto.
      * intros o' H. rewrite new_mem_getv in H. injection H as <-. auto.
      * intros _. rewrite new_mem_getv. cbn. eauto.
  - exists st, t, false, false. do 4 (split; [auto|]). split; [|easy]. constructor; auto; try easy.
    + intros NR. destruct expand; [|auto]. destruct (rop_eqb o RId) eqn:R; [apply rop_eqb_eq in R; congruence|easy].
    + intros o' H. destruct (EO o' H) as [H1 [_ [_ H2]]]. auto.
Qed.
End Target.

(** ** Scatter *)
Hypothesis veq_eq : forall a b, veq a b = true -> a = b.
Hypothesis red_rid : forall a c, red RId a c = c.
Hypothesis red_zero : forall a, red RAdd a zero = a.
Lemma is_lit_some (st : mst) h p : is_lit zero st h p = true -> exists c, v_k (getv (vars st) h) = KLit c /\ p c = true.
Proof. unfold is_lit, lit. destruct (v_k (getv (vars st) h)); try easy. eauto. Qed.
Lemma lit_clean st sl tr h c : Inv st sl tr -> v_k (getv (vars st) h) = KLit c -> dirty st h = false.
Proof. intros I H. apply dirty_no. intros s Hs <-. rewrite (i_pend _ _ _ I) in H by auto. easy. Qed.
Lemma active_lt n (m : arr) k : In k (active truth n m) -> k < n.
Proof. unfold active. rewrite filter_In, in_seq. lia. Qed.
Lemma scatter_ok st sl tr x xv xi xm t v i m ta va ia ma o expand share a' :
  Inv st sl tr ->
  nth_error (slots st) x = Some (Some t) -> nth_error (slots st) xv = Some (Some v) -> nth_error (slots st) xi = Some (Some i) -> nth_error (slots st) xm = Some (Some m) ->
  nth_error sl x = Some (Some ta) -> nth_error sl xv = Some (Some va) -> nth_error sl xi = Some (Some ia) -> nth_error sl xm = Some (Some ma) ->
  x <> xv -> x <> xm ->
  scattered red to_idx truth ta va ia ma o = Some a' ->
  (o = RId \/ tr x = None \/ tr x = Some (o, expand)) ->
  (o = RId \/ expand = false \/ tr x = None \/ (tr xv = None /\ tr xi = None /\ tr xm = None)) ->
  exists st' t', scatter veq zero red to_idx truth llvm sh own st t v i m o expand share = Ok (st', t') /\ slots st' = slots st
    /\ Inv (set_slot st' x (Some t')) (set_nth x (Some a') sl) (tset tr x (Some (o, expand))).
Proof.
  intros I Hx Hv Hi Hm Sx Sv Si Sm NV NM SC ST1 ST2.
  assert (Lx : x < length (slots st)) by (apply nth_error_Some; congruence).
  assert (VAL : forall y h a, nth_error (slots st) y = Some (Some h) -> nth_error sl y = Some (Some a) -> Val st h a).
  { intros y h a H1 H2. destruct (i_val _ _ _ I y h H1) as [a2 [H3 H4]]. rewrite H2 in H3. injection H3 as <-. auto. }
  unfold scattered in SC. destruct (joint [va; ia; ma]) as [n|] eqn:J; [|easy]. cbn [bind] in SC.
  destruct (size_ok st [v; i; m] [va; ia; ma] n) as [SZ LN]; auto.
  { repeat constructor; eapply VAL; eauto. }
  destruct (forallb _ _ && _) eqn:CK in SC; [|easy]. injection SC as <-. apply andb_true_iff in CK. destruct CK as [_ CK].
  set (ls := active truth n ma) in *. set (ix := fun k => to_idx (lane ia k)) in *.
  set (a' := {| a_n := a_n ta; a_at := _ |}).
  assert (LLT : forall k, In k ls -> k < n) by (intros k; apply active_lt).
  assert (LANE : forall st1, Inv st1 sl tr -> slots st1 = slots st -> forall y h a, nth_error (slots st) y = Some (Some h) -> nth_error sl y = Some (Some a) ->
     In a [va; ia; ma] -> dirty st1 h = false -> forall k, k < n -> value st1 h (bc (v_n (getv (vars st1) h)) k) = lane a k).
  { intros st1 I1 S1 y h a H1 H2 H3 D k Hk. apply (lane_ok st1 sl tr y h a n k); auto; [rewrite S1; auto]. }
  assert (Sx' : Slot st (Some (o, expand)) t /\ Ex st t).
  { destruct (i_slot _ _ _ I x t Hx) as [[A B C D E F G] X]. split; [|auto]. constructor; auto; [easy|].
    intros o' e' H Ho. injection H as <- <-. destruct ST1 as [->|[H|H]]; [easy| |apply E; auto].
    destruct (on st t) eqn:O; [constructor|]. exfalso. apply D; [easy|auto]. }
  unfold scatter. rewrite SZ. cbn [rbind].
  assert (SKIP : (forall k, k < a_n ta -> fold_left (red o) (map (lane va) (filter (fun l => Nat.eqb (ix l) k) ls)) (a_at ta k) = a_at ta k) ->
    exists st' t', Ok (st, t) = Ok (st', t') /\ slots st' = slots st /\ Inv (set_slot st' x (Some t')) (set_nth x (Some a') sl) (tset tr x (Some (o, expand)))).
  { intros H. exists st, t. split; [auto|]. split; [auto|]. destruct Sx' as [S1 E1]. apply put_ok; auto.
    destruct (VAL x t ta Hx Sx) as [N C]. split; [auto|]. intros k Hk. cbn [a_at a']. rewrite H by auto. apply C. auto. }
  destruct (rop_eqb o RId && is_lit zero st v (fun c => is_lit zero st t (veq c))) eqn:K1.
  { apply andb_true_iff in K1. destruct K1 as [K1 K2]. apply rop_eqb_eq in K1. apply is_lit_some in K2. destruct K2 as [c [K2 K3]].
    apply is_lit_some in K3. destruct K3 as [c' [K3 K4]]. apply veq_eq in K4. subst c'. apply SKIP. intros k Hk.
    destruct (VAL x t ta Hx Sx) as [N C]. rewrite <- C by auto. unfold cur. rewrite K3.
    assert (Lt : t < length (vars st)) by (apply (i_slot _ _ _ I x t Hx)). rewrite (value_lit st t c k Lt K3).
    assert (LC : forall l, In l (map (lane va) (filter (fun l => Nat.eqb (ix l) k) ls)) -> l = c).
    { intros l Hl. apply in_map_iff in Hl. destruct Hl as [z [<- Hz]]. apply filter_In in Hz. destruct Hz as [Hz _].
      rewrite <- (LANE st I eq_refl xv v va Hv Sv (or_introl eq_refl) (lit_clean _ _ _ _ _ I K2) z (LLT z Hz)).
      apply value_lit; [apply (i_slot _ _ _ I xv v Hv)|auto]. }
    revert LC. generalize (map (lane va) (filter (fun l => Nat.eqb (ix l) k) ls)). intros l. rewrite K1. induction l as [|z l IH]; intros LC; [auto|].
    cbn [fold_left]. rewrite red_rid. rewrite (LC z) by (simpl; auto). apply IH. intros; apply LC; simpl; auto. }
  destruct (is_lit zero st m (fun c => negb (truth c))) eqn:K2.
  { apply is_lit_some in K2. destruct K2 as [c [K3 K4]]. apply negb_true_iff in K4. apply SKIP. intros k Hk.
    replace ls with (@nil nat); [auto|]. symmetry. unfold ls, active. apply filter_nil. intros z Hz. apply in_seq in Hz.
    rewrite <- (LANE st I eq_refl xm m ma Hm Sm (or_intror (or_intror (or_introl eq_refl))) (lit_clean _ _ _ _ _ I K3) z ltac:(lia)).
    rewrite (value_lit st m c); [auto|apply (i_slot _ _ _ I xm m Hm)|auto]. }
  destruct (rop_eqb o RAdd && is_lit zero st v (veq zero)) eqn:K3.
  { apply andb_true_iff in K3. destruct K3 as [K3 K4]. apply rop_eqb_eq in K3. apply is_lit_some in K4. destruct K4 as [c [K4 K5]].
    apply veq_eq in K5. subst c. apply SKIP. intros k Hk.
    assert (LC : forall l, In l (map (lane va) (filter (fun l => Nat.eqb (ix l) k) ls)) -> l = zero).
    { intros l Hl. apply in_map_iff in Hl. destruct Hl as [z [<- Hz]]. apply filter_In in Hz. destruct Hz as [Hz _].
      rewrite <- (LANE st I eq_refl xv v va Hv Sv (or_introl eq_refl) (lit_clean _ _ _ _ _ I K4) z (LLT z Hz)).
      apply value_lit; [apply (i_slot _ _ _ I xv v Hv)|auto]. }
    revert LC. generalize (map (lane va) (filter (fun l => Nat.eqb (ix l) k) ls)). intros l. rewrite K3. induction l as [|z l IH]; intros LC; [auto|].
    cbn [fold_left]. rewrite (LC z) by (simpl; auto). rewrite red_zero. apply IH. intros; apply LC; simpl; auto. }
  clear SKIP K1 K2 K3 Sx'.
  (* flush *)
  assert (P1 : exists st1, (if dirty st t && rop_eqb o RId then Sct_Model.eval_var zero red to_idx truth sh own st t else Ok st) = Ok st1
      /\ evo st st1 /\ Inv st1 sl tr /\ (o = RId -> on st1 t = []) /\ (o <> RId -> st1 = st)).
  { destruct (dirty st t && rop_eqb o RId) eqn:B.
    - apply andb_true_iff in B. destruct B as [B1 B2]. apply rop_eqb_eq in B2.
      destruct (eval_var_ok st sl tr t I (slot_ready _ _ _ _ _ I Hx)) as [st1 [E [EV [I1 [D1 _]]]]]. exists st1. do 3 (split; [auto|]).
      split; [intros _; apply dirty_on; auto|easy].
    - exists st. split; [auto|]. split; [apply evo_refl|]. split; [auto|]. split; [|auto]. intros ->. rewrite andb_true_r in B. apply dirty_on; auto. }
  destruct P1 as [st1 [-> [EV1 [I1 [O1 Q1]]]]]. cbn [rbind]. pose proof (e_slots _ _ EV1) as S1.
  assert (Hx1 : nth_error (slots st1) x = Some (Some t)) by (rewrite S1; auto).
  assert (VT1 : Val st1 t ta).
  { destruct (VAL x t ta Hx Sx) as [N C]. split; [rewrite (e_n _ _ EV1); auto|]. intros k Hk. rewrite (e_cur _ _ EV1); [auto|]. eapply slot_ready; eauto. }
  assert (Li1 : i < length (vars st1)).
  { rewrite (e_len _ _ EV1). apply (i_slot _ _ _ I xi i Hi). }
  assert (P2 : exists st2 t2, (if shared zero st1 t i share then Sct_Model.copy zero red to_idx truth sh own st1 t else Ok (st1, t)) = Ok (st2, t2)
      /\ Tgt sl tr x i ta o expand st2 t2 /\ Ex st2 t2 /\ slots st2 = slots st /\ i < length (vars st2) /\ (on st2 t2 <> [] -> st2 = st1 /\ t2 = t)).
  { destruct (shared zero st1 t i share) eqn:SH.
    - destruct (copy_tgt sl tr x i ta o expand st1 t I1 (slot_ready _ _ _ _ _ I1 Hx1) VT1 Li1) as [st2 [t2 [E [T2 [S2 [X2 O2]]]]]].
      exists st2, t2. split; [auto|]. split; [auto|]. split; [intros o' H; congruence|]. split; [congruence|].
      split; [|congruence]. destruct (i_slot _ _ _ (t_inv _ _ _ _ _ _ _ _ _ T2) xi i) as [[L _ _ _ _ _ _] _]; [rewrite S2, S1; auto|auto].
    - exists st1, t. split; [auto|]. unfold shared in SH. apply orb_false_iff in SH. destruct SH as [SH _]. apply orb_false_iff in SH. destruct SH as [SH SI].
      apply orb_false_iff in SH. destruct SH as [SH1 SH2]. apply mem_not_In in SH2. apply Nat.eqb_neq in SI.
      destruct (i_slot _ _ _ I1 x t Hx1) as [[A B C D E F G] X].
      split; [|split; [auto|split; [auto|split; [auto|auto]]]]. constructor; auto.
      + eapply slot_ready; eauto.
      + intros y Ny Hy. apply Ny. symmetry. eapply count_one; eauto.
      + destruct (rop_eqb o RId) eqn:R; [apply rop_eqb_eq in R; rewrite O1 by auto; constructor|].
        assert (NR : o <> RId) by (intros Z; rewrite Z in R; easy). destruct ST1 as [Z|[Z|Z]]; [congruence| |].
        * destruct (on st1 t) eqn:O; [constructor|]. exfalso. apply D; [easy|auto].
        * specialize (E _ _ Z NR). rewrite Forall_forall in *. intros s Hs. apply E; auto.
      + intros NR. destruct ST1 as [Z|[Z|Z]]; [congruence| |].
        * destruct (on st1 t) eqn:O; [constructor|]. exfalso. apply D; [easy|auto].
        * specialize (E _ _ Z NR). rewrite Forall_forall in *. intros s Hs. apply E; auto. }
  destruct P2 as [st2 [t2 [-> [T2 [E2 [S2 [Li2 Q2]]]]]]]. cbn [rbind].
  destruct (infer_tgt sl tr x i ta o expand st2 t2 T2 E2 Li2) as [st3 [t3 [sx [sc [-> [T3 [S3 [Li3 [F3 Q3]]]]]]]]]. cbn [rbind].
  destruct (data_tgt sl tr x i ta o expand st3 t3 T3 Li3) as [st4 [t4 [b [-> [T4 [S4 [K4 [Li4 [O4 Q4]]]]]]]]]. cbn [rbind]. rewrite K4.
  assert (F4 : Fin o expand st4 t4 sx sc).
  { destruct Q4 as [[-> ->]|[X4 N4]]; [auto|]. assert (SX : sx = false).
    { destruct sx; [|auto]. destruct (f_mem _ _ _ _ _ _ F3 eq_refl) as [b' Hb]. exfalso. eapply N4; eauto. }
    assert (SCC : sc = false) by (destruct sc; [destruct (f_sc _ _ _ _ _ _ F3 eq_refl); congruence|auto]).
    subst sx sc. constructor; try easy; [apply F3|]. intros o' H. congruence. }
  assert (Q4' : sx = true -> sc = false -> st4 = st /\ t4 = t /\ on st t <> []).
  { intros H1 H2. destruct (Q3 H1 H2) as [-> [-> N2]]. destruct (Q2 N2) as [-> ->].
    destruct Q4 as [[-> ->]|[X4 N4]]; [|destruct (f_mem _ _ _ _ _ _ F3 H1) as [b' Hb]; exfalso; eapply N4; eauto].
    assert (st1 = st) as ->; [|auto]. apply Q1. intros Z. rewrite (f_rid _ _ _ _ _ _ F3 Z) in H1. easy. }
  clear Q3 Q2 Q4 O4 F3 T3 T2 E2.
  assert (S4' : slots st4 = slots st) by congruence.
  assert (NEV : t4 <> v) by (intros ->; apply (t_al _ _ _ _ _ _ _ _ _ T4 xv); [auto|rewrite S4'; auto]).
  assert (NEM : t4 <> m) by (intros ->; apply (t_al _ _ _ _ _ _ _ _ _ T4 xm); [auto|rewrite S4'; auto]).
  apply Nat.eqb_neq in NEV, NEM. rewrite NEV, NEM. cbn [andb orb]. rewrite !orb_false_r.
  apply Nat.eqb_neq in NEV, NEM. pose proof (t_inv _ _ _ _ _ _ _ _ _ T4) as I4.
  assert (P5 : exists st5, (if existsb (dirty st4) [v; i; m] then eval zero red to_idx truth sh own st4 else Ok st4) = Ok st5
     /\ Tgt sl tr x i ta o expand st5 t4 /\ slots st5 = slots st /\ v_k (getv (vars st5) t4) = KMem b /\ Fin o expand st5 t4 sx sc
     /\ (forall h, In h [v; i; m] -> dirty st5 h = false)).
  { destruct (existsb (dirty st4) [v; i; m]) eqn:DD.
    - assert (NSC : sx = true -> sc = true).
      { intros H1. destruct sc; [auto|]. exfalso. destruct (Q4' H1 eq_refl) as [-> [-> NO]].
        destruct (i_slot _ _ _ I x t Hx) as [SL _]. pose proof (sl_some _ _ _ SL NO) as NT.
        assert (NR : o <> RId) by (intros Z; rewrite (f_rid _ _ _ _ _ _ F4 Z) in H1; easy).
        destruct ST2 as [Z|[Z|[Z|[Z1 [Z2 Z3]]]]]; [congruence|rewrite <- (f_sx _ _ _ _ _ _ F4 NR) in Z; congruence|congruence|].
        apply existsb_exists in DD. destruct DD as [h [Hh DD]].
        assert (CL : forall y h, nth_error (slots st) y = Some (Some h) -> tr y = None -> dirty st h = false).
        { intros y h' H2 H3. destruct (i_slot _ _ _ I y h' H2) as [SL' _]. apply dirty_on. destruct (on st h') eqn:O; [auto|].
          exfalso. apply (sl_some _ _ _ SL'); [rewrite O; easy|auto]. }
        destruct Hh as [<-|[<-|[<-|[]]]]; [rewrite (CL xv v Hv Z1) in DD|rewrite (CL xi i Hi Z2) in DD|rewrite (CL xm m Hm Z3) in DD]; easy. }
      unfold eval. destruct (eval_evo st4 sl tr [] I4) as [st5 [E5 [EV5 [P5 [SM5 IN5]]]]]; [intros r []|].
      exists st5. split; [auto|].
      assert (ON5 : on st5 t4 = []) by (unfold on; rewrite P5; auto).
      split; [eapply tgt_evo; eauto; intros Z; congruence|]. split; [rewrite (e_slots _ _ EV5); auto|]. split; [apply (e_mem _ _ EV5); auto|].
      split; [|intros h _; unfold dirty; rewrite P5; auto].
      assert (XE : sc = true -> v_ex (getv (vars st5) t4) = v_ex (getv (vars st4) t4)).
      { intros H. destruct (f_sc _ _ _ _ _ _ F4 H) as [ON4 _]. apply (e_ex _ _ EV5); [apply dirty_on; auto|unfold is_node; rewrite K4; auto]. }
      constructor; rewrite ?ON5.
      + apply F4.
      + apply F4.
      + intros H. rewrite XE by auto. apply F4. auto.
      + intros H. left. auto.
      + intros o' H. destruct sc.
        * rewrite XE in H by auto. destruct (f_all _ _ _ _ _ _ F4 o' H) as [-> _]. auto.
        * exfalso. (* not expanded by this scatter: evaluation has combined the copies *)
          assert (SF : sx = false) by (destruct sx; [specialize (NSC eq_refl); easy|auto]).
          destruct (dirty st4 t4) eqn:D4.
          -- assert (HX : nth_error (slots st4) x = Some (Some t4)).
             { destruct (t_ready _ _ _ _ _ _ _ _ _ T4) as [_ [_ RD]]. destruct (RD D4) as [HH _]. apply held_In in HH. destruct HH as [y Hy].
               destruct (Nat.eq_dec y x) as [->|Ny]; [auto|]. exfalso. eapply (t_al _ _ _ _ _ _ _ _ _ T4); eauto. }
             rewrite <- (e_slots _ _ EV5) in HX. destruct (i_slot _ _ _ (IN5 tr) x t4 HX) as [_ X5]. destruct (X5 o' H) as [s [Hs _]]. rewrite ON5 in Hs. easy.
          -- rewrite (e_ex _ _ EV5) in H; [|auto|unfold is_node; rewrite K4; auto]. destruct (f_all _ _ _ _ _ _ F4 o' H) as [_ [Z|[s [Hs _]]]]; [easy|].
             apply dirty_on in D4. rewrite D4 in Hs. easy.
      + intros H. exists b. apply (e_mem _ _ EV5); auto.
      + intros H. split; [auto|]. apply (f_sc _ _ _ _ _ _ F4 H).
    - exists st4. do 5 (split; [auto|]). intros h Hh. destruct (dirty st4 h) eqn:D; [|auto].
      cut (existsb (dirty st4) [v; i; m] = true); [congruence|]. apply existsb_exists. eauto. }
  destruct P5 as [st5 [E5 [T5 [S5 [K5 [F5 D5]]]]]]. rewrite E5. cbn [rbind]. eexists _, t4. split; [reflexivity|]. split; [auto|].
  set (s := {| s_t := t4; s_b := b; s_op := o; s_v := v; s_i := i; s_m := m; s_n := n; s_x := sx; s_c := sc |}).
  pose proof (t_inv _ _ _ _ _ _ _ _ _ T5) as I5.
  destruct (updates_spec st5 s va ia ma b eq_refl) as [U1 U2].
  { intros k Hk. apply (LANE st5 I5 S5 xv v va); auto; [simpl; auto|apply D5; simpl; auto]. }
  { intros k Hk. apply (LANE st5 I5 S5 xi i ia); auto; [simpl; auto|apply D5; simpl; auto]. }
  { intros k Hk. apply (LANE st5 I5 S5 xm m ma); auto; [simpl; auto|apply D5; simpl; auto]. }
  cbn [s_op s_n s] in U1, U2. fold ls in U1, U2.
  change (Inv (set_slot (add_pend st5 s) x (Some (s_t s))) (set_nth x (Some a') sl) (tset tr x (Some (s_op s, expand)))).
  apply commit with b; cbn [s_t s_b s_op s_x s_c s].
  - auto.
  - rewrite S5. auto.
  - auto.
  - auto.
  - apply T5.
  - apply T5.
  - apply (t_ready _ _ _ _ _ _ _ _ _ T5).
  - intros h [<-|[<-|[<-|[]]]]; (split; [|split; [|apply D5; simpl; auto]]); cbn [s_v s_i s_m s]; auto.
    + exists xv. rewrite S5. auto.
    + exists xi. rewrite S5. auto.
    + intros Z. symmetry in Z. revert Z. apply T5.
    + exists xm. rewrite S5. auto.
  - apply T5.
  - intros NR. split; [apply (f_sx _ _ _ _ _ _ F5 NR)|]. apply (t_x _ _ _ _ _ _ _ _ _ T5 NR).
  - intros s' Hs X. apply in_app_or in Hs. destruct Hs as [Hs|[<-|[]]]; [eapply (t_sx _ _ _ _ _ _ _ _ _ T5); eauto|].
    cbn [s_x s] in X. rewrite (f_ex _ _ _ _ _ _ F5 X). easy.
  - apply T5.
  - intros s' Hs X. apply in_app_or in Hs. destruct Hs as [Hs|[<-|[]]].
    + destruct (t_pair _ _ _ _ _ _ _ _ _ T5 s' Hs X) as [s2 [H1 H2]]. exists s2. split; [apply in_or_app; auto|auto].
    + cbn [s_x s] in X. destruct (f_pair _ _ _ _ _ _ F5 X) as [H|[s2 [H1 H2]]].
      * exists s. split; [apply in_or_app; simpl; auto|auto].
      * exists s2. split; [apply in_or_app; auto|auto].
  - intros o' H. destruct (f_all _ _ _ _ _ _ F5 o' H) as [-> [Z|[s2 [H1 H2]]]].
    + exists s. split; [apply in_or_app; simpl; auto|auto].
    + exists s2. split; [apply in_or_app; auto|auto].
  - intros R. rewrite U2. rewrite R in CK. cbn in CK. apply distinct_nodup. exact CK.
  - cbn [a_n a']. apply (t_val _ _ _ _ _ _ _ _ _ T5).
  - intros k Hk. rewrite U1. cbn [a_at a']. f_equal. apply (t_val _ _ _ _ _ _ _ _ _ T5). exact Hk.
Qed.

(** ** Programs *)
Notation step := (@step V veq zero red to_idx truth llvm sh own).
Notation run := (@run V veq zero red to_idx truth llvm sh own).
Notation sstep := (@sstep V zero red to_idx truth).
Notation srun := (@srun V zero red to_idx truth).
Lemma look_ok st sl tr x a : Inv st sl tr -> look sl x = Some a ->
  exists h, slot st x = Ok h /\ nth_error (slots st) x = Some (Some h) /\ nth_error sl x = Some (Some a).
Proof.
  intros I H. unfold look in H. destruct (nth_error sl x) as [[a'|]|] eqn:E; try easy. injection H as ->.
  assert (L : x < length (slots st)) by (rewrite (i_len _ _ _ I); apply nth_error_Some; congruence).
  unfold slot. destruct (nth_error (slots st) x) as [[h|]|] eqn:E'.
  - eauto.
  - apply (i_none _ _ _ I) in E'. congruence.
  - apply nth_error_None in E'. lia.
Qed.
Lemma looks_ok st sl tr : Inv st sl tr -> forall xs l, looks sl xs = Some l ->
  exists hs, slots_of st xs = Ok hs /\ Forall2 (fun h a => exists x, nth_error (slots st) x = Some (Some h) /\ nth_error sl x = Some (Some a)) hs l.
Proof.
  intros I. induction xs as [|x xs IH]; intros l H; cbn [looks] in H.
  - injection H as <-. exists []. split; [auto|constructor].
  - destruct (look sl x) as [a|] eqn:E; [|easy]. cbn [bind] in H. destruct (looks sl xs) as [l'|] eqn:E'; [|easy]. cbn [bind] in H. injection H as <-.
    destruct (look_ok st sl tr x a I E) as [h [H1 [H2 H3]]]. destruct (IH l' eq_refl) as [hs [H4 H5]].
    exists (h :: hs). cbn [slots_of]. rewrite H1, H4. cbn [rbind]. split; [auto|]. constructor; eauto.
Qed.
Lemma new_put st sl tr st' v x a : Inv st sl tr -> grows st st' v -> x < length (slots st) -> v_ex v = None -> v_n v = a_n a ->
  (forall d, In d (under st' (length (vars st))) -> dirty st d = false) ->
  (forall k, k < a_n a -> value st' (length (vars st)) k = a_at a k) ->
  Inv (set_slot st' x (Some (length (vars st)))) (set_nth x (Some a) sl) (tset tr x None).
Proof.
  intros I G L X N U C. destruct (grow_ok st st' v sl tr I G) as [[g1 g2 g3 g4 g5 g6 g7 g8 g9 g10 g11 g12 g13] I'].
  assert (O : on st' (length (vars st)) = []) by (apply dirty_on; rewrite g6; auto).
  apply put_ok; auto.
  - rewrite g10. auto.
  - constructor; rewrite ?O; try easy; [lia| |right; exists RAdd; split; [easy|constructor]]. intros d Hd. rewrite g6. auto.
  - intros o Ho. rewrite g2 in Ho. congruence.
  - split; [rewrite g2; auto|]. intros k Hk. rewrite cur_clean by (rewrite g6; auto). auto.
Qed.
Lemma assign_ok sl x (o : option arr) sl' : assign sl x o = Some sl' -> x < length sl /\ sl' = set_nth x o sl.
Proof. unfold assign. destruct (Nat.ltb_spec x (length sl)); [|easy]. intros H'. injection H' as <-. auto. Qed.
Definition trk (tr : nat -> option (rop * bool)) (p : @op V) : nat -> option (rop * bool) :=
  match p with
  | OScatter x _ _ _ o e _ => tset tr x (Some (o, e))
  | OEval => fun _ => None
  | OCopy x y => tset tr x (tr y)
  | OMem x _ _ | OLit x _ _ | ONode x _ _ | OGather x _ _ _ | ODrop x => tset tr x None
  | ORead _ => tr
  end.
Definition fine (tr : nat -> option (rop * bool)) (p : @op V) : Prop :=
  match p with
  | OScatter x v i m o e _ => (o = RId \/ tr x = None \/ tr x = Some (o, e))
      /\ (o = RId \/ e = false \/ tr x = None \/ (tr v = None /\ tr i = None /\ tr m = None)) /\ x <> v /\ x <> m
  | _ => True
  end.
Lemma step_ok st sl tr p sl' out : Inv st sl tr -> sstep sl p = Some (sl', out) -> fine tr p ->
  exists st', step st p = Ok (st', out) /\ Inv st' sl' (trk tr p).
Proof.
  intros I H F. pose proof (i_len _ _ _ I) as Ln. destruct p as [x n c|x n c|x f args|x s i m|x v i m o e sh'| |x|x y|x]; cbn [sstep step trk] in *.
  - destruct (Nat.eqb_spec n 0); [easy|]. destruct (assign sl x _) as [sl1|] eqn:E; [|easy]. cbn [bind] in H. injection H as <- <-.
    apply assign_ok in E. destruct E as [L ->]. pose proof (new_mem_grows st n None c) as G.
    change (new_mem st n None c) with (fst (new_mem st n None c), length (vars st)). cbv iota beta.
    rewrite put_set by (cbn; lia). cbn [rbind]. eexists. split; [reflexivity|].
    eapply new_put; [exact I|exact G|lia|auto|auto| |].
    + intros d Hd. apply (under_new st _ _ d (i_ac _ _ _ I) G) in Hd. destruct Hd as [a [[] _]].
    + intros k Hk. rewrite (value_mem _ _ (nb st)); [|rewrite new_mem_getv; auto]. cbn. rewrite Nat.eqb_refl. auto.
  - destruct (Nat.eqb_spec n 0); [easy|]. destruct (assign sl x _) as [sl1|] eqn:E; [|easy]. cbn [bind] in H. injection H as <- <-.
    apply assign_ok in E. destruct E as [L ->]. set (v := {| v_k := KLit c; v_n := n; v_ex := None |}).
    assert (G : grows st (fst (new st v)) v) by (apply new_grows; easy).
    change (new st v) with (fst (new st v), length (vars st)). cbv iota beta.
    rewrite put_set by (cbn; lia). cbn [rbind]. eexists. split; [reflexivity|].
    eapply new_put; [exact I|exact G|lia|auto|auto| |].
    + intros d Hd. apply (under_new st _ _ d (i_ac _ _ _ I) G) in Hd. destruct Hd as [a [[] _]].
    + intros k Hk. apply value_lit; [cbn; rewrite app_length; simpl; lia|rewrite new_getv; auto].
  - destruct (looks sl args) as [l|] eqn:E; [|easy]. cbn [bind] in H. destruct (looks_ok st sl tr I args l E) as [hs [-> FA]]. cbn [rbind].
    destruct l as [|a0 l0]; [easy|]. destruct hs as [|h0 hs0]; [inversion FA|].
    remember (a0 :: l0) as l. remember (h0 :: hs0) as hs. clear Heql Heqhs a0 l0 h0 hs0.
    destruct (joint l) as [n|] eqn:J; [|easy]. cbn [bind] in H. destruct (assign sl x _) as [sl1|] eqn:EA; [|easy]. cbn [bind] in H. injection H as <- <-.
    apply assign_ok in EA. destruct EA as [L ->].
    assert (FN : Forall2 (fun h a => a_n a = v_n (getv (vars st) h)) hs l).
    { clear -FA I. induction FA as [|h a hs l [y [H1 H2]] FA IH]; constructor; auto. destruct (i_val _ _ _ I y h H1) as [a' [H3 [H4 _]]]. congruence. }
    destruct (size_ok st hs l n FN J) as [-> LN]. cbn [rbind].
    destruct (clean_ok st sl tr hs I) as [st1 [-> [EV [I1 D1]]]]. cbn [rbind].
    set (v := {| v_k := KNode f hs; v_n := n; v_ex := None |}).
    assert (G : grows st1 (fst (new st1 v)) v).
    { apply new_grows; [easy|]. intros d Hd. cbn in Hd. rewrite (e_len _ _ EV). clear -FA Hd I.
      induction FA as [|h a hs l [y [H1 _]] FA IH]; [easy|]. destruct Hd as [<-|Hd]; [apply (i_slot _ _ _ I y h H1)|auto]. }
    change (new st1 v) with (fst (new st1 v), length (vars st1)). cbv iota beta.
    rewrite put_set by (cbn; rewrite (e_slots _ _ EV); lia). cbn [rbind]. eexists. split; [reflexivity|].
    assert (HS : forall h, In h hs -> dirty st1 h = false /\ tidy st1 h).
    { intros h Hh. split; [auto|]. assert (exists y, nth_error (slots st1) y = Some (Some h)) as [y Hy].
      { rewrite (e_slots _ _ EV). clear -FA Hh. induction FA as [|h' a hs l [y [H1 _]] FA IH]; [easy|]. destruct Hh as [<-|Hh]; eauto. }
      apply (i_slot _ _ _ I1 y h Hy). }
    eapply new_put; [exact I1|exact G|rewrite (e_slots _ _ EV); lia|auto|auto| |].
    + intros d Hd. apply (under_new st1 _ _ d (i_ac _ _ _ I1) G) in Hd. destruct Hd as [a [Ha [->|Hd]]]; apply HS in Ha; destruct Ha as [Ha1 Ha2]; auto.
    + intros k Hk. cbn [a_n] in Hk. rewrite (value_node sl tr st1 _ v f hs k I1 G eq_refl). cbn [a_at]. f_equal.
      revert LN HS. clear G J FN D1 E. clear v. induction FA as [|h a hs l [y [H1 H2]] FA IH]; intros LN HS; [auto|]. cbn [map]. f_equal.
      * apply (lane_ok st1 sl tr y h a n k); auto; [rewrite (e_slots _ _ EV); auto|apply HS; simpl; auto|apply LN; simpl; auto].
      * apply IH; intros; [apply LN|apply HS]; simpl; auto.
  - destruct (look sl s) as [sa|] eqn:Es; [|easy]. cbn [bind] in H. destruct (look sl i) as [ia|] eqn:Ei; [|easy]. cbn [bind] in H.
    destruct (look sl m) as [ma|] eqn:Em; [|easy]. cbn [bind] in H.
    destruct (gathered zero to_idx truth sa ia ma) as [a|] eqn:EG; [|easy]. cbn [bind] in H. destruct (assign sl x _) as [sl1|] eqn:EA; [|easy]. cbn [bind] in H. injection H as <- <-.
    apply assign_ok in EA. destruct EA as [L ->].
    destruct (look_ok st sl tr s sa I Es) as [hs [-> [Hs1 Hs2]]]. destruct (look_ok st sl tr i ia I Ei) as [hi [-> [Hi1 Hi2]]].
    destruct (look_ok st sl tr m ma I Em) as [hm [-> [Hm1 Hm2]]]. cbn [rbind].
    unfold gathered in EG. destruct (joint [ia; ma]) as [n|] eqn:J; [|easy]. cbn [bind] in EG.
    destruct (forallb _ _) eqn:CK in EG; [|easy]. injection EG as <-.
    assert (NN : forall y h a, nth_error (slots st) y = Some (Some h) -> nth_error sl y = Some (Some a) -> a_n a = v_n (getv (vars st) h)).
    { intros y h a H1 H2. destruct (i_val _ _ _ I y h H1) as [a' [H3 [H4 _]]]. congruence. }
    destruct (size_ok st [hi; hm] [ia; ma] n) as [-> LN]; [repeat constructor; eapply NN; eauto|auto|]. cbn [rbind].
    destruct (clean_ok st sl tr [hs; hi] I) as [st1 [-> [EV1 [I1 D1]]]]. cbn [rbind].
    assert (R1 : ready st1 hs) by (eapply (slot_ready _ _ _ s); [exact I1|]; rewrite (e_slots _ _ EV1); auto).
    destruct (eval_var_ok st1 sl tr hs I1 R1) as [st2 [-> [EV2 [I2 [D2 _]]]]]. cbn [rbind].
    destruct (clean_ok st2 sl tr [hs; hi; hm] I2) as [st3 [-> [EV3 [I3 D3]]]]. cbn [rbind].
    assert (EV : evo st st3) by (eapply evo_trans; [eapply evo_trans; eauto|eauto]). pose proof (e_slots _ _ EV) as S3.
    assert (LT : forall d, In d [hs; hi; hm] -> d < length (vars st3) /\ tidy st3 d).
    { intros d [<-|[<-|[<-|[]]]]; [destruct (i_slot _ _ _ I3 s hs) as [SL _]|destruct (i_slot _ _ _ I3 i hi) as [SL _]|destruct (i_slot _ _ _ I3 m hm) as [SL _]];
      try (rewrite S3; auto; fail); split; apply SL. }
    set (v := {| v_k := KGather hs hi hm; v_n := n; v_ex := None |}).
    assert (G : grows st3 (fst (new st3 v)) v) by (apply new_grows; [easy|intros d Hd; apply LT; exact Hd]).
    change (new st3 v) with (fst (new st3 v), length (vars st3)). cbv iota beta.
    rewrite put_set by (cbn; rewrite S3; lia). cbn [rbind]. eexists. split; [reflexivity|].
    eapply new_put; [exact I3|exact G|rewrite S3; lia|auto|auto| |].
    + intros d Hd. apply (under_new st3 _ _ d (i_ac _ _ _ I3) G) in Hd. destruct Hd as [a [Ha [->|Hd]]]; [auto|].
      destruct (LT a Ha) as [_ T]. auto.
    + intros k Hk. cbn [a_n] in Hk. rewrite (value_gather sl tr st3 _ v hs hi hm k I3 G eq_refl). cbn [a_at].
      rewrite (lane_ok st3 sl tr m hm ma n k); auto; [|rewrite S3; auto|apply D3; simpl; auto|apply LN; simpl; auto].
      rewrite (lane_ok st3 sl tr i hi ia n k); auto; [|rewrite S3; auto|apply D3; simpl; auto|apply LN; simpl; auto].
      destruct (truth (lane ma k)) eqn:TK; [|auto].
      assert (LK : to_idx (lane ia k) < a_n sa).
      { rewrite forallb_forall in CK. specialize (CK k). apply Nat.ltb_lt. apply CK. unfold active. apply filter_In. split; [apply in_seq; lia|auto]. }
      destruct (i_val _ _ _ I3 s hs) as [a' [H3 [H4 H5]]]; [rewrite S3; auto|]. rewrite Hs2 in H3. injection H3 as <-.
      rewrite <- cur_clean by (apply D3; simpl; auto). auto.
  - destruct (look sl x) as [ta|] eqn:Et; [|easy]. cbn [bind] in H. destruct (look sl v) as [va|] eqn:Ev; [|easy]. cbn [bind] in H.
    destruct (look sl i) as [ia|] eqn:Ei; [|easy]. cbn [bind] in H. destruct (look sl m) as [ma|] eqn:Em; [|easy]. cbn [bind] in H.
    destruct (scattered red to_idx truth ta va ia ma o) as [a|] eqn:EG; [|easy]. cbn [bind] in H. destruct (assign sl x _) as [sl1|] eqn:EA; [|easy]. cbn [bind] in H. injection H as <- <-.
    apply assign_ok in EA. destruct EA as [L ->].
    destruct (look_ok st sl tr x ta I Et) as [ht [-> [Ht1 Ht2]]]. destruct (look_ok st sl tr v va I Ev) as [hv [-> [Hv1 Hv2]]].
    destruct (look_ok st sl tr i ia I Ei) as [hi [-> [Hi1 Hi2]]]. destruct (look_ok st sl tr m ma I Em) as [hm [-> [Hm1 Hm2]]]. cbn [rbind].
    destruct F as [F1 [F2 [F3 F4]]].
    destruct (scatter_ok st sl tr x v i m ht hv hi hm ta va ia ma o e sh' a) as [st' [t' [-> [S' I']]]]; auto. cbn [rbind].
    rewrite put_set by (rewrite S'; lia). cbn [rbind]. eauto.
  - injection H as <- <-. unfold eval. destruct (eval_evo st sl tr [] I) as [st1 [-> [EV [P [SM IN]]]]]; [intros r []|]. cbn [rbind]. eauto.
  - destruct (look sl x) as [a|] eqn:E; [|easy]. cbn [bind] in H. injection H as <- <-.
    destruct (look_ok st sl tr x a I E) as [h [-> [H1 H2]]]. cbn [rbind].
    destruct (eval_var_ok st sl tr h I (slot_ready _ _ _ _ _ I H1)) as [st1 [-> [EV [I1 [D1 _]]]]]. cbn [rbind]. exists st1. split; [|auto].
    destruct (i_val _ _ _ I1 x h) as [a' [H3 [H4 H5]]]; [rewrite (e_slots _ _ EV); auto|]. rewrite H2 in H3. injection H3 as <-.
    rewrite <- H4. do 3 f_equal. apply map_ext_in. intros k Hk. apply in_seq in Hk. rewrite <- cur_clean by auto. apply H5. lia.
  - destruct (look sl y) as [a|] eqn:E; [|easy]. cbn [bind] in H. destruct (assign sl x _) as [sl1|] eqn:EA; [|easy]. cbn [bind] in H. injection H as <- <-.
    apply assign_ok in EA. destruct EA as [L ->]. destruct (look_ok st sl tr y a I E) as [h [-> [H1 H2]]]. cbn [rbind].
    rewrite put_set by lia. cbn [rbind]. eexists. split; [reflexivity|]. destruct (i_slot _ _ _ I y h H1) as [S1 E1].
    apply put_ok; auto; [lia|]. destruct (i_val _ _ _ I y h H1) as [a' [H3 H4]]. congruence.
  - destruct (assign sl x _) as [sl1|] eqn:EA; [|easy]. cbn [bind] in H. injection H as <- <-. apply assign_ok in EA. destruct EA as [L ->].
    rewrite put_set by lia. cbn [rbind]. eexists. split; [reflexivity|]. apply put_none; auto. lia.
Qed.
Lemma steady_fine tr p ps : steady tr (p :: ps) -> apart (p :: ps) -> fine tr p /\ steady (trk tr p) ps /\ apart ps.
Proof.
  intros S1 A. inversion A as [|? ? A1 A2]; subst. split; [|split; [|auto]]; destruct p; cbn [steady fine trk] in *; tauto.
Qed.
Lemma run_ok ps : forall st sl tr outs, Inv st sl tr -> srun sl ps = Some outs -> steady tr ps -> apart ps ->
  exists st', run st ps = Ok (st', outs).
Proof.
  induction ps as [|p ps IH]; intros st sl tr outs I H S1 A; cbn [srun run] in *.
  - injection H as <-. eauto.
  - destruct (sstep sl p) as [[sl' o]|] eqn:E; [|easy]. cbn [bind fst snd] in H. destruct (srun sl' ps) as [os|] eqn:E'; [|easy]. cbn [bind] in H. injection H as <-.
    destruct (steady_fine tr p ps S1 A) as [F [S2 A2]]. destruct (step_ok st sl tr p sl' o I E F) as [st1 [-> I1]]. cbn [rbind].
    destruct (IH st1 sl' _ os I1 E' S2 A2) as [st2 ->]. cbn [rbind]. eauto.
Qed.
Lemma init_ok n : Inv (init zero n) (repeat None n) (fun _ => None).
Proof.
  assert (GN : forall h, getv [] h = dflt zero) by (intros h; apply getv_out; simpl; lia).
  assert (NO : forall x h, nth_error (repeat (@None nat) n) x <> Some (Some h)).
  { intros x h H. apply nth_error_In, repeat_spec in H. easy. }
  constructor; cbn [vars bufs nb slots pend init].
  - intros h d. rewrite GN. easy.
  - intros h b. rewrite GN. easy.
  - intros h h' b. rewrite GN. easy.
  - intros s [].
  - intros s o [].
  - intros s [].
  - rewrite !repeat_length. auto.
  - intros x h H. exfalso. eapply NO; eauto.
  - intros x H. assert (L : x < n) by (rewrite <- (repeat_length (@None nat) n); apply nth_error_Some; congruence).
    rewrite nth_error_nth' with (d := None) by (rewrite repeat_length; auto). f_equal. apply nth_repeat.
  - intros x h H. exfalso. eapply NO; eauto.
Qed.
End Inv.
