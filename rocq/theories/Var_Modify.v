(** In-place changes: evaluation, resizing, element writes, views. *)
From Verif Require Import Base FreeSlots_Model FreeSlots_Spec FreeSlots_Proofs Var_Model Var_Spec Var_Inv Var_Count Var_Free Var_New Var_Create Var_Ops.
Local Open Scope N_scope.

Lemma cnts_modify f g al n own own' ownse i :
  cnts f al n own ownse [] -> al i = true -> (forall j, j <> i -> g j = f j) ->
  v_rc (g i) = v_rc (f i) -> v_se (g i) = v_se (f i) ->
  (forall d, In d (v_dep (f i)) -> d <> 0 -> al d = true) ->
  (forall j, j <> 0 -> own' j + cnt (g i) j = own j + cnt (f i) j) ->
  (forall j, cnt_se (g i) j = cnt_se (f i) j) ->
  cnts g al n own' ownse [].
Proof.
  intros C Hi Eg E1 E2 Hd Eo Es.
  pose proof (c_range _ _ _ _ _ _ C i Hi) as Hr.
  assert (NZ : forall j, al j = true -> j <> 0) by (intros j Hj; pose proof (c_range _ _ _ _ _ _ C j Hj); lia).
  assert (Eg' : forall j, g j = fupd f i (g i) j).
  { intros j. unfold fupd. destruct (N.eqb_spec j i) as [->|]; auto. }
  assert (R : forall j, refs g al n j + cnt (f i) j = refs f al n j + cnt (g i) j).
  { intros j. rewrite <- (refs_modify f al n i (g i) j) by (auto; lia). f_equal. apply refs_ext.
    intros k _. now rewrite Eg'. }
  assert (Rs : forall j, refs_se g al n j = refs_se f al n j).
  { intros j. pose proof (refs_se_modify f al n i (g i) j ltac:(lia) Hi) as H.
    rewrite (refs_se_ext g (fupd f i (g i))) by (intros k _; now rewrite Eg'). rewrite Es in H. lia. }
  constructor.
  - apply C.
  - intros j Hj. rewrite Eg by congruence. now apply (c_free _ _ _ _ _ _ C).
  - intros j Hn Hj. destruct (c_own0 _ _ _ _ _ _ C j Hn Hj) as (A & B). split; [|exact B].
    specialize (Eo j Hn).
    assert (cnt (f i) j = 0); [|lia]. unfold cnt. destruct (v_wptr (f i)); auto.
    destruct (N.eq_dec (occ (v_dep (f i)) j) 0); auto. exfalso.
    assert (In j (v_dep (f i))) by (apply occ_pos; lia). rewrite Hd in Hj; auto. discriminate.
  - intros j Hj. specialize (R j). specialize (Eo j (NZ j Hj)). pose proof (c_rc _ _ _ _ _ _ C j Hj).
    destruct (N.eq_dec j i) as [->|]; [|rewrite Eg by auto]; lia.
  - intros j Hj. rewrite Rs. pose proof (c_se _ _ _ _ _ _ C j Hj).
    destruct (N.eq_dec j i) as [->|]; [|rewrite Eg by auto]; lia.
  - constructor.
  - intros j [].
  - intros j Hj. destruct (N.eq_dec j i) as [->|]; [rewrite E1, E2|rewrite Eg by auto]; now apply (c_live _ _ _ _ _ _ C).
Qed.

(** The variable [i] becomes a memory region. *)
Lemma stat_eval f g al m m' h hx ts ctr i p c :
  stat f al m h (p :: hx) ts ctr -> al i = true -> is_evaluated (f i) = false ->
  (forall j, j <> i -> g j = f j) -> wf (g i) -> is_evaluated (g i) = true -> v_retain (g i) = false ->
  v_wptr (g i) = false -> v_dep (g i) = [0; 0; 0; 0] -> v_lit (g i) = p -> v_scope (g i) <= ctr ->
  NoDup (map fst m') -> (forall k j, In (k, j) m' -> In (k, j) m /\ j <> i) ->
  In (p, c) h -> v_size (g i) <= N.of_nat (length c) -> ~ In p hx ->
  stat g al m' h hx ts ctr.
Proof.
  intros S Hi Hne Eg W He Hr Hw Hd Hl Hsc Nm Hm Hc Hlen Hx.
  assert (NEV : forall d, is_evaluated (f d) = true -> d <> i) by (intros d A ->; congruence).
  constructor.
  - intros j Hj. destruct (N.eq_dec j i) as [->|]; auto. rewrite Eg by auto. now apply (s_wf _ _ _ _ _ _ _ S).
  - intros j d Hj Hin Hd0. destruct (N.eq_dec j i) as [->|].
    + rewrite Hd in Hin. cbn in Hin. intuition congruence.
    + rewrite Eg in Hin by auto. eapply (s_dep _ _ _ _ _ _ _ S); eauto.
  - destruct (s_rank _ _ _ _ _ _ _ S) as (rk & R). exists rk. intros j d Hj Hin Hd0.
    destruct (N.eq_dec j i) as [->|].
    + rewrite Hd in Hin. cbn in Hin. intuition congruence.
    + rewrite Eg in Hin by auto. auto.
  - intros j Hj Hwj. destruct (N.eq_dec j i) as [->|]; [congruence|]. rewrite (Eg j) in * by auto.
    destruct (s_wp _ _ _ _ _ _ _ S j Hj Hwj) as (K & d & E & Hd0 & Hde). split; auto. exists d.
    rewrite (Eg d) by auto. auto.
  - intros j Hj Hwj. destruct (N.eq_dec j i) as [->|]; [congruence|]. rewrite (Eg j) in * by auto.
    destruct (s_ret _ _ _ _ _ _ _ S j Hj Hwj) as (K & d & E & Hd0 & Hde & Q). split; auto. exists d.
    rewrite (Eg d) by auto. auto.
  - exact Nm.
  - intros k j H. apply Hm in H as (H & Hn). rewrite Eg by auto. now apply (s_lvn _ _ _ _ _ _ _ S).
  - apply S.
  - apply S.
  - intros j Hj Hje Hjr. destruct (N.eq_dec j i) as [->|].
    + rewrite Hl. split; [exact Hx|]. eauto.
    + rewrite (Eg j) in * by auto. destruct (s_hown _ _ _ _ _ _ _ S j Hj Hje Hjr) as (A & B). split; [|exact B].
      intros H. apply A. now right.
  - assert (X : forall j, j <> i -> al j = true -> is_evaluated (f j) = true -> v_retain (f j) = false -> v_lit (f j) <> p).
    { intros j Hn Hj Hje Hjr E. destruct (s_hown _ _ _ _ _ _ _ S j Hj Hje Hjr) as (A & _). apply A. rewrite E. now left. }
    intros j k Hj Hje Hjr Hk Hke Hkr E.
    destruct (N.eq_dec j i) as [->|Hn], (N.eq_dec k i) as [->|Hn']; auto.
    + rewrite (Eg k) in * by auto. exfalso. apply (X k); auto. congruence.
    + rewrite (Eg j) in * by auto. exfalso. apply (X j); auto. congruence.
    + rewrite (Eg j), (Eg k) in * by auto. now apply (s_hinj _ _ _ _ _ _ _ S).
  - intros q Hq. destruct (s_hall _ _ _ _ _ _ _ S q Hq) as [[<-|H]|(j & A & B & D & E)]; [right|auto|right].
    + exists i. auto.
    + exists j. rewrite Eg by auto. auto.
  - intros j Hj. destruct (N.eq_dec j i) as [->|]; auto. rewrite Eg by auto. now apply (s_scope _ _ _ _ _ _ _ S).
  - apply S.
  - apply S.
Qed.

(** The variable [i] changes but stays an expression. *)
Lemma stat_mod f g al m m' h hx ts ctr i :
  stat f al m h hx ts ctr -> al i = true -> is_evaluated (f i) = false ->
  (forall j, j <> i -> g j = f j) -> wf (g i) -> is_evaluated (g i) = false -> v_retain (g i) = v_retain (f i) ->
  (forall d, In d (v_dep (g i)) -> d = 0 \/ In d (v_dep (f i))) ->
  (v_wptr (g i) = true -> v_wptr (f i) = true /\ v_kind (g i) = v_kind (f i) /\ v_dep (g i) = v_dep (f i)) ->
  v_scope (g i) <= ctr ->
  NoDup (map fst m') -> (forall k j, In (k, j) m' -> In (k, j) m /\ j <> i \/ k = key_of (g i) /\ j = i) ->
  stat g al m' h hx ts ctr.
Proof.
  intros S Hi Hne Eg W He Hr Hd Hw Hsc Nm Hm.
  assert (NEV : forall d, is_evaluated (f d) = true -> d <> i) by (intros d A ->; congruence).
  assert (Rf : v_retain (f i) = false).
  { destruct (v_retain (f i)) eqn:E; auto. apply (s_ret _ _ _ _ _ _ _ S) in E; auto. destruct E; congruence. }
  constructor.
  - intros j Hj. destruct (N.eq_dec j i) as [->|]; auto. rewrite Eg by auto. now apply (s_wf _ _ _ _ _ _ _ S).
  - intros j d Hj Hin Hd0. destruct (N.eq_dec j i) as [->|].
    + destruct (Hd d Hin); [congruence|]. eapply (s_dep _ _ _ _ _ _ _ S); eauto.
    + rewrite Eg in Hin by auto. eapply (s_dep _ _ _ _ _ _ _ S); eauto.
  - destruct (s_rank _ _ _ _ _ _ _ S) as (rk & R). exists rk. intros j d Hj Hin Hd0.
    destruct (N.eq_dec j i) as [->|].
    + destruct (Hd d Hin); [congruence|]. auto.
    + rewrite Eg in Hin by auto. auto.
  - intros j Hj Hwj. destruct (N.eq_dec j i) as [->|].
    + destruct (Hw Hwj) as (A & B & C). rewrite B, C.
      destruct (s_wp _ _ _ _ _ _ _ S i Hj A) as (K & d & E & Hd0 & Hde). split; auto. exists d.
      rewrite (Eg d) by auto. auto.
    + rewrite (Eg j) in * by auto.
      destruct (s_wp _ _ _ _ _ _ _ S j Hj Hwj) as (K & d & E & Hd0 & Hde). split; auto. exists d.
      rewrite (Eg d) by auto. auto.
  - intros j Hj Hwj. destruct (N.eq_dec j i) as [->|]; [congruence|]. rewrite (Eg j) in * by auto.
    destruct (s_ret _ _ _ _ _ _ _ S j Hj Hwj) as (K & d & E & Hd0 & Hde & Q). split; auto. exists d.
    rewrite (Eg d) by auto. auto.
  - exact Nm.
  - intros k j H. apply Hm in H as [(H & Hn)|(-> & ->)]; auto.
    rewrite Eg by auto. now apply (s_lvn _ _ _ _ _ _ _ S).
  - apply S.
  - apply S.
  - intros j Hj Hje Hjr. assert (j <> i) by congruence. rewrite (Eg j) in * by auto. now apply (s_hown _ _ _ _ _ _ _ S).
  - intros j k Hj Hje Hjr Hk Hke Hkr. assert (j <> i) by congruence. assert (k <> i) by congruence.
    rewrite (Eg j), (Eg k) in * by auto. now apply (s_hinj _ _ _ _ _ _ _ S).
  - intros q Hq. destruct (s_hall _ _ _ _ _ _ _ S q Hq) as [H|(j & A & B & D & E)]; auto.
    right. exists j. rewrite Eg by auto. auto.
  - intros j Hj. destruct (N.eq_dec j i) as [->|]; auto. rewrite Eg by auto. now apply (s_scope _ _ _ _ _ _ _ S).
  - apply S.
  - apply S.
Qed.

Lemma node_flags s al own ownse todo hx i : INV s al own ownse todo hx -> al i = true -> is_node (V s i) = true ->
  is_evaluated (V s i) = false /\ v_wptr (V s i) = false /\ v_retain (V s i) = false.
Proof.
  intros I Hi Hn. pose proof (I_stat _ _ _ _ _ _ I) as S. unfold is_node, K_Literal in Hn. apply N.ltb_lt in Hn.
  assert (E : is_evaluated (V s i) = false) by (unfold is_evaluated, K_Evaluated; apply N.eqb_neq; lia).
  split; [exact E|]. split.
  - destruct (v_wptr (V s i)) eqn:W; auto. apply (s_wp _ _ _ _ _ _ _ S) in W; auto. destruct W as (K & _).
    unfold K_Literal in K. lia.
  - destruct (v_retain (V s i)) eqn:W; auto. apply (s_ret _ _ _ _ _ _ _ S) in W; auto. destruct W. congruence.
Qed.

Lemma own_deps own ds (w v : var) (H1 : v_wptr w = false) (H2 : v_dep w = [0; 0; 0; 0]) (H3 : v_wptr v = false)
  (H4 : v_dep v = ds) : forall j, j <> 0 -> plusl own ds j + cnt w j = own j + cnt v j.
Proof.
  intros j Hj. unfold plusl, cnt. rewrite H1, H2, H3, H4. rewrite !occ_cons, occ_nil.
  destruct (N.eqb_spec j 0); [congruence|]. lia.
Qed.

(** ** Evaluation *)
Lemma eval_output_ok s h al i p c :
  INVh s h al -> In i h -> fresh s p -> is_node (V s i) = true -> al i = true ->
  v_size (V s i) <= N.of_nat (length c) ->
  exists s' al', eval_output s i p c = Some s' /\ INVh s' h al' /\ trans s al s' al' (OEval i p c).
Proof.
  intros I Hin F Hn Hi Hlen. unfold eval_output.
  destruct (al_jitc _ _ _ _ _ _ I Hi) as (J & _). rewrite J. cbn [bind].
  destruct (node_flags _ _ _ _ _ _ _ I Hi Hn) as (Ne & Nw & Nr).
  pose proof (I_stat _ _ _ _ _ _ I) as S. pose proof (al_range _ _ _ _ _ _ _ I Hi) as Hr.
  destruct (lvn_drop_spec _ _ _ _ _ _ _ s i S eq_refl) as ((m' & Em) & Nm & Hm & Hm').
  rewrite Em in *. cbn [lvn with_lvn] in Nm, Hm, Hm'.
  set (s0 := with_lvn s m') in *.
  destruct F as (F0 & F64 & Fn). unfold mem_alloc. destruct (N.eqb_spec p 0); [congruence|].
  change (heap s0) with (heap s). pose proof (proj2 (find_heap_none p (heap s)) Fn) as ->.
  destruct (mem_alloc_ok s al _ _ _ _ p c I (conj F0 (conj F64 Fn))) as (_ & I1 & _).
  cbn [bind]. set (s1 := with_heap s0 ((p, c) :: heap s)).
  set (w := set_dep (set_vscope (set_data (V s i) K_Evaluated p) (if v_array (V s i) then SCOPE_ARRAY else SCOPE_BUFFER)) [0; 0; 0; 0]).
  destruct (vset_spec s1 i w) as (s2 & E2 & EV2 & EL2 & EU2 & Em2 & Et2 & Ec2 & Eh2); [unfold sz in *; cbn; lia|].
  rewrite E2. cbn [bind]. change (V s1) with (V s) in EV2.
  assert (Vi : V s2 i = w) by (rewrite EV2; apply fupd_eq).
  assert (Vj : forall j, j <> i -> V s2 j = V s j) by (intros; rewrite EV2; now apply fupd_ne).
  assert (I2 : INV s2 al (plusl (occ h) (v_dep (V s i))) (fun _ => 0) [] []).
  { constructor.
    - rewrite EL2. eapply (cnts_modify (V s) (V s2) al (length (vars s)) _ _ _ i (I_cnt _ _ _ _ _ _ I)); auto.
      + rewrite Vi. reflexivity.
      + rewrite Vi. reflexivity.
      + intros d Hd Hd0. eapply (s_dep _ _ _ _ _ _ _ S); eauto.
      + rewrite Vi. apply own_deps; auto.
      + intros j. unfold cnt_se. rewrite Vi. cbn. now rewrite Nw.
    - rewrite Em2, Eh2, Et2, Ec2. cbn [s1 s0 with_heap with_lvn lvn heap tscope sctr].
      pose proof (I_stat _ _ _ _ _ _ I1) as S1. change (V (with_heap s ((p, c) :: heap s))) with (V s) in S1.
      cbn [with_heap lvn heap tscope sctr] in S1.
      eapply (stat_eval (V s) (V s2) al (lvn s) m' ((p, c) :: heap s) [] _ _ i p c S1); auto; try (rewrite Vi; auto; fail).
      + rewrite Vi. pose proof (s_wf _ _ _ _ _ _ _ S i Hi) as W. unfold wf in *. cbn.
        unfold K_Evaluated. change (2 ^ 7) with 128 in *. intuition lia.
      + rewrite Vi. cbn. pose proof (s_ctr _ _ _ _ _ _ _ S). unfold SCOPE_ARRAY, SCOPE_BUFFER.
        destruct (v_array (V s i)); lia.
      + now left.
    - destruct (I_slots _ _ _ _ _ _ I) as (F & HF & HFin). exists F. rewrite EU2. split; [exact HF|].
      unfold sz. rewrite EL2. exact HFin.
    - unfold sz. rewrite EL2. apply I. }
  destruct (dec_refs_ok _ _ _ _ _ _ I2) as (s3 & al3 & E3 & I3 & Sh).
  exists s3, al3. split; [exact E3|]. split; [exact I3|].
  eapply trans_shrink; [|intros j Hj; exact Hj|auto|exact Sh]. constructor.
  - unfold sz. rewrite EL2. cbn. lia.
  - intros j Hj. left. destruct (N.eq_dec j i) as [->|]; [congruence|now rewrite Vj].
  - intros j Hj. rewrite Hj. destruct (N.eq_dec j i) as [->|]; [now rewrite Vi|now rewrite Vj].
  - intros k Hk _ Ht H. cbn in Ht. rewrite Vj by congruence. rewrite Em2. cbn. apply Hm'; auto.
  - intros k Hk _ Ht. cbn in Ht. now rewrite Vj by congruence.
Qed.

Lemma eval_effect_ok s h al i :
  INVh s h al -> In i h -> is_node (V s i) = true -> al i = true ->
  exists s' al', eval_effect s i = Some s' /\ INVh s' h al' /\ trans s al s' al' (OEffect i).
Proof.
  intros I Hin Hn Hi. unfold eval_effect.
  destruct (al_jitc _ _ _ _ _ _ I Hi) as (J & _). rewrite J. cbn [bind].
  destruct (node_flags _ _ _ _ _ _ _ I Hi Hn) as (Ne & Nw & Nr).
  pose proof (I_stat _ _ _ _ _ _ I) as S. pose proof (al_range _ _ _ _ _ _ _ I Hi) as Hr.
  destruct (lvn_drop_spec _ _ _ _ _ _ _ s i S eq_refl) as ((m' & Em) & Nm & Hm & Hm').
  rewrite Em in *. cbn [lvn with_lvn] in Nm, Hm, Hm'.
  set (s0 := with_lvn s m') in *.
  set (w := set_dep (V s i) [0; 0; 0; 0]).
  destruct (vset_spec s0 i w) as (s2 & E2 & EV2 & EL2 & EU2 & Em2 & Et2 & Ec2 & Eh2); [unfold sz in *; cbn; lia|].
  rewrite E2. cbn [bind]. change (V s0) with (V s) in EV2.
  assert (Vi : V s2 i = w) by (rewrite EV2; apply fupd_eq).
  assert (Vj : forall j, j <> i -> V s2 j = V s j) by (intros; rewrite EV2; now apply fupd_ne).
  assert (I2 : INV s2 al (plusl (occ h) (v_dep (V s i))) (fun _ => 0) [] []).
  { constructor.
    - rewrite EL2. eapply (cnts_modify (V s) (V s2) al (length (vars s)) _ _ _ i (I_cnt _ _ _ _ _ _ I)); auto.
      + rewrite Vi. reflexivity.
      + rewrite Vi. reflexivity.
      + intros d Hd Hd0. eapply (s_dep _ _ _ _ _ _ _ S); eauto.
      + rewrite Vi. apply own_deps; auto.
      + intros j. unfold cnt_se. rewrite Vi. cbn. now rewrite Nw.
    - rewrite Em2, Eh2, Et2, Ec2. cbn [s0 with_lvn lvn heap tscope sctr].
      eapply (stat_mod (V s) (V s2) al (lvn s) m'); eauto; try (rewrite Vi; auto; fail).
      + rewrite Vi. pose proof (s_wf _ _ _ _ _ _ _ S i Hi) as W. unfold wf in *. cbn. intuition.
      + rewrite Vi. cbn. intuition.
      + rewrite Vi. cbn. congruence.
      + rewrite Vi. cbn. now apply (s_scope _ _ _ _ _ _ _ S).
    - destruct (I_slots _ _ _ _ _ _ I) as (F & HF & HFin). exists F. rewrite EU2. split; [exact HF|].
      unfold sz. rewrite EL2. exact HFin.
    - unfold sz. rewrite EL2. apply I. }
  destruct (dec_refs_ok _ _ _ _ _ _ I2) as (s3 & al3 & E3 & I3 & Sh).
  exists s3, al3. split; [exact E3|]. split; [exact I3|].
  eapply trans_shrink; [|intros j Hj; exact Hj|auto|exact Sh]. constructor.
  - unfold sz. rewrite EL2. cbn. lia.
  - intros j Hj. left. destruct (N.eq_dec j i) as [->|]; [congruence|now rewrite Vj].
  - intros j Hj. rewrite Hj. destruct (N.eq_dec j i) as [->|]; [now rewrite Vi|now rewrite Vj].
  - intros k Hk _ Ht H. cbn in Ht. rewrite Vj by congruence. rewrite Em2. cbn. apply Hm'; auto.
  - intros k Hk _ Ht. cbn in Ht. now rewrite Vj by congruence.
Qed.

(** ** Resizing in place *)
Lemma resize_ok s own al i n :
  INV s al own (fun _ => 0) [] [] -> al i = true -> is_evaluated (V s i) = false -> n < 2 ^ 32 ->
  exists s', vset (lvn_drop s i (V s i)) i (set_size (V s i) n) = Some s' /\
    INV (lvn_put s' i (set_size (V s i) n)) al own (fun _ => 0) [] [] /\
    V s' i = set_size (V s i) n /\ (forall j, j <> i -> V s' j = V s j) /\
    (forall k j, j <> i -> In (k, j) (lvn s) -> In (k, j) (lvn s')).
Proof.
  intros I Hi Ne Hn.
  pose proof (I_stat _ _ _ _ _ _ I) as S. pose proof (al_range _ _ _ _ _ _ _ I Hi) as Hr.
  destruct (lvn_drop_spec _ _ _ _ _ _ _ s i S eq_refl) as ((m' & Em) & Nm & Hm & Hm').
  rewrite Em in *. cbn [lvn with_lvn] in Nm, Hm, Hm'.
  set (s0 := with_lvn s m') in *. set (w := set_size (V s i) n).
  destruct (vset_spec s0 i w) as (s2 & E2 & EV2 & EL2 & EU2 & Em2 & Et2 & Ec2 & Eh2); [unfold sz in *; cbn; lia|].
  exists s2. split; [exact E2|]. change (V s0) with (V s) in EV2.
  assert (Vi : V s2 i = w) by (rewrite EV2; apply fupd_eq).
  assert (Vj : forall j, j <> i -> V s2 j = V s j) by (intros; rewrite EV2; now apply fupd_ne).
  split; [|split; [exact Vi|split; [exact Vj|]]].
  2: { intros k j Hj H. rewrite Em2. cbn. auto. }
  change (V (lvn_put s2 i w)) with (V s2).
  constructor.
  - change (V (lvn_put s2 i w)) with (V s2). cbn [lvn_put vars with_lvn]. rewrite EL2.
    eapply (cnts_modify (V s) (V s2) al (length (vars s)) own own _ i (I_cnt _ _ _ _ _ _ I)); auto.
    + rewrite Vi. reflexivity.
    + rewrite Vi. reflexivity.
    + intros d Hd Hd0. eapply (s_dep _ _ _ _ _ _ _ S); eauto.
    + intros j _. rewrite Vi. reflexivity.
    + intros j. rewrite Vi. reflexivity.
  - change (V (lvn_put s2 i w)) with (V s2). unfold lvn_put. cbn [lvn heap tscope sctr with_lvn].
    rewrite Em2, Eh2, Et2, Ec2. cbn [s0 with_lvn lvn heap tscope sctr].
    eapply (stat_mod (V s) (V s2) al (lvn s)); eauto; try (rewrite Vi; auto; fail).
    + rewrite Vi. pose proof (s_wf _ _ _ _ _ _ _ S i Hi) as W. unfold wf in *. cbn. intuition.
    + rewrite Vi. cbn. now apply (s_scope _ _ _ _ _ _ _ S).
    + unfold emplace_lvn. destruct (find_lvn (key_of w) m') eqn:Ef; [exact Nm|]. cbn. constructor; [|exact Nm].
      now apply find_lvn_none.
    + intros k j. unfold emplace_lvn. destruct (find_lvn (key_of w) m') eqn:Ef; [auto|].
      intros [E|H]; [|auto]. injection E as <- <-. right. rewrite Vi. auto.
  - destruct (I_slots _ _ _ _ _ _ I) as (F & HF & HFin). exists F.
    change (unused (lvn_put s2 i w)) with (unused s2). rewrite EU2. split; [exact HF|].
    unfold sz. change (vars (lvn_put s2 i w)) with (vars s2). rewrite EL2. exact HFin.
  - unfold sz. change (vars (lvn_put s2 i w)) with (vars s2). rewrite EL2. apply I.
Qed.

(** ** Element writes *)
Lemma poke_spec p n x : forall h c, NoDup (map fst h) -> In (p, c) h -> (n < length c)%nat ->
  exists h', poke p n x h = Some h' /\ map fst h' = map fst h /\ In (p, set_nth n x c) h' /\
    (forall q d, In (q, d) h -> q <> p -> In (q, d) h').
Proof.
  induction h as [|(q, d) r IH]; intros c Nd Hin Hn; [easy|]. cbn [poke].
  cbn in Nd. inversion Nd as [|? ? Hnin Nd']; subst.
  destruct (N.eqb_spec q p) as [->|Hne].
  - assert (d = c).
    { destruct Hin as [E|H]; [now injection E|]. exfalso. apply Hnin. now apply (in_map fst) in H. }
    subst d. unfold upd. destruct (Nat.ltb_spec n (length c)); [|lia]. cbn [bind].
    eexists. split; [reflexivity|]. cbn. split; [reflexivity|]. split; [now left|].
    intros q d [E|H'] Hq; [congruence|now right].
  - destruct Hin as [E|H]; [congruence|]. destruct (IH c Nd' H Hn) as (h' & E & A & B & D).
    rewrite E. cbn [bind]. eexists. split; [reflexivity|]. cbn. rewrite A. split; [reflexivity|].
    split; [now right|]. intros q' d' [E'|H'] Hq; [left; exact E'|right; auto].
Qed.

Lemma poke_INV s al own ownse todo hx p n x c h' :
  INV s al own ownse todo hx -> In (p, c) (heap s) -> (n < length c)%nat -> poke p n x (heap s) = Some h' ->
  INV (with_heap s h') al own ownse todo hx.
Proof.
  intros I Hc Hn E. pose proof (I_stat _ _ _ _ _ _ I) as S.
  destruct (poke_spec p n x (heap s) c (s_hnd _ _ _ _ _ _ _ S) Hc Hn) as (h1 & E' & A & B & D).
  assert (h1 = h') by congruence. subst h1.
  constructor; try apply I. change (V (with_heap s h')) with (V s). cbn [with_heap lvn heap tscope sctr].
  constructor; try apply S; rewrite ?A; try apply S.
  intros j Hj He Hr. destruct (s_hown _ _ _ _ _ _ _ S j Hj He Hr) as (H1 & c' & H2 & H3). split; [exact H1|].
  destruct (N.eq_dec (v_lit (V s j)) p) as [Ep|Ep].
  - rewrite Ep in *. exists (set_nth n x c). split; [exact B|]. rewrite set_nth_length.
    apply (in_find_heap _ _ _ (s_hnd _ _ _ _ _ _ _ S)) in Hc.
    apply (in_find_heap _ _ _ (s_hnd _ _ _ _ _ _ _ S)) in H2. congruence.
  - exists c'. auto.
Qed.
