(** Proofs of the properties of the variable store. *)
From Verif Require Import Base FreeSlots_Model FreeSlots_Spec FreeSlots_Proofs Var_Model Var_Spec Var_Inv Var_Count Var_Free Var_New Var_Create Var_Ops Var_Modify Var_Scopes Var_Step Var_Run.
Local Open Scope N_scope.

(** ** Reference counts *)
Lemma no_failure s h o : reach s h -> allowed s h o -> exists s' r, step s o = Some (s', r).
Proof.
  intros R A. destruct (reach_ok _ _ R) as (H0 & al & I).
  destruct (step_ok _ _ _ _ I H0 A) as (s' & r & _ & E & _). eauto.
Qed.
Lemma held_live s h i : reach s h -> In i h -> live s i.
Proof.
  intros R Hi. destruct (reach_ok _ _ R) as (H0 & al & I). eapply live_al; eauto. eapply held_al; eauto. congruence.
Qed.
Lemma operands_live s h i d : reach s h -> live s i -> operand s i d -> live s d.
Proof.
  intros R Hi Ho. destruct (reach_ok _ _ R) as (H0 & al & I). eapply live_al; eauto. eapply live_al in Hi; eauto.
  eapply path_al; eauto. eapply path_step; [exact Ho|constructor].
Qed.
Lemma live_reachable s h j : reach s h -> live s j -> exists i, In i h /\ path s i j.
Proof.
  intros R Hj. destruct (reach_ok _ _ R) as (H0 & al & I). eapply live_al in Hj; eauto.
  destruct (own_path _ _ _ _ I j Hj) as (i & A & B & C). exists i. split; auto. now apply occ_pos.
Qed.

Lemma sumn_list (g : var -> N) (f : nat -> var) (l : list var) : (forall k, (k < length l)%nat -> f k = nth k l var0) ->
  sumn (fun k => g (f (N.to_nat k))) (length l) = fold_right N.add 0 (map g l).
Proof.
  revert f. induction l as [|v l IH] using rev_ind; intros f H; [reflexivity|].
  rewrite app_length. cbn [length]. rewrite Nat.add_1_r. cbn [sumn]. rewrite map_app, fold_right_app. cbn.
  rewrite IH.
  - rewrite H by (rewrite app_length; cbn; lia). rewrite Nat2N.id, app_nth2, Nat.sub_diag by lia. cbn.
    assert (Q : forall m a, fold_right N.add a m = fold_right N.add 0 m + a).
    { induction m as [|b m IHm]; intros a; cbn; [lia|]. rewrite IHm. lia. }
    rewrite (Q _ (g v + 0)). lia.
  - intros k Hk. rewrite H by (rewrite app_length; cbn; lia). now rewrite app_nth1 by lia.
Qed.

Lemma fold_list_sum {A} (f : A -> N) (g : A -> nat) l : (forall x, In x l -> f x = N.of_nat (g x)) ->
  fold_right N.add 0 (map f l) = N.of_nat (list_sum (map g l)).
Proof.
  induction l as [|a l IH]; intros H; [reflexivity|].
  change (list_sum (map g (a :: l))) with (g a + list_sum (map g l))%nat. cbn [map fold_right]. rewrite IH by (intros; apply H; now right).
  rewrite (H a) by now left. lia.
Qed.

Lemma uses_refs s h al i : INVh s h al -> i <> 0 ->
  N.of_nat (uses s false i) = refs (V s) al (length (vars s)) i /\
  N.of_nat (uses s true i) = refs_se (V s) al (length (vars s)) i.
Proof.
  intros I Hi.
  assert (E : forall k, al k = referenced (V s k)) by (intros; symmetry; eapply referenced_al; eauto).
  assert (Q : forall g, sumn (fun k => g (V s k)) (length (vars s)) = fold_right N.add 0 (map g (vars s)))
    by (intros g; apply (sumn_list g (fun n => nth n (vars s) var0)); reflexivity).
  split.
  - transitivity (sumn (fun k => (fun v => if referenced v then cnt v i else 0) (V s k)) (length (vars s))).
    + etransitivity; [|symmetry; exact (Q (fun v => if referenced v then cnt v i else 0))].
      symmetry. apply fold_list_sum. intros v _. unfold cnt. destruct (referenced v), (v_wptr v); reflexivity.
    + apply sumn_ext. intros k _. cbn beta. now rewrite E.
  - transitivity (sumn (fun k => (fun v => if referenced v then cnt_se v i else 0) (V s k)) (length (vars s))).
    + etransitivity; [|symmetry; exact (Q (fun v => if referenced v then cnt_se v i else 0))].
      symmetry. apply fold_list_sum. intros v _. unfold cnt_se. destruct (referenced v), (v_wptr v); reflexivity.
    + apply sumn_ext. intros k _. cbn beta. now rewrite E.
Qed.

Lemma exact_counts s h i v : reach s h -> live s i -> vget s i = Some v ->
  v_rc v = N.of_nat (count_occ N.eq_dec h i + uses s false i) /\ v_se v = N.of_nat (uses s true i).
Proof.
  intros R Hl Hv. destruct (reach_ok _ _ R) as (H0 & al & I). eapply live_al in Hl; eauto.
  apply vget_lt in Hv as (_ & ->). pose proof (al_range _ _ _ _ _ _ _ I Hl).
  destruct (uses_refs _ _ _ i I) as (E1 & E2); [lia|].
  rewrite Nat2N.inj_add, E1, E2, (c_rc _ _ _ _ _ _ (I_cnt _ _ _ _ _ _ I) i Hl), (c_se _ _ _ _ _ _ (I_cnt _ _ _ _ _ _ I) i Hl).
  split; reflexivity.
Qed.

Lemma all_dropped s : reach s [] ->
  (forall i, ~ live s i) /\ heap s = [] /\ lvn s = [] /\
  (forall i, 0 < i < N.of_nat (length (vars s)) -> exists F, fs_rel (unused s) F /\ In i F).
Proof.
  intros R. destruct (reach_ok _ _ R) as (_ & al & I).
  assert (Z : forall i, al i = false).
  { intros i. destruct (al i) eqn:E; auto. destruct (own_path _ _ _ _ I i E) as (j & H & _). unfold occ in H. cbn in H. lia. }
  pose proof (I_stat _ _ _ _ _ _ I) as S. split; [|split; [|split]].
  - intros i H. eapply live_al in H; eauto. congruence.
  - destruct (heap s) as [|(p, c) r] eqn:E; auto. exfalso.
    destruct (s_hall _ _ _ _ _ _ _ S p) as [[]|(j & H & _)]; [now left|]. congruence.
  - destruct (lvn s) as [|(k, j) r] eqn:E; auto. exfalso.
    destruct (s_lvn _ _ _ _ _ _ _ S k j) as (H & _); [now left|]. congruence.
  - intros i Hi. destruct (I_slots _ _ _ _ _ _ I) as (F & HF & HFin). exists F. split; auto. apply HFin. auto.
Qed.

(** ** Weak references *)
Lemma exec_reach s h l s' h' : exec s h l s' h' -> reach s h -> reach s' h'.
Proof. induction 1; auto. intros. apply IHexec. econstructor; eauto. Qed.

Lemma step_trans s h al o s' r : INVh s h al -> ~ In 0 h -> allowed s h o -> step s o = Some (s', r) ->
  exists al', INVh s' (after h o r) al' /\ trans s al s' al' o.
Proof.
  intros I H0 A E. destruct (step_ok _ _ _ _ I H0 A) as (s1 & r1 & al' & E1 & I' & T).
  assert (s1 = s' /\ r1 = r) as (-> & ->) by (rewrite E in E1; injection E1; auto). eauto.
Qed.


Lemma counter_run i s h l s2 h2 : exec s h l s2 h2 -> ~ In 0 h -> forall al, INVh s h al ->
  exists m, m <= recycled i s l /\
    (m = 0 /\ v_counter (V s2 i) = v_counter (V s i) \/ 0 < m /\ v_counter (V s2 i) = u32 (v_counter (V s i) + m)) /\
    (al i = true -> m = 0 <-> alive_in i l).
Proof.
  induction 1 as [s h|s h o r s1 l s2 h2 A E X IH]; intros H0 al I.
  - exists 0. cbn. split; [lia|]. split; [auto|]. intros _. split; [intros _ x []|auto].
  - destruct (step_trans _ _ _ _ _ _ I H0 A E) as (al1 & I1 & T).
    destruct (IH (after_zero _ _ _ H0) al1 I1) as (m & Hm & Hc & Hl).
    cbn [recycled]. rewrite (live_b_al _ _ _ i I), (live_b_al _ _ _ i I1).
    destruct (al i) eqn:Ea.
    + destruct (al1 i) eqn:Ea1; cbn [negb andb orb].
      * pose proof (t_counter _ _ _ _ _ T i Ea) as Tc. rewrite Ea1 in Tc. rewrite Tc in Hc.
        exists m. split; [lia|]. split; [exact Hc|]. intros _. rewrite (Hl eq_refl). split.
        -- intros H x [<-|Hx]; [cbn; eapply live_al; eauto|auto].
        -- intros H x Hx. apply H. now right.
      * pose proof (t_counter _ _ _ _ _ T i Ea) as Tc. rewrite Ea1 in Tc. rewrite Tc in Hc.
        exists (1 + m). split; [lia|]. split.
        -- right. split; [lia|]. destruct Hc as [(-> & ->)|(_ & ->)]; [f_equal; lia|].
           unfold u32. rewrite N.add_mod_idemp_l by lia. f_equal. lia.
        -- intros _. split; [lia|]. intros H. specialize (H (o, r, s1) (or_introl eq_refl)). cbn in H.
           eapply live_al in H; eauto. congruence.
    + destruct (t_dead _ _ _ _ _ T i Ea) as [Tc|(Ea1 & Tt & Tc)]; rewrite Tc in Hc.
      * exists m. split; [|split; [exact Hc|discriminate]]. destruct (negb (al1 i) && _); lia.
      * exists (1 + m). rewrite Ea1. destruct o; try destruct Tt. cbn [negb andb orb temporary_b].
        split; [lia|]. split; [|discriminate]. right. split; [lia|].
        destruct Hc as [(-> & ->)|(_ & ->)]; [f_equal; lia|].
        unfold u32. rewrite N.add_mod_idemp_l by lia. f_equal. lia.
Qed.

Lemma weak_ok s1 h1 i v l s2 h2 :
  reach s1 h1 -> live s1 i -> vget s1 i = Some v -> exec s1 h1 l s2 h2 -> recycled i s1 l < 2 ^ 32 ->
  exists r, jitc_var_weak s2 i (v_counter v) = Some r /\
    (alive_in i l -> r = Some i) /\ (~ alive_in i l -> r = None).
Proof.
  intros R Hl Hv X Hr. destruct (reach_ok _ _ R) as (H0 & al & I). assert (Ha := Hl). eapply live_al in Ha; eauto.
  apply vget_lt in Hv as (_ & ->). destruct (counter_run i _ _ _ _ _ X H0 al I) as (m & Hm & Hc & Hi). specialize (Hi Ha).
  destruct (reach_ok _ _ (exec_reach _ _ _ _ _ X R)) as (_ & al2 & I2).
  pose proof (al_range _ _ _ _ _ _ _ I Ha) as Hrg.
  assert (Hlen : i < sz s2).
  { clear - X H0 I Hrg. revert al I Hrg. induction X as [s h|s h o r s1 l s2 h2 A E X IH]; intros al I Hrg; [lia|].
    destruct (step_trans _ _ _ _ _ _ I H0 A E) as (al1 & I1 & T). eapply IH; eauto; [now apply after_zero|].
    pose proof (t_len _ _ _ _ _ T). lia. }
  unfold jitc_var_weak. unfold sz in Hlen. destruct (N.leb_spec (N.of_nat (length (vars s2))) i); [lia|].
  rewrite vget_V by (unfold sz; lia). cbn [bind]. destruct (N.eqb_spec i 0); [lia|]. cbn [orb].
  eexists. split; [reflexivity|]. split.
  - intros Hal. apply Hi in Hal. destruct Hc as [(_ & ->)|]; [|lia]. now rewrite N.eqb_refl.
  - intros Hal. destruct Hc as [(Hm0 & _)|(Hm0 & ->)]; [exfalso; apply Hal; now apply Hi|].
    destruct (N.eqb_spec (u32 (v_counter (V s1 i) + m)) (v_counter (V s1 i))) as [Q|]; [|reflexivity].
    exfalso. revert Q. unfold u32. lia.
Qed.

(** ** Value numbering *)
Lemma node_step s h e q dis s' i : reach s h -> allowed s h (ONode e q dis) -> step s (ONode e q dis) = Some (s', OIndex i) ->
  exists al al' sc, INVh s h al /\ INVh s' (i :: h) al' /\ grows s al s' al' /\ al' i = true /\ i <> 0 /\
    nth_error (tscope s) (e_tid e) = Some sc /\ key_of (V s' i) = key_of (requested q sc) /\ wf (requested q sc) /\
    (dis = false -> e_vn e = true -> q_type q <> T_Void -> find_lvn (key_of (V s' i)) (lvn s') = Some i).
Proof.
  intros R (Rm & T & L & Hd & K1 & K2 & K3 & K4 & K5 & K6 & K7) E. destruct (reach_ok _ _ R) as (H0 & al & I).
  destruct (node_ok s e q dis al (occ h) []) as (s1 & i1 & al' & E1 & I' & G & A & Hi0 & (sc & Es & Ek) & W & _ & F); auto.
  - intros d Hin. destruct (Hd d Hin) as [|Hh]; [auto|right]. eapply held_al; eauto. congruence.
  - intros j. pose proof (room_bound s h j Rm). lia.
  - cbn [step] in E. unfold ix in E. rewrite E1 in E. cbn [bind fst snd] in E. injection E as -> ->.
    exists al, al', sc. split; [exact I|]. split.
    { pose proof (gain_INV s' h al' i Hi0 I') as Q. destruct i; [congruence|exact Q]. }
    repeat (split; [assumption|]). exact F.
Qed.

Lemma merge_sound s h e q dis s' i : reach s h -> allowed s h (ONode e q dis) ->
  step s (ONode e q dis) = Some (s', OIndex i) ->
  exists sc v, nth_error (tscope s) (e_tid e) = Some sc /\ vget s' i = Some v /\ same_computation v (requested q sc) /\
    (q_array q || q_coop q = true -> 0 < q_alen q -> v_alen v = q_alen q) /\
    (forall w, live s i -> vget s i = Some w -> same_computation w (requested q sc)).
Proof.
  intros R A E. destruct (node_step _ _ _ _ _ _ _ R A E) as (al & al' & sc & I & I' & G & Ai & Hi & Es & Ek & W & _).
  pose proof (al_range _ _ _ _ _ _ _ I' Ai) as Hr. pose proof (wf_fields _ _ _ _ _ _ _ I' Ai) as W'.
  destruct (key_inj _ _ W' W Ek) as (SC & AL).
  exists sc, (V s' i). split; [exact Es|]. split; [apply vget_V; lia|]. split; [exact SC|]. split.
  - intros Ha Hn. cbn [requested v_array v_coop v_alen] in AL. rewrite Ha in AL.
    destruct (v_array (V s' i) || v_coop (V s' i)); [exact AL|lia].
  - intros w Hl Hw. apply vget_lt in Hw as (_ & ->). eapply live_al in Hl; eauto.
    eapply (proj1 (key_inj _ _ (wf_fields _ _ _ _ _ _ _ I Hl) W _)). Unshelve.
    rewrite <- Ek. apply key_core. symmetry. now apply G.
Qed.


Lemma kept_run i s h l s2 h2 : exec s h l s2 h2 -> ~ In 0 h -> forall al, INVh s h al -> al i = true ->
  alive_in i l -> untouched i l ->
  exists al2, INVh s2 h2 al2 /\ al2 i = true /\
    core (set_vscope (V s2 i) 0) = core (set_vscope (V s i) 0) /\
    (In (key_of (V s i), i) (lvn s) -> In (key_of (V s2 i), i) (lvn s2)).
Proof.
  induction 1 as [s h|s h o r s1 l s2 h2 A E X IH]; intros H0 al I Hi HA HU; [exists al; auto|].
  destruct (step_trans _ _ _ _ _ _ I H0 A E) as (al1 & I1 & T).
  assert (Hi1 : al1 i = true) by (eapply live_al; eauto; apply (HA (o, r, s1)); now left).
  assert (Ht : ~ touches i o) by (apply (HU (o, r, s1)); now left).
  destruct (IH (after_zero _ _ _ H0) al1 I1 Hi1) as (al2 & I2 & Hi2 & C2 & L2).
  - intros x Hx. apply HA. now right.
  - intros x Hx. apply HU. now right.
  - exists al2. repeat (split; [assumption|]). split.
    + rewrite C2. now apply T.
    + intros H. apply L2. now apply T.
Qed.

Lemma key_scope_core v w sc : core (set_vscope v 0) = core (set_vscope w 0) ->
  key_of (set_vscope v sc) = key_of (set_vscope w sc).
Proof.
  intros E. apply core_fields in E. cbn in E. destruct E as (_&E2&E3&E4&E5&E6&E7&E8&E9&Ea&Eb&Ec&Ed).
  unfold key_of, packed. cbn. now rewrite E2, E3, E4, E5, E6, E7, E8, E9, Eb, Ec, Ed.
Qed.

Lemma no_duplicates s h e q s1 j l s2 h2 e2 sc :
  reach s h -> allowed s h (ONode e q false) -> step s (ONode e q false) = Some (s1, OIndex j) ->
  e_vn e = true -> q_type q <> T_Void ->
  exec s1 (j :: h) l s2 h2 -> alive_in j l -> untouched j l ->
  allowed s2 h2 (ONode e2 q false) -> e_vn e2 = true ->
  nth_error (tscope s2) (e_tid e2) = Some sc -> (forall v, vget s2 j = Some v -> v_scope v = sc) ->
  exists s3, step s2 (ONode e2 q false) = Some (s3, OIndex j).
Proof.
  intros R A E Hvn Hty X HA HU A2 Hvn2 Es2 Hsc.
  destruct (node_step _ _ _ _ _ _ _ R A E) as (al & al1 & sc0 & I & I1 & G & Aj & Hj & Es & Ek & W & F).
  assert (R1 : reach s1 (j :: h)).
  { replace (j :: h) with (after h (ONode e q false) (OIndex j)); [econstructor; eauto|]. cbn. destruct j; [congruence|reflexivity]. }
  assert (H01 : ~ In 0 (j :: h)) by (intros [|]; [congruence|]; now apply (proj1 (reach_ok _ _ R))).
  destruct (kept_run j _ _ _ _ _ X H01 al1 I1 Aj HA HU) as (al2 & I2 & Aj2 & C2 & L2).
  assert (Lin : In (key_of (V s2 j), j) (lvn s2)).
  { apply L2. apply find_lvn_in. now apply F. }
  pose proof (exec_reach _ _ _ _ _ X R1) as R2.
  destruct (no_failure _ _ _ R2 A2) as (s3 & r & E3).
  assert (exists i, r = OIndex i) as (i & ->).
  { cbn [step] in E3. unfold ix in E3. destruct (new_node s2 e2 q false); [|discriminate]. cbn in E3. injection E3 as _ <-. eauto. }
  destruct (node_step _ _ _ _ _ _ _ R2 A2 E3) as (alx & al3 & sc3 & Ix & I3 & G3 & Ai & Hi & Es3 & Ek3 & W3 & F3).
  assert (sc3 = sc) by congruence. subst sc3. specialize (F3 eq_refl Hvn2 Hty).
  assert (Sj : v_scope (V s2 j) = sc).
  { apply Hsc. apply vget_V. pose proof (al_range _ _ _ _ _ _ _ I2 Aj2). lia. }
  assert (KJ : key_of (V s2 j) = key_of (requested q sc)).
  { transitivity (key_of (set_vscope (V s2 j) sc)); [rewrite <- Sj; now destruct (V s2 j)|].
    rewrite (key_scope_core _ _ sc C2). rewrite key_vscope, Ek. reflexivity. }
  exists s3. rewrite E3. do 2 f_equal. rewrite Ek3, <- KJ in F3.
  assert (Q : find_lvn (key_of (V s2 j)) (lvn s3) = Some j).
  { apply in_find_lvn; [apply (I_stat _ _ _ _ _ _ I3)|]. now apply G3. }
  congruence.
Qed.

(** ** Element access *)
Lemma denote_ext s s' (P : N -> Prop) :
  (forall k v, P k -> vget s k = Some v -> exists v', vget s' k = Some v' /\ core v' = core v /\
     (is_evaluated v = true -> find_heap (v_lit v) (heap s') = find_heap (v_lit v) (heap s)) /\
     (forall d, In d (v_dep v) -> d = 0 \/ P d)) ->
  (forall k, P k -> vget s k <> None) -> vget s 0 <> None -> vget s' 0 <> None ->
  forall f k, k = 0 \/ P k -> denote f s' k = denote f s k.
Proof.
  intros H HN Z Z'. induction f as [|f IH]; intros k Hk; [reflexivity|]. cbn [denote].
  destruct Hk as [->|Hk].
  - destruct (vget s 0); [|congruence]. destruct (vget s' 0); [|congruence]. reflexivity.
  - specialize (HN k Hk). destruct (vget s k) as [v|] eqn:E; [|congruence].
    destruct (H k v Hk E) as (v' & E' & C & He & Hd). rewrite E'.
    assert (Ev : is_evaluated v' = is_evaluated v) by (now apply eval_core). rewrite Ev.
    pose proof (core_fields _ _ C) as (_&E2&E3&E4&E5&E6&E7&_&_&_&Eb&_&Ed).
    rewrite E2, E3, E4, E5, E6, E7, Eb, Ed.
    destruct (k =? 0); [reflexivity|]. destruct (is_evaluated v); [now rewrite (He eq_refl)|].
    f_equal. apply map_ext_in. intros d Hin. apply IH. auto.
Qed.

Lemma denote_keeps s al own ownse todo hx s' al' own' ownse' todo' hx' (P : N -> Prop) :
  INV s al own ownse todo hx -> INV s' al' own' ownse' todo' hx' ->
  (forall k, P k -> al k = true /\ keeps s al' s' k /\ forall d, In d (v_dep (V s k)) -> d = 0 \/ P d) ->
  forall f k, P k -> denote f s' k = denote f s k.
Proof.
  intros I I' H f k Hk. apply (denote_ext s s' P); auto.
  - intros j v Hj Ev. destruct (H j Hj) as (Aj & (Aj' & C & He) & Hd). apply vget_lt in Ev as (_ & ->).
    exists (V s' j). split; [apply vget_V; apply (al_range _ _ _ _ _ _ _ I' Aj')|]. auto.
  - intros j Hj. destruct (H j Hj) as (Aj & _). rewrite vget_V; [discriminate|]. apply (al_range _ _ _ _ _ _ _ I Aj).
  - rewrite vget_V; [discriminate|]. apply (I_len _ _ _ _ _ _ I).
  - rewrite vget_V; [discriminate|]. apply (I_len _ _ _ _ _ _ I').
Qed.

Lemma evaluated_kinds v : is_evaluated v = true -> is_literal v = false /\ is_undefined v = false.
Proof. unfold is_evaluated, is_literal, is_undefined, K_Evaluated, K_Literal, K_Undefined. intros E. apply N.eqb_eq in E. rewrite E. auto. Qed.

Lemma elements_contents s al own ownse todo hx i junk : INV s al own ownse todo hx -> al i = true ->
  elements s i junk = contents s i junk.
Proof.
  intros I Hi. pose proof (al_range _ _ _ _ _ _ _ I Hi) as Hr. unfold elements, contents. rewrite vget_V by lia.
  fold (is_literal (V s i)). fold (is_undefined (V s i)).
  destruct (is_literal (V s i)); [reflexivity|]. destruct (is_undefined (V s i)); [reflexivity|].
  cbn [denote]. rewrite vget_V by lia. destruct (N.eqb_spec i 0); [lia|].
  destruct (is_evaluated (V s i)); [|reflexivity]. now destruct (find_heap _ _).
Qed.

Lemma region_denote s al own ownse todo hx k t n c : INV s al own ownse todo hx -> al k = true ->
  region s k t n c -> denote 1 s k = VData t n c.
Proof.
  intros I Hk (Ev & Et & En & c' & F & Ec). pose proof (al_range _ _ _ _ _ _ _ I Hk).
  cbn [denote]. rewrite vget_V by lia. destruct (N.eqb_spec k 0); [lia|]. rewrite Ev, F, Et, En, Ec. reflexivity.
Qed.

(** If only one reference to the memory region [i] exists, no other variable
    uses its memory. *)
Lemma sole_owner s h al i : INVh s h al -> al i = true -> In i h -> is_evaluated (V s i) = true ->
  v_rc (V s i) <= 1 -> is_dirty (V s i) = false -> v_retain (V s i) = false ->
  count_occ N.eq_dec h i = 1%nat /\ (forall k, al k = true -> ~ In i (v_dep (V s k))) /\
  (forall k, al k = true -> k <> i -> is_evaluated (V s k) = true -> v_lit (V s k) <> v_lit (V s i)).
Proof.
  intros I Hi Hin He Hrc Hd Hret. pose proof (I_cnt _ _ _ _ _ _ I) as C. pose proof (I_stat _ _ _ _ _ _ I) as S.
  pose proof (c_rc _ _ _ _ _ _ C i Hi) as Erc. assert (Hocc := proj2 (occ_pos h i) Hin).
  assert (R0 : refs (V s) al (length (vars s)) i = 0) by lia.
  assert (RS : refs_se (V s) al (length (vars s)) i = 0).
  { pose proof (c_se _ _ _ _ _ _ C i Hi) as Es. unfold is_dirty in Hd. apply N.ltb_ge in Hd. cbv beta in Es. lia. }
  assert (ND : forall k, al k = true -> ~ In i (v_dep (V s k))).
  { intros k Hk Hin'. pose proof (c_range _ _ _ _ _ _ C k Hk). destruct (v_wptr (V s k)) eqn:Ew.
    - pose proof (refs_se_in (V s) al (length (vars s)) i k Hk ltac:(lia) Hin' Ew). lia.
    - pose proof (refs_in (V s) al (length (vars s)) i k Hk ltac:(lia) Hin' Ew). lia. }
  split; [unfold occ in *; lia|]. split; [exact ND|].
  destruct (s_rank _ _ _ _ _ _ _ S) as (rk & R).
  assert (G : forall m k, (N.to_nat (rk k) < m)%nat -> al k = true -> k <> i -> is_evaluated (V s k) = true ->
              v_lit (V s k) <> v_lit (V s i)).
  { induction m as [|m IH]; intros k Hm Hk Hki Hke Hl; [lia|].
    destruct (v_retain (V s k)) eqn:Er.
    - destruct (s_ret _ _ _ _ _ _ _ S k Hk Er) as (_ & d & Hdd & Hd0 & Hde & Hdl & _).
      assert (Ind : In d (v_dep (V s k))) by (rewrite Hdd; simpl; auto).
      assert (Ad : al d = true) by (eapply (s_dep _ _ _ _ _ _ _ S); eauto).
      destruct (N.eq_dec d i) as [->|Hdi]; [exact (ND k Hk Ind)|].
      specialize (R k d Hk Ind Hd0). apply (IH d); auto; [lia|congruence].
    - apply Hki. eapply (s_hinj _ _ _ _ _ _ _ S); eauto. }
  intros k. eapply G; eauto.
Qed.

Lemma in_remove1_ne i j h : count_occ N.eq_dec h i = 1%nat -> In j (remove1 i h) -> j <> i /\ In j h.
Proof.
  intros H Hin. split; [|eapply remove1_in; eauto]. intros ->.
  assert (Q : In i h) by (eapply remove1_in; eauto). pose proof (occ_remove1 i h i Q) as E. rewrite N.eqb_refl in E.
  apply occ_pos in Hin. unfold occ in *. lia.
Qed.

Lemma write_copy_on_write s h e i off x p1 p2 junk s' r v :
  reach s h -> allowed s h (OWrite e i off x p1 p2 junk) -> vget s i = Some v -> v_retain v = false ->
  step s (OWrite e i off x p1 p2 junk) = Some (s', r) ->
  (forall f j, In j (remove1 i h) -> denote f s' j = denote f s j) /\
  ((r = ORaise /\ (forall f, denote f s' i = denote f s i) /\
      (v_size v <= off \/ elements s i junk = None \/ is_dirty v = true)) \/
   exists k c, r = OIndex k /\ off < v_size v /\ elements s i junk = Some c /\
     denote 1 s' k = VData (v_type v) (v_size v) (set_nth (N.to_nat off) (trunc (v_type v) x) c) /\
     (k = i \/ ~ live s k /\ forall f, denote f s' i = denote f s i)).
Proof.
  intros R (Rm & T & Hin & F1 & F2 & Hp & v0 & Ev0 & Hs) Ev Hret E. destruct (reach_ok _ _ R) as (H0 & al & I).
  assert (Hi0 : i <> 0) by congruence. pose proof (held_al _ _ _ _ I Hin Hi0) as Hi.
  apply vget_lt in Ev as (_ & ->). apply vget_lt in Ev0 as (_ & ->).
  destruct (write_ok s h al e i off x p1 p2 junk I Rm T Hin Hi F1 F2 Hp Hs) as (s1 & r1 & al' & E1 & I' & Tr & Cs).
  cbn [step] in E. rewrite E1 in E. injection E as -> ->.
  rewrite (elements_contents _ _ _ _ _ _ i junk I Hi).
  assert (AllK : (forall k, al k = true -> keeps s al' s' k) -> forall f k, al k = true -> denote f s' k = denote f s k).
  { intros HK. apply (denote_keeps s al _ _ _ _ s' al' _ _ _ _ (fun k => al k = true) I I').
    intros k Hk. split; [exact Hk|]. split; [auto|]. intros d Hd. destruct (N.eq_dec d 0); [auto|right].
    eapply (s_dep _ _ _ _ _ _ _ (I_stat _ _ _ _ _ _ I)); eauto. }
  assert (HA : forall j, In j (remove1 i h) -> al j = true).
  { intros j Hj. apply remove1_in in Hj. eapply held_al; eauto. congruence. }
  destruct Cs as [(-> & HK & Hw)|(k & c & -> & Ho & Ec & Ak & Rg & [(Hki & Ank & HK)|(-> & Ee & Erc & Ed & -> & HC & HQ)])].
  - split; [intros; now apply AllK, HA|]. left. split; [reflexivity|]. split; [intros; now apply AllK|exact Hw].
  - split; [intros; now apply AllK, HA|]. right. exists k, c. split; [reflexivity|]. split; [exact Ho|]. split; [exact Ec|].
    split; [eapply region_denote; eauto|]. right. split; [|intros; now apply AllK].
    intros Hl. eapply live_al in Hl; eauto. congruence.
  - destruct (sole_owner _ _ _ _ I Hi Hin Ee Erc Ed Hret) as (Hc1 & ND & NL).
    split.
    + intros f j Hj. destruct (in_remove1_ne _ _ _ Hc1 Hj) as (Hji & Hjh).
      apply (denote_keeps s al _ _ _ _ s' al _ _ _ _ (fun k => al k = true /\ k <> i) I I'); [|split; auto].
      intros k (Hk & Hki). split; [exact Hk|]. split.
      * split; [exact Hk|]. split; [apply HC|]. intros Hke. apply HQ. now apply NL.
      * intros d Hd. destruct (N.eq_dec d 0); [auto|right]. split.
        -- eapply (s_dep _ _ _ _ _ _ _ (I_stat _ _ _ _ _ _ I)); eauto.
        -- intros ->. now apply (ND k Hk).
    + right. exists i, c. split; [reflexivity|]. split; [exact Ho|]. split; [exact Ec|].
      split; [eapply region_denote; eauto|]. auto.
Qed.

Lemma read_denotes s h i off t n c : reach s h -> In i h -> denote 1 s i = VData t n c ->
  (forall v, vget s i = Some v -> is_dirty v = false) ->
  step s (ORead i off) = Some (s, let k := if n =? 1 then 0 else off in
                                  if k <? n then OVal (nth (N.to_nat k) c 0) else ORaise).
Proof.
  intros R Hin Hd Hdirty. destruct (reach_ok _ _ R) as (H0 & al & I).
  assert (Hi0 : i <> 0) by congruence. pose proof (held_al _ _ _ _ I Hin Hi0) as Hi.
  pose proof (al_range _ _ _ _ _ _ _ I Hi) as Hr. cbn [denote] in Hd. rewrite vget_V in Hd by lia.
  destruct (N.eqb_spec i 0); [lia|]. destruct (is_evaluated (V s i)) eqn:Ee; [|discriminate].
  destruct (find_heap (v_lit (V s i)) (heap s)) as [c'|] eqn:Fc; [|discriminate]. injection Hd as <- <- <-.
  destruct (heap_of _ _ _ _ _ _ _ I Hi Ee) as (c2 & F2 & Hlen). assert (c2 = c') by congruence. subst c2.
  cbn [step]. unfold var_read. destruct (al_jitc _ _ _ _ _ _ I Hi) as (-> & _). cbn [bind].
  assert (En : is_node (V s i) = false).
  { unfold is_node, is_evaluated, K_Literal, K_Evaluated in *. apply N.eqb_eq in Ee. rewrite Ee. reflexivity. }
  rewrite En, (Hdirty (V s i)) by (apply vget_V; lia). cbn [orb].
  set (k := if v_size (V s i) =? 1 then 0 else off). cbn zeta.
  destruct (N.leb_spec (v_size (V s i)) k), (N.ltb_spec k (v_size (V s i))); try lia; [reflexivity|].
  destruct (evaluated_kinds _ Ee) as (-> & ->). cbn [orb]. rewrite Fc. cbn [bind].
  destruct (nth_error c' (N.to_nat k)) as [y|] eqn:Ey; [|apply nth_error_None in Ey; lia]. rewrite Ee. cbn [bind].
  do 3 f_equal. rewrite <- (firstn_skipn (N.to_nat (v_size (V s i))) c') in Ey.
  rewrite nth_error_app1 in Ey by (rewrite firstn_length; lia). symmetry. now apply nth_error_nth.
Qed.

(** Shrinking shares the memory of the original. *)
Lemma shrink_value s h e i n p junk s' r t m c :
  reach s h -> allowed s h (OShrink e i n p junk) -> denote 1 s i = VData t m c -> 0 < n < m ->
  (forall v, vget s i = Some v -> is_dirty v = false) ->
  step s (OShrink e i n p junk) = Some (s', r) ->
  exists k, r = OIndex k /\ ~ live s k /\ denote 1 s' k = VData t n (firstn (N.to_nat n) c) /\
    forall f j, In j h -> denote f s' j = denote f s j.
Proof.
  intros R (Rm & T & Hin & Hn & F & v0 & Ev0 & Hu & _) Hd Hnm Hdirty E. destruct (reach_ok _ _ R) as (H0 & al & I).
  assert (Hi0 : i <> 0) by congruence. pose proof (held_al _ _ _ _ I Hin Hi0) as Hi.
  pose proof (al_range _ _ _ _ _ _ _ I Hi) as Hr. apply vget_lt in Ev0 as (_ & ->).
  destruct (shrink_ok s h al e i n p junk I Rm T Hin Hi Hn Hu) as (s1 & r1 & al' & E1 & I' & G & Q).
  cbn [step] in E. rewrite E1 in E. injection E as -> ->.
  cbn [denote] in Hd. rewrite vget_V in Hd by lia.
  destruct (N.eqb_spec i 0); [lia|]. destruct (is_evaluated (V s i)) eqn:Ee; [|discriminate].
  destruct (find_heap (v_lit (V s i)) (heap s)) as [c'|] eqn:Fc; [|discriminate]. injection Hd as <- <- <-.
  destruct Q as (k & -> & Ak & Ak' & Ek & _ & Es & El & Et & Eh); auto; [lia|lia|apply Hdirty, vget_V; lia|].
  pose proof (al_range _ _ _ _ _ _ _ I' Ak') as Hrk.
  exists k. split; [reflexivity|]. split; [intros Hl; eapply live_al in Hl; eauto; congruence|]. split.
  - cbn [denote]. rewrite vget_V by lia. destruct (N.eqb_spec k 0); [lia|]. rewrite Ek, El, Eh, Fc, Es, Et. f_equal.
    rewrite firstn_firstn. f_equal. lia.
  - intros f j Hj. apply (denote_keeps s al _ _ _ _ s' al' _ _ _ _ (fun k => al k = true) I I').
    + intros j' Hj'. split; [exact Hj'|]. split; [eapply grows_keeps; eauto|]. intros d Hdd. destruct (N.eq_dec d 0); [auto|right].
      eapply (s_dep _ _ _ _ _ _ _ (I_stat _ _ _ _ _ _ I)); eauto.
    + eapply held_al; eauto. congruence.
Qed.

(** ** Literals *)
Lemma literal_reads_back s h e b t x n s1 i l s2 h2 off :
  reach s h -> allowed s h (OLiteral e b t x n) -> 0 < n -> step s (OLiteral e b t x n) = Some (s1, OIndex i) ->
  exec s1 (i :: h) l s2 h2 -> alive_in i l -> untouched i l -> In i h2 -> off < n ->
  step s2 (ORead i off) = Some (s2, OVal (x mod 2 ^ (8 * type_size t))).
Proof.
  intros R (Rm & T & Hb & Ht & Hn) Hn0 E X HA HU Hin2 Ho. destruct (reach_ok _ _ R) as (H0 & al & I).
  destruct (literal_ok s e b t x n al (occ h) []) as (s' & i' & al' & sc & E1 & I' & G & Ai & Hi0 & Ek & W); auto; try lia.
  { intros j. pose proof (room_bound s h j Rm). lia. }
  cbn [step] in E. unfold ix in E. rewrite E1 in E. cbn [bind fst snd] in E. injection E as -> ->.
  assert (I1 : INVh s1 (i :: h) al').
  { pose proof (gain_INV s1 h al' i Hi0 I') as Q. destruct i; [congruence|exact Q]. }
  assert (H01 : ~ In 0 (i :: h)) by (intros [|]; [congruence|auto]).
  destruct (kept_run i _ _ _ _ _ X H01 al' I1 Ai HA HU) as (al2 & I2 & Ai2 & C2 & _).
  destruct (key_inj _ _ (wf_fields _ _ _ _ _ _ _ I1 Ai) W Ek) as ((Kk & _ & Kt & Ks & Kl & _) & _).
  cbn in Kk, Kt, Ks, Kl. apply core_fields in C2. cbn in C2. destruct C2 as (_&_&El&Es&Ekk&_&Et&_).
  cbn [step]. unfold var_read. destruct (al_jitc _ _ _ _ _ _ I2 Ai2) as (-> & _). cbn [bind].
  assert (KK : v_kind (V s2 i) = K_Literal) by congruence.
  assert (N1 : is_node (V s2 i) = false) by (unfold is_node; now rewrite KK).
  assert (N2 : is_dirty (V s2 i) = false).
  { unfold is_dirty. rewrite (clean_unless_evaluated _ _ _ _ _ I2 Ai2); [reflexivity|]. unfold is_evaluated. now rewrite KK. }
  assert (N3 : is_literal (V s2 i) = true) by (unfold is_literal; now rewrite KK).
  rewrite N1, N2, N3. cbn [orb]. rewrite Es, Ks, El, Kl, Et, Kt.
  destruct (N.leb_spec n (if n =? 1 then 0 else off)) as [Q|_]; [destruct (n =? 1); lia|].
  cbn [bind]. do 3 f_equal. unfold trunc. apply N.mod_mod. apply N.pow_nonzero. lia.
Qed.

(** ** Scopes *)
Lemma new_scope s h t s' c : reach s h -> allowed s h (ONewScope t) -> step s (ONewScope t) = Some (s', OVal c) ->
  exists ro : N -> N,
    (forall x y, in_use s x -> in_use s y -> x < y -> ro x < ro y) /\
    (forall x, x < SCOPE_DYNAMIC -> ro x = x) /\
    (forall i v, live s i -> vget s i = Some v -> vget s' i = Some (set_vscope v (ro (v_scope v)))) /\
    tscope s' = set_nth t c (map ro (tscope s)) /\
    (forall x, in_use s x -> ro x < c) /\ c < 2 ^ 32 /\
    (sctr s <> 2 ^ 32 - 1 -> forall x, ro x = x).
Proof.
  intros R (Rm & At) E. destruct (reach_ok _ _ R) as (H0 & al & I).
  assert (ROOM : sz s + N.of_nat (length (tscope s)) + 4 < 2 ^ 32) by (unfold room, sz in *; lia).
  destruct (scope_next_ok _ _ _ _ _ I ROOM) as (s1 & c1 & ro & E1 & Ec & I1 & RS & Et & Hlt & Hc & Hid).
  cbn [step] in E. rewrite E1 in E. cbn [bind fst snd] in E. rewrite upd_some in E by (rewrite Et, map_length; exact At).
  cbn [bind] in E. injection E as <- <-. exists ro. split; [apply RS|]. split; [apply RS|]. split.
  - intros i v Hl Hv. eapply live_al in Hl; eauto. apply vget_lt in Hv as (Hr & ->).
    change (vget (with_scope s1 (set_nth t c1 (tscope s1)) (sctr s1)) i) with (vget s1 i).
    rewrite vget_V by (unfold sz in *; rewrite (rs_len _ _ _ _ RS); exact Hr).
    now rewrite (rs_V _ _ _ _ RS), Hl.
  - cbn. rewrite Et. auto.
Qed.
