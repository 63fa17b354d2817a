(** Histories of operations. *)
From Verif Require Import Base FreeSlots_Model FreeSlots_Spec FreeSlots_Proofs Var_Model Var_Spec Var_Inv Var_Count Var_Free Var_New Var_Create Var_Ops Var_Modify Var_Scopes Var_Step.
Local Open Scope N_scope.

Lemma in_set_nth {A} n (x y : A) l : In y (set_nth n x l) -> y = x \/ In y l.
Proof.
  revert n. induction l as [|a l IH]; intros [|n] H; cbn in *; try tauto.
  - destruct H; auto.
  - destruct H as [|H]; [tauto|]. apply IH in H. tauto.
Qed.
Lemma upd_some {A} n (x : A) l : (n < length l)%nat -> upd n x l = Some (set_nth n x l).
Proof. intros. unfold upd. destruct (Nat.ltb_spec n (length l)); [reflexivity|lia]. Qed.

Lemma occ_remove1_ne i l j : j <> i -> occ (remove1 i l) j = occ l j.
Proof.
  intros H. induction l as [|x r IH]; [reflexivity|]. cbn [remove1]. rewrite occ_cons.
  destruct (N.eqb_spec x i) as [->|].
  - destruct (N.eqb_spec j i); [congruence|lia].
  - rewrite occ_cons, IH. reflexivity.
Qed.

(** ** Zero is never held *)
Lemma gain_zero h r : ~ In 0 h -> ~ In 0 (gain h r).
Proof. intros H. destruct r as [[|p]| | | | |]; cbn; auto. intros [|]; [discriminate|auto]. Qed.
Lemma remove1_in i h x : In x (remove1 i h) -> In x h.
Proof. induction h as [|y r IH]; cbn; auto. destruct (y =? i); cbn; tauto. Qed.
Lemma after_zero h o r : ~ In 0 h -> ~ In 0 (after h o r).
Proof.
  intros H. destruct o; try (now apply gain_zero); cbn.
  - destruct (N.eqb_spec i 0); auto. intros [|]; [congruence|auto].
  - intros Q. apply remove1_in in Q. auto.
Qed.

Lemma trans_scope s al s' al' o t c : trans s al s' al' o -> trans s al (with_scope s' t c) al' o.
Proof. intros T. constructor; apply T. Qed.

Lemma step_ok s h al o : INVh s h al -> ~ In 0 h -> allowed s h o ->
  exists s' r al', step s o = Some (s', r) /\ INVh s' (after h o r) al' /\ trans s al s' al' o.
Proof.
  intros I H0 (R & A). pose proof (fun j => room_bound s h j R) as RB.
  assert (HA : forall i, In i h -> al i = true /\ i <> 0).
  { intros i Hi. assert (i <> 0) by congruence. split; auto. eapply held_al; eauto. }
  assert (VG : forall i v, vget s i = Some v -> v = V s i) by (intros i v E; now apply vget_lt in E).
  assert (RT : forall ts, sz s + N.of_nat (length (tscope s)) + 4 < 2 ^ 32 -> ts = tscope s -> True) by auto.
  assert (ROOM : sz s + N.of_nat (length (tscope s)) + 4 < 2 ^ 32) by (unfold room, sz in *; lia).
  destruct o; cbn [allowed] in A.
  - (* ONode *) destruct A as (T & L & Hd & K1 & K2 & K3 & K4 & K5 & K6 & K7).
    destruct (node_ok s e q dis al (occ h) []) as (s' & i & al' & E & I' & G & _ & Hi0 & _); auto.
    + intros d Hin. destruct (Hd d Hin) as [|Hh]; [auto|right; now apply HA].
    + intros j. specialize (RB j). lia.
    + exists s', (OIndex i), al'. cbn [step]. unfold ix. rewrite E. cbn [bind fst snd]. split; [reflexivity|].
      split; [now apply gain_INV|now apply trans_grow].
  - (* OLiteral *) destruct A as (T & Hb & Ht & Hn). cbn [step]. destruct (N.eq_dec size 0) as [->|Hz].
    + exists s, (OIndex 0), al. split; [reflexivity|]. split; [exact I|apply trans_refl].
    + destruct (literal_ok s e backend type value size al (occ h) []) as
        (s' & i & al' & sc & E & I' & G & _ & Hi0 & _); auto; try lia.
      { intros j. specialize (RB j). lia. }
      unfold ix. rewrite E. cbn [bind fst snd]. exists s', (OIndex i), al'. split; [reflexivity|].
      split; [now apply gain_INV|now apply trans_grow].
  - (* OMemMap *) destruct A as (T & Hb & Ht & Hn & Hc & F). cbn [step].
    destruct (map_ok s e backend type ptr size c al (occ h)) as
      (s1 & s' & i & E1 & E & I' & G & _ & Hi0 & _); auto.
    { intros j. specialize (RB j). lia. }
    rewrite E1. cbn [bind]. unfold ix. rewrite E. cbn [bind fst snd].
    exists s', (OIndex i), (fupd al i true). split; [reflexivity|].
    split; [now apply gain_INV|now apply trans_grow].
  - (* OPointer *) destruct A as (T & Hd & v & Ev & He & Hse). apply VG in Ev as ->. cbn [step].
    destruct (HA dep Hd) as (Ad & _). destruct (al_jitc _ _ _ _ _ _ I Ad) as (-> & _). cbn [bind].
    destruct (pointer_ok s h al e dep write written dis) as (s' & i & al' & E & I' & G); auto.
    unfold ix. rewrite E. cbn [bind fst snd]. exists s', (OIndex i), al'. split; [reflexivity|].
    split; [exact I'|now apply trans_grow].
  - (* OInc *) cbn [step after]. destruct (N.eqb_spec i 0) as [->|Hi].
    + exists s, OUnit, al. split; [reflexivity|]. split; [exact I|apply trans_refl].
    + destruct A as [|A]; [congruence|]. destruct (HA i A) as (Ai & _).
      destruct (inc_ref_ok s al (occ h) (fun _ => 0) [] i I Ai) as (s' & E & I' & CO & _); [specialize (RB i); lia|].
      rewrite E. cbn [bind]. exists s', OUnit, al. split; [reflexivity|]. split; [|now apply trans_grow, grows_counts].
      eapply INV_own; [| |exact I']; auto. intros j _. rewrite occ_cons. unfold plus1. lia.
  - (* ODec *) cbn [step after].
    assert (I' : INV s al (plus1 (occ (remove1 i h)) i) (fun _ => 0) [] []).
    { eapply INV_own; [| |exact I]; auto. intros j Hj. unfold plus1.
      destruct (N.eq_dec i 0) as [->|Hi].
      - rewrite occ_remove1_ne by auto. destruct (N.eqb_spec j 0); [congruence|lia].
      - destruct A as [|A]; [congruence|]. pose proof (occ_remove1 i h j A). lia. }
    destruct (dec_ref_ok _ _ _ _ _ _ I') as (s' & al' & E & I2 & Sh). rewrite E. cbn [bind].
    exists s', OUnit, al'. split; [reflexivity|]. split; [exact I2|now apply trans_shrink0].
  - (* OEval *) destruct A as (Hin & F & v & Ev & Hn & Hl). apply VG in Ev as ->. destruct (HA i Hin) as (Ai & _).
    destruct (eval_output_ok s h al i ptr c) as (s' & al' & E & I' & T); auto.
    cbn [step]. rewrite E. cbn [bind]. exists s', OUnit, al'. auto.
  - (* OEffect *) destruct A as (Hin & v & Ev & Hn). apply VG in Ev as ->. destruct (HA i Hin) as (Ai & _).
    destruct (eval_effect_ok s h al i) as (s' & al' & E & I' & T); auto.
    cbn [step]. rewrite E. cbn [bind]. exists s', OUnit, al'. auto.
  - (* OCopy *) destruct A as (T & Hin & F). destruct (HA i Hin) as (Ai & _).
    destruct (copy_ok s h al e i ptr) as (s' & r & al' & E & I' & G & _); auto.
    exists s', r, al'. split; [exact E|]. split; [exact I'|now apply trans_grow].
  - (* ORead *) destruct (HA i A) as (Ai & _). destruct (read_ok s al (occ h) i off I Ai) as (r & E & Hg).
    cbn [step]. rewrite E. cbn [bind]. exists s, r, al. split; [reflexivity|]. cbn [after]. rewrite Hg.
    split; [exact I|apply trans_refl].
  - (* OWrite *) destruct A as (T & Hin & F1 & F2 & Hp & v & Ev & Hs). apply VG in Ev as ->.
    destruct (HA i Hin) as (Ai & _).
    destruct (write_ok s h al e i off x p1 p2 junk) as (s' & r & al' & E & I' & Tr & _); auto.
    exists s', r, al'. auto.
  - (* OShrink *) destruct A as (T & Hin & Hn & F & v & Ev & Hu & _). apply VG in Ev as ->.
    destruct (HA i Hin) as (Ai & _).
    destruct (shrink_ok s h al e i size ptr junk) as (s' & r & al' & E & I' & G & _); auto.
    exists s', r, al'. split; [exact E|]. split; [exact I'|now apply trans_grow].
  - (* OResize *) destruct A as (T & Hin & Hn). destruct (HA i Hin) as (Ai & _).
    destruct (var_resize_ok s h al e i size) as (s' & r & al' & E & I' & Tr); auto.
    exists s', r, al'. auto.
  - (* OGetWeak *) destruct (HA i A) as (Ai & _). cbn [step].
    destruct (al_jitc _ _ _ _ _ _ I Ai) as (-> & _). cbn [bind].
    exists s, (OWeak i (v_counter (V s i))), al. split; [reflexivity|]. split; [exact I|apply trans_refl].
  - (* OResolve *) cbn [step]. unfold jitc_var_weak.
    destruct (N.leb_spec (N.of_nat (length (vars s))) i); [lia|]. rewrite vget_V by (unfold sz; lia). cbn [bind].
    eexists s, _, al. split; [reflexivity|]. split; [exact I|apply trans_refl].
  - (* OThread *) cbn [step].
    destruct (scope_next_ok _ _ _ _ _ I ROOM) as (s1 & c & ro & E & Ec & I1 & RS & Et & Hlt & Hc & _).
    rewrite E. cbn [bind fst snd]. eexists _, OUnit, al. split; [reflexivity|]. split.
    + apply set_scope_ok; auto.
      * intros x Hx. apply in_app_or in Hx as [Hx|[<-|[]]]; [|lia].
        now apply (s_ts _ _ _ _ _ _ _ (I_stat _ _ _ _ _ _ I1)).
      * lia.
    + apply trans_scope. eapply rescoped_trans; eauto.
  - (* ONewScope *) cbn [step].
    destruct (scope_next_ok _ _ _ _ _ I ROOM) as (s1 & c & ro & E & Ec & I1 & RS & Et & Hlt & Hc & _).
    rewrite E. cbn [bind fst snd]. rewrite upd_some by (rewrite Et, map_length; exact A). cbn [bind].
    eexists _, (OVal c), al. split; [reflexivity|]. split.
    + apply set_scope_ok; auto.
      * intros x Hx. apply in_set_nth in Hx as [->|Hx]; [lia|].
        now apply (s_ts _ _ _ _ _ _ _ (I_stat _ _ _ _ _ _ I1)).
      * lia.
    + apply trans_scope. eapply rescoped_trans; eauto.
  - (* OAdvance *) destruct A as (At & An). cbn [step]. rewrite upd_some by exact At. cbn [bind].
    set (v := if u32 (sctr s + n) <? sctr s then 2 ^ 32 - 1 else u32 (sctr s + n)).
    assert (Hv : sctr s <= v < 2 ^ 32).
    { pose proof (s_ctr _ _ _ _ _ _ _ (I_stat _ _ _ _ _ _ I)). pose proof (u32_lt (sctr s + n)).
      unfold v. destruct (N.ltb_spec (u32 (sctr s + n)) (sctr s)); lia. }
    eexists _, (OVal v), al. split; [reflexivity|]. split; [|apply trans_scope, trans_refl].
    apply set_scope_ok; auto. intros x Hx. apply in_set_nth in Hx as [->|Hx]; [lia|].
    apply (s_ts _ _ _ _ _ _ _ (I_stat _ _ _ _ _ _ I)) in Hx. lia.
  - (* OSetScope *) destruct A as (At & An). cbn [step]. rewrite upd_some by exact At. cbn [bind].
    eexists _, OUnit, al. split; [reflexivity|]. split; [|apply trans_scope, trans_refl].
    pose proof (s_ctr _ _ _ _ _ _ _ (I_stat _ _ _ _ _ _ I)).
    apply set_scope_ok; auto; [|lia]. intros x Hx. apply in_set_nth in Hx as [->|Hx]; [lia|].
    now apply (s_ts _ _ _ _ _ _ _ (I_stat _ _ _ _ _ _ I)).
  - destruct A.
Qed.

Lemma reach_ok s h : reach s h -> ~ In 0 h /\ exists al, INVh s h al.
Proof.
  induction 1 as [|s h o s' r Hr (H0 & al & I) A E].
  - split; [easy|]. exists (fun _ => false). eapply INV_own; [| |exact INV_init]; auto.
  - split; [now apply after_zero|]. destruct (step_ok s h al o I H0 A) as (s1 & r1 & al1 & E1 & I1 & _).
    assert (s1 = s' /\ r1 = r) as (-> & ->) by (rewrite E in E1; injection E1; auto). eauto.
Qed.

(** The set of live variables as a boolean function. *)
Lemma live_b_al s h al i : INVh s h al -> live_b s i = al i.
Proof.
  intros I. unfold live_b. destruct (N.eqb_spec i 0) as [->|Hi]; cbn.
  - destruct (al 0) eqn:E; auto. apply (al_range _ _ _ _ _ _ _ I) in E. lia.
  - destruct (vget s i) as [v|] eqn:E.
    + apply vget_lt in E as (_ & ->). eapply referenced_al; eauto.
    + destruct (al i) eqn:Ea; auto. apply (al_range _ _ _ _ _ _ _ I) in Ea. rewrite vget_V in E by lia. discriminate.
Qed.
Lemma INV_al s h al al' : INVh s h al -> INVh s h al' -> forall i, al i = al' i.
Proof. intros I I' i. rewrite <- (live_b_al _ _ _ i I). now apply live_b_al with (h := h). Qed.
