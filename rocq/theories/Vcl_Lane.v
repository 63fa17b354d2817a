(** One lane: the generated code computes the value of the expression. *)
From Verif Require Import Base Lay_Model Lay_Spec Vcl_Model Vcl_Spec Vcl_Gen.
Local Open Scope N_scope.

Lemma pass_inv : forall i args k ts, pass i k args = Some ts -> length ts = length args /\
  forall n h t, nth_error args n = Some (h, t) ->
    if i_act i (k + n) && negb (i_lost i h) then exists t', t = Some t' /\ nth_error ts n = Some (Some t') else nth_error ts n = Some None.
Proof.
  intros i args. induction args as [|[h t] args IH]; intros k ts H; cbn [pass] in H.
  - injection H as <-. split; [reflexivity|]. intros n h t E. destruct n; discriminate.
  - match type of H with bind ?x _ = _ => destruct x as [x0|] eqn:EX end; cbn [bind] in H; [|discriminate].
    destruct (pass i (S k) args) as [r|] eqn:ER; cbn [bind] in H; [|discriminate]. injection H as <-.
    destruct (IH _ _ ER) as [L N0]. split; [cbn [length]; lia|]. intros n h' t' E. destruct n; cbn [nth_error] in E |- *.
    + injection E as <- <-. rewrite Nat.add_0_r. destruct (i_act i k); [destruct (i_lost i h)|]; cbn [andb negb]; try (injection EX as <-; reflexivity).
      destruct t as [t0|]; cbn [bind] in EX; [|discriminate]. injection EX as <-. exists t0. auto.
    + specialize (N0 n h' t' E). replace (k + S n)%nat with (S k + n)%nat by lia. exact N0.
Qed.

Section Lane.
Variable opsem : N -> list N -> N.
Record tctx := { t_in : nat -> option N; t_self : N; t_var : N -> N; t_slot : N -> nat -> N }.
Fixpoint tval (callee : nat -> nat -> N -> list (option N) -> option N) (c : tctx) (t : text) : option N :=
  match t with
  | TIn k => t_in c k
  | TVar v => Some (t_var c v)
  | TSlot r s => Some (t_slot c r s)
  | TSelf => Some (t_self c)
  | TLit x => Some x
  | TOp o ts => let? vs := all (map (tval callee c) ts) in Some (opsem o vs)
  | TMasked x s m =>
      let? s := tval callee c s in let? m := tval callee c m in
      Some (if negb (m =? 0) && negb (s =? 0) then x else 0)
  | TCall j o s m ts =>
      let? s := tval callee c s in
      let? m := tval callee c m in
      let? vs := all (map (fun t => match t with Some t => let? v := tval callee c t in Some (Some v) | None => Some None end) ts) in
      if negb (m =? 0) && negb (s =? 0) then callee j o s vs else Some 0
  end.

Variable cs : list vcall.
Variable is : list info.
Definition callee_ok (base : nat) (cal : nat -> nat -> N -> list N -> option N) (tcal : nat -> nat -> N -> list (option N) -> option N) : Prop :=
  forall j o s vs vs' c i y, (base <= j)%nat -> nth_error cs j = Some c -> nth_error is j = Some i -> is_ret c o = true ->
    length vs = k_nin c -> (forall k, (k < k_nin c)%nat -> i_act i k = true -> nth_error vs' k = Some (nth_error vs k)) ->
    cal j o s vs = Some y -> tcal j o s vs' = Some y.
Hypothesis LOST : forall j c i, nth_error cs j = Some c -> nth_error is j = Some i -> i_lost i = lost c.

Lemma tval_ok : forall cal tcal infos base var nin c tc, callee_ok base cal tcal ->
  (forall j i, (base <= j)%nat -> nth_error infos (j - base) = Some i -> nth_error is j = Some i) ->
  (forall v t, var v = Some t -> tval tcal tc t = Some (a_var c v)) -> t_self tc = a_self c ->
  forall e t y, gen infos base var e = Some t -> wf cs base nin e ->
  (forall k, In k (ins t) -> t_in tc k = a_in c k) ->
  (forall j o c', In (j, o) (refers t) -> nth_error cs j = Some c' -> is_ret c' o = true) ->
  val opsem cal c e = Some y -> tval tcal tc t = Some y.
Proof.
  intros cal tcal infos base var nin c tc CAL INF VAR SELF.
  induction e using expr_ind'; intros t y G W INS RET V; cbn [gen] in G; cbn [val] in V; cbn [wf] in W.
  - injection G as <-. cbn [tval]. rewrite INS by (left; reflexivity). exact V.
  - rewrite (VAR _ _ G). exact V.
  - injection G as <-. cbn [tval]. rewrite SELF. exact V.
  - injection G as <-. exact V.
  - apply fold_and in W. destruct (all (map (gen infos base var) es)) as [ts|] eqn:EG; cbn [bind] in G; [|discriminate]. injection G as <-.
    destruct (all (map (val opsem cal c) es)) as [vs|] eqn:EV; cbn [bind] in V; [|discriminate]. injection V as <-.
    cbn [tval]. replace (all (map (tval tcal tc) ts)) with (Some vs); [reflexivity|]. symmetry. clear LOST.
    cbn [ins refers] in INS, RET. revert ts vs EG EV INS RET. induction H as [|e es IHe F IHes]; intros ts vs EG EV INS RET.
    + injection EG as <-. injection EV as <-. reflexivity.
    + inversion W; subst. cbn [map all] in EG, EV.
      destruct (gen infos base var e) as [t|] eqn:E1; cbn [bind] in EG; [|discriminate].
      destruct (all (map (gen infos base var) es)) as [ts'|] eqn:E2; cbn [bind] in EG; [|discriminate]. injection EG as <-.
      destruct (val opsem cal c e) as [v|] eqn:E3; cbn [bind] in EV; [|discriminate].
      destruct (all (map (val opsem cal c) es)) as [vs'|] eqn:E4; cbn [bind] in EV; [|discriminate]. injection EV as <-.
      cbn [map all flat_map] in *. rewrite (IHe t v); auto; [|intros; apply INS; apply in_app_iff; auto|intros; eapply RET; [apply in_app_iff; left; eauto|auto]].
      cbn [bind]. rewrite (IHes H2 ts' vs'); auto; [intros; apply INS; apply in_app_iff; auto|intros; eapply RET; [apply in_app_iff; right; eauto|auto]].
  - destruct W as [W1 W2]. destruct (gen infos base var e1) as [s'|] eqn:E1; cbn [bind] in G; [|discriminate].
    destruct (gen infos base var e2) as [m'|] eqn:E2; cbn [bind] in G; [|discriminate]. injection G as <-.
    destruct (val opsem cal c e1) as [sv|] eqn:E3; cbn [bind] in V; [|discriminate].
    destruct (val opsem cal c e2) as [mv|] eqn:E4; cbn [bind] in V; [|discriminate]. cbn [tval ins refers] in *.
    rewrite (IHe1 s' sv); auto; [|intros; apply INS; apply in_app_iff; auto|intros; eapply RET; [apply in_app_iff; left; eauto|auto]].
    rewrite (IHe2 m' mv); auto; [intros; apply INS; apply in_app_iff; auto|intros; eapply RET; [apply in_app_iff; right; eauto|auto]].
  - destruct W as (B & W1 & W2 & W3 & c' & EC & LA & _ & LO). apply (fold_and _ (fun a => wf cs base nin (snd a))) in W3.
    destruct (Nat.ltb_spec j base); [lia|].
    destruct (nth_error infos (j - base)) as [i|] eqn:EI; cbn [bind] in G; [|discriminate].
    destruct (gen infos base var e1) as [s'|] eqn:E1; cbn [bind] in G; [|discriminate].
    destruct (gen infos base var e2) as [m'|] eqn:E2; cbn [bind] in G; [|discriminate].
    destruct (pass i 0 _) as [ts|] eqn:EP; cbn [bind] in G; [|discriminate]. injection G as <-.
    destruct (val opsem cal c e1) as [sv|] eqn:E3; cbn [bind] in V; [|discriminate].
    destruct (val opsem cal c e2) as [mv|] eqn:E4; cbn [bind] in V; [|discriminate].
    destruct (all (map (fun a => val opsem cal c (snd a)) args)) as [vs|] eqn:EV; cbn [bind] in V; [|discriminate].
    cbn [tval ins refers] in *.
    rewrite (IHe1 s' sv); auto; [|intros; apply INS; apply in_app_iff; auto|intros; eapply RET; [right; apply in_app_iff; left; eauto|auto]].
    rewrite (IHe2 m' mv); auto; [|intros; apply INS; rewrite !in_app_iff; auto|intros; eapply RET; [right; rewrite !in_app_iff; right; left; eauto|auto]].
    cbn [bind]. apply pass_inv in EP. destruct EP as [LT NT]. rewrite map_length in LT.
    assert (II : nth_error is j = Some i) by (apply INF; auto).
    assert (ARG : forall n a, nth_error args n = Some a -> exists v, nth_error vs n = Some v /\
              if i_act i n then exists t', nth_error ts n = Some (Some t') /\ tval tcal tc t' = Some v else nth_error ts n = Some None).
    { intros n a EA. assert (EN : nth_error (map (fun a => val opsem cal c (snd a)) args) n = Some (val opsem cal c (snd a))) by (rewrite nth_error_map, EA; reflexivity).
      destruct (all_nth _ _ _ _ _ EV EN) as (v & EV1 & EV2). exists v. split; [exact EV2|].
      specialize (NT n (fst a) (gen infos base var (snd a))). rewrite nth_error_map, EA in NT. specialize (NT eq_refl). cbn [plus] in NT.
      assert (LF : i_lost i (fst a) = false).
      { rewrite (LOST j c' i EC II). destruct (lost c' (fst a)) eqn:EL; [|reflexivity]. apply lost_iff in EL. destruct EL as (z & IZ & HZ).
        rewrite Forall_forall in LO. destruct (LO a (nth_error_In _ _ EA) z IZ). tauto. }
      rewrite LF in NT. cbn [negb] in NT. rewrite andb_true_r in NT. destruct (i_act i n); [|exact NT].
      destruct NT as (t' & T1 & T2). exists t'. split; [exact T2|]. rewrite Forall_forall in H, W3.
      apply (H a (nth_error_In _ _ EA)); auto; [apply W3; eapply nth_error_In; eauto| |].
      - intros k IK. apply INS. rewrite !in_app_iff. right. right. apply in_flat_map. exists (Some t'). split; [eapply nth_error_In; eauto|exact IK].
      - intros j' o' c'' IR EC'. eapply RET; [right; rewrite !in_app_iff; right; right; apply in_flat_map; exists (Some t'); split; [eapply nth_error_In; eauto|exact IR]|exact EC']. }
    assert (VS : exists vs', all (map (fun t => match t with Some t => let? v := tval tcal tc t in Some (Some v) | None => Some None end) ts) = Some vs').
    { apply all_ex. apply Forall_forall. intros x IX. apply In_nth_error in IX. destruct IX as [n EX].
      destruct (nth_error args n) as [a|] eqn:EA; [|apply nth_error_None in EA; assert (n < length ts)%nat by (apply nth_error_Some; rewrite EX; discriminate); lia].
      destruct (ARG n a EA) as (v & _ & AC). destruct (i_act i n); [destruct AC as (t' & A1 & A2); rewrite A1 in EX; injection EX as <-; rewrite A2; cbn [bind]; eauto|].
      rewrite AC in EX. injection EX as <-. eauto. }
    destruct VS as [vs' EVS]. rewrite EVS. cbn [bind].
    destruct (negb (mv =? 0) && negb (sv =? 0)); [|exact V].
    eapply CAL; eauto; [eapply RET; [left; reflexivity|exact EC]|rewrite (all_length _ _ _ EV), map_length; exact LA|].
    intros k KL KA. destruct (nth_error args k) as [a|] eqn:EA; [|apply nth_error_None in EA; lia].
    destruct (ARG k a EA) as (v & V1 & AC). rewrite KA in AC. destruct AC as (t' & A1 & A2).
    assert (EN : nth_error (map (fun t => match t with Some t => let? v := tval tcal tc t in Some (Some v) | None => Some None end) ts) k = Some (Some (Some v))).
    { rewrite nth_error_map, A1. cbn [option_map]. rewrite A2. reflexivity. }
    destruct (all_nth _ _ _ _ _ EVS EN) as (z & Z1 & Z2). injection Z1 as <-. rewrite V1. exact Z2.
Qed.
End Lane.
