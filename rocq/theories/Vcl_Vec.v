(** Vectors: dispatch and execution agree with the computation of each lane. *)
From Verif Require Import Base Lay_Model Lay_Spec Vcl_Model Vcl_Spec Vcl_Gen Vcl_Lane.
Local Open Scope N_scope.

(** ** Dispatch *)
Lemma fold_max : forall l a, a <= fold_left N.max l a /\ Forall (fun x => x <= fold_left N.max l a) l /\ (fold_left N.max l a = a \/ In (fold_left N.max l a) l).
Proof.
  induction l as [|x l IH]; intros a; cbn [fold_left]; [repeat split; auto; lia|].
  destruct (IH (N.max a x)) as (A & B & C). split; [lia|]. split; [constructor; [lia|exact B]|].
  cbn [In]. destruct C as [C|C]; [|auto]. rewrite C. lia.
Qed.
Lemma max_idx : forall (idx : nat -> N) lanes, (forall l, In l lanes -> idx l <= fold_left N.max (map idx lanes) 0) /\
  (fold_left N.max (map idx lanes) 0 <> 0 -> exists l, In l lanes /\ idx l = fold_left N.max (map idx lanes) 0).
Proof.
  intros. destruct (fold_max (map idx lanes) 0) as (_ & B & C). split.
  - intros l I. rewrite Forall_forall in B. apply B. apply in_map. exact I.
  - intros NZ. destruct C as [C|C]; [contradiction|]. apply in_map_iff in C. destruct C as (l & E & I). eauto.
Qed.
Lemma filter_less : forall (p q : nat -> bool) l, (forall x, In x l -> q x = true -> p x = true) -> (exists x, In x l /\ p x = true /\ q x = false) ->
  (length (filter q l) < length (filter p l))%nat.
Proof.
  intros p q l. assert (LE : forall l, (forall x, In x l -> q x = true -> p x = true) -> (length (filter q l) <= length (filter p l))%nat).
  { clear. induction l as [|a l IH]; intros H; cbn [filter]; [lia|]. specialize (IH (fun x I => H x (or_intror I))). pose proof (H a (or_introl eq_refl)).
    destruct (q a); [rewrite H0 by reflexivity|destruct (p a)]; cbn [length]; lia. }
  induction l as [|a l IH]; intros H (x & I & P & Q); [destruct I|]. cbn [filter].
  pose proof (LE l (fun x I => H x (or_intror I))) as LL. pose proof (H a (or_introl eq_refl)) as HA.
  destruct I as [->|I].
  - rewrite P, Q. cbn [length]. lia.
  - assert (length (filter q l) < length (filter p l))%nat by (apply IH; [intros; apply H; [right|]; auto|eauto]).
    destruct (q a); [rewrite HA by reflexivity|destruct (p a)]; cbn [length]; lia.
Qed.
Definition busy (lanes : list nat) (idx : nat -> N) : nat := length (filter (fun l => negb (idx l =? 0)) lanes).
Lemma busy_step : forall lanes idx, let m := fold_left N.max (map idx lanes) 0 in m <> 0 ->
  (busy lanes (fun l => if (idx l =? m)%N then 0%N else idx l) < busy lanes idx)%nat.
Proof.
  intros lanes idx m NZ. unfold busy. apply filter_less.
  - intros x I. destruct (idx x =? m); [discriminate|auto].
  - destruct (proj2 (max_idx idx lanes) NZ) as (l & I & E). fold m in E. exists l. rewrite E, N.eqb_refl. split; [exact I|]. split; [|reflexivity]. apply negb_true_iff. apply N.eqb_neq. exact NZ.
Qed.
Lemma busy_le : forall lanes idx, (busy lanes idx <= length lanes)%nat.
Proof. intros. unfold busy. induction lanes; cbn [filter length]; [lia|]. destruct (negb _); cbn [length]; lia. Qed.

Lemma dispatch_ok : forall lanes body (idx0 : nat -> N) (R : nat -> N -> Prop),
  (forall next active, next <> 0 -> (exists l, In l lanes /\ idx0 l = next) -> (forall l, In l lanes -> active l = true -> idx0 l = next) ->
     exists r, body next active = Some r /\ forall l, In l lanes -> active l = true -> R l (r l)) ->
  forall fuel idx acc, (busy lanes idx <= fuel)%nat -> (forall l, In l lanes -> idx l = 0 \/ idx l = idx0 l) ->
  exists f, dispatch lanes fuel body idx acc = Some f /\
    forall l, In l lanes -> (idx l <> 0 -> R l (f l)) /\ (idx l = 0 -> f l = acc l).
Proof.
  intros lanes body idx0 R B fuel. induction fuel as [|fuel IH]; intros idx acc L0 INV; cbn [dispatch].
  - destruct (N.eqb_spec (fold_left N.max (map idx lanes) 0) 0) as [Z|NZ].
    + exists acc. split; [reflexivity|]. intros l I. pose proof (proj1 (max_idx idx lanes) l I). split; [lia|auto].
    + pose proof (busy_step lanes idx NZ). lia.
  - destruct (N.eqb_spec (fold_left N.max (map idx lanes) 0) 0) as [Z|NZ].
    + exists acc. split; [reflexivity|]. intros l I. pose proof (proj1 (max_idx idx lanes) l I). split; [lia|auto].
    + pose proof (busy_step lanes idx NZ) as BS. cbn zeta in BS. set (m := fold_left N.max (map idx lanes) 0) in *.
      destruct (B m (fun l => idx l =? m)) as (r & ER & RR); [exact NZ| | |].
      * destruct (proj2 (max_idx idx lanes) NZ) as (l & I & E). fold m in E. exists l. split; [exact I|]. destruct (INV l I); congruence.
      * intros l I E. apply N.eqb_eq in E. destruct (INV l I); congruence.
      * rewrite ER. cbn [bind].
        destruct (IH (fun l => if idx l =? m then 0 else idx l) (fun l => if idx l =? m then r l else acc l)) as (f & EF & FF); [lia| |].
        { intros l I. destruct (idx l =? m); [auto|apply INV; auto]. }
        exists f. split; [exact EF|]. intros l I. destruct (FF l I) as [F1 F2]. destruct (N.eqb_spec (idx l) m) as [E|E].
        -- specialize (F2 eq_refl). split; [|intros; congruence]. intros _. rewrite F2. apply RR; [exact I|]. apply N.eqb_eq. exact E.
        -- auto.
Qed.
(** Each lane with a callable takes part in exactly one of the calls, that of its callable;
    the others in none *)
Lemma trace_ok : forall lanes, NoDup lanes -> forall fuel idx, (busy lanes idx <= fuel)%nat ->
  forall l, In l lanes ->
    filter (fun x => existsb (Nat.eqb l) (snd x)) (trace lanes fuel idx) =
    if idx l =? 0 then [] else [(idx l, filter (fun l' => idx l' =? idx l) lanes)].
Proof.
  intros lanes ND fuel. induction fuel as [|fuel IH]; intros idx B l I; cbn [trace].
  - destruct (N.eqb_spec (fold_left N.max (map idx lanes) 0) 0) as [Z|NZ]; [|pose proof (busy_step lanes idx NZ); lia].
    pose proof (proj1 (max_idx idx lanes) l I). replace (idx l) with 0 by lia. reflexivity.
  - destruct (N.eqb_spec (fold_left N.max (map idx lanes) 0) 0) as [Z|NZ].
    + pose proof (proj1 (max_idx idx lanes) l I). replace (idx l) with 0 by lia. reflexivity.
    + pose proof (busy_step lanes idx NZ) as BS. cbn zeta in BS. set (m := fold_left N.max (map idx lanes) 0) in *.
      cbn [filter snd]. rewrite IH by (auto; lia).
      destruct (existsb (Nat.eqb l) (filter (fun l' => idx l' =? m) lanes)) eqn:E.
      * apply existsb_nat in E. apply filter_In in E. destruct E as [_ E]. rewrite E. cbn [N.eqb]. apply N.eqb_eq in E. rewrite E.
        destruct (N.eqb_spec m 0); [contradiction|]. reflexivity.
      * destruct (N.eqb_spec (idx l) m) as [EM|NM].
        { exfalso. assert (X : existsb (Nat.eqb l) (filter (fun l' => idx l' =? m) lanes) = true); [|congruence]. apply existsb_nat. apply filter_In. split; [exact I|]. apply N.eqb_eq. exact EM. }
        destruct (N.eqb_spec (idx l) 0) as [E0|N0]; [reflexivity|]. f_equal. f_equal.
        apply filter_ext_in. intros a IA. destruct (N.eqb_spec (idx a) m) as [EA|NA]; [|reflexivity].
        destruct (N.eqb_spec 0 (idx l)); [congruence|]. destruct (N.eqb_spec (idx a) (idx l)); [congruence|reflexivity].
Qed.

(** ** Execution *)
Fixpoint slots (t : text) : list (N * nat) :=
  match t with
  | TIn _ | TVar _ | TSelf | TLit _ => []
  | TSlot r s => [(r, s)]
  | TOp _ ts => flat_map slots ts
  | TMasked _ s m => slots s ++ slots m
  | TCall _ _ s m ts => slots s ++ slots m ++ flat_map (fun t => match t with Some t => slots t | None => [] end) ts
  end.
Section Vec.
Variable opsem : N -> list N -> N.
Variable cs : list vcall.
Variable is : list info.
(** Calls in generated code *)
Fixpoint okt (base : nat) (t : text) : Prop :=
  match t with
  | TIn _ | TVar _ | TSlot _ _ | TSelf | TLit _ => True
  | TOp _ ts => fold_right (fun t P => okt base t /\ P) True ts
  | TMasked _ s m => okt base s /\ okt base m
  | TCall j o s m ts =>
      okt base s /\ okt base m /\ fold_right (fun t P => (match t with Some t => okt base t | None => True end) /\ P) True ts /\ (base <= j)%nat /\
      exists c i, nth_error cs j = Some c /\ nth_error is j = Some i /\ Forall (fun os => (o < length os)%nat) (k_outs c) /\
        length ts = k_nin c /\ forall k, (k < k_nin c)%nat -> i_act i k = true -> exists t, nth_error ts k = Some (Some t)
  end.
Lemma okt_gen : forall infos base var nin,
  (forall j c i, nth_error cs j = Some c -> nth_error is j = Some i -> i_lost i = lost c) ->
  (forall j i, (base <= j)%nat -> nth_error infos (j - base) = Some i -> nth_error is j = Some i) ->
  (forall v t, var v = Some t -> okt base t) ->
  forall e t, gen infos base var e = Some t -> wf cs base nin e -> okt base t.
Proof.
  intros infos base var nin LOST INF VAR. induction e using expr_ind'; intros t G W; cbn [gen] in G; cbn [wf] in W; try (injection G as <-; exact I); eauto.
  - apply fold_and in W. destruct (all (map (gen infos base var) es)) as [ts|] eqn:EG; cbn [bind] in G; [|discriminate]. injection G as <-.
    cbn [okt]. apply fold_and. apply all_inv in EG. apply Forall_forall. intros t IT.
    assert (X : In (Some t) (map (gen infos base var) es)) by (rewrite EG; apply in_map; exact IT).
    apply in_map_iff in X. destruct X as (e & E & IE). rewrite Forall_forall in H, W. eapply H; eauto.
  - destruct W as [W1 W2]. destruct (gen infos base var e1) as [s'|] eqn:E1; cbn [bind] in G; [|discriminate].
    destruct (gen infos base var e2) as [m'|] eqn:E2; cbn [bind] in G; [|discriminate]. injection G as <-. cbn [okt]. auto.
  - destruct W as (B & W1 & W2 & W3 & c' & EC & LA & OO & LO). apply (fold_and _ (fun a => wf cs base nin (snd a))) in W3.
    destruct (Nat.ltb_spec j base); [lia|].
    destruct (nth_error infos (j - base)) as [i|] eqn:EI; cbn [bind] in G; [|discriminate].
    destruct (gen infos base var e1) as [s'|] eqn:E1; cbn [bind] in G; [|discriminate].
    destruct (gen infos base var e2) as [m'|] eqn:E2; cbn [bind] in G; [|discriminate].
    destruct (pass i 0 _) as [ts|] eqn:EP; cbn [bind] in G; [|discriminate]. injection G as <-.
    apply pass_inv in EP. destruct EP as [LT NT]. rewrite map_length in LT. assert (II : nth_error is j = Some i) by (apply INF; auto).
    assert (NT' : forall n a, nth_error args n = Some a -> if i_act i n then exists t', gen infos base var (snd a) = Some t' /\ nth_error ts n = Some (Some t') else nth_error ts n = Some None).
    { intros n a EA. specialize (NT n (fst a) (gen infos base var (snd a))). rewrite nth_error_map, EA in NT. specialize (NT eq_refl). cbn [plus] in NT.
      assert (LF : i_lost i (fst a) = false).
      { rewrite (LOST j c' i EC II). destruct (lost c' (fst a)) eqn:EL; [|reflexivity]. apply lost_iff in EL. destruct EL as (z & IZ & HZ).
        rewrite Forall_forall in LO. destruct (LO a (nth_error_In _ _ EA) z IZ). tauto. }
      rewrite LF in NT. cbn [negb] in NT. rewrite andb_true_r in NT. exact NT. }
    cbn [okt]. split; [auto|]. split; [auto|]. split.
    { apply (fold_and _ (fun t => match t with Some t => okt base t | None => True end)). apply Forall_forall. intros [t|] IT; [|exact I].
      apply In_nth_error in IT. destruct IT as [n EN]. destruct (nth_error args n) as [a|] eqn:EA; [|apply nth_error_None in EA; assert (n < length ts)%nat by (apply nth_error_Some; rewrite EN; discriminate); lia].
      specialize (NT' n a EA). destruct (i_act i n); [|congruence]. destruct NT' as (t' & T1 & T2). rewrite T2 in EN. injection EN as ->.
      rewrite Forall_forall in H, W3. eapply H; eauto; [eapply nth_error_In; eauto|apply W3; eapply nth_error_In; eauto]. }
    split; [auto|]. exists c', i. split; [auto|]. split; [auto|]. split; [auto|]. split; [lia|].
    intros k KL KA. destruct (nth_error args k) as [a|] eqn:EA; [|apply nth_error_None in EA; lia]. specialize (NT' k a EA). rewrite KA in NT'. destruct NT' as (t' & _ & T2). eauto.
Qed.
Lemma slots_gen : forall infos base var, (forall v t, var v = Some t -> exists r s, t = TSlot r s) ->
  forall e t, gen infos base var e = Some t -> slots t <> [] -> exists v, In v (evars e) /\ exists t', var v = Some t'.
Proof.
  intros infos base var VAR. induction e using expr_ind'; intros t G NE; cbn [gen] in G; try (injection G as <-; contradiction NE; reflexivity).
  - exists c. split; [left; reflexivity|eauto].
  - destruct (all (map (gen infos base var) es)) as [ts|] eqn:EG; cbn [bind] in G; [|discriminate]. injection G as <-. cbn [slots] in NE.
    destruct (flat_map slots ts) as [|x r] eqn:EF; [contradiction NE; reflexivity|]. assert (IX : In x (flat_map slots ts)) by (rewrite EF; left; reflexivity).
    apply in_flat_map in IX. destruct IX as (t & IT & IX). apply all_inv in EG.
    assert (X : In (Some t) (map (gen infos base var) es)) by (rewrite EG; apply in_map; exact IT).
    apply in_map_iff in X. destruct X as (e & E & IE). rewrite Forall_forall in H. destruct (H e IE t E) as (v & IV & V); [intros Z; rewrite Z in IX; destruct IX|].
    exists v. split; [apply in_flat_map; eauto|exact V].
  - destruct (gen infos base var e1) as [s'|] eqn:E1; cbn [bind] in G; [|discriminate].
    destruct (gen infos base var e2) as [m'|] eqn:E2; cbn [bind] in G; [|discriminate]. injection G as <-. cbn [slots evars] in *.
    destruct (slots s') as [|x0 r] eqn:ES.
    + cbn [app] in NE. destruct (IHe2 m' eq_refl NE) as (v & IV & V). exists v. split; [apply in_app_iff; auto|exact V].
    + destruct (IHe1 s' eq_refl) as (v & IV & V); [rewrite ES; discriminate|]. exists v. split; [apply in_app_iff; auto|exact V].
  - destruct (Nat.ltb j base); [discriminate|].
    destruct (nth_error infos (j - base)) as [i|] eqn:EI; cbn [bind] in G; [|discriminate].
    destruct (gen infos base var e1) as [s'|] eqn:E1; cbn [bind] in G; [|discriminate].
    destruct (gen infos base var e2) as [m'|] eqn:E2; cbn [bind] in G; [|discriminate].
    destruct (pass i 0 _) as [ts|] eqn:EP; cbn [bind] in G; [|discriminate]. injection G as <-. cbn [slots evars] in *.
    destruct (slots s') as [|x0 r] eqn:ES.
    2:{ destruct (IHe1 s' eq_refl) as (v & IV & V); [rewrite ES; discriminate|]. exists v. split; [rewrite !in_app_iff; auto|exact V]. }
    destruct (slots m') as [|x r] eqn:EM.
    2:{ destruct (IHe2 m' eq_refl) as (v & IV & V); [rewrite EM; discriminate|]. exists v. split; [rewrite !in_app_iff; auto|exact V]. }
    cbn [app] in NE. destruct (flat_map _ ts) as [|x r] eqn:EF; [contradiction NE; reflexivity|].
    assert (IX : In x (flat_map (fun t => match t with Some t => slots t | None => [] end) ts)) by (rewrite EF; left; reflexivity).
    apply in_flat_map in IX. destruct IX as ([t|] & IT & IX); [|destruct IX].
    apply pass_inv in EP. destruct EP as [LT NT]. rewrite map_length in LT. apply In_nth_error in IT. destruct IT as [n EN].
    destruct (nth_error args n) as [a|] eqn:EA; [|apply nth_error_None in EA; assert (n < length ts)%nat by (apply nth_error_Some; rewrite EN; discriminate); lia].
    specialize (NT n (fst a) (gen infos base var (snd a))). rewrite nth_error_map, EA in NT. specialize (NT eq_refl).
    destruct (_ && _); [|congruence]. destruct NT as (t' & T1 & T2). rewrite T2 in EN. injection EN as ->.
    rewrite Forall_forall in H. destruct (H a (nth_error_In _ _ EA) t T1) as (v & IV & V); [intros Z; rewrite Z in IX; destruct IX|].
    exists v. split; [rewrite !in_app_iff; left; apply in_flat_map; exists a; split; [eapply nth_error_In; eauto|exact IV]|exact V].
Qed.

Variable m : N -> N.
Variable lanes : list nat.
Definition lane_args (vs : list (option vec)) (l : nat) : list (option N) := map (option_map (fun v : vec => v l)) vs.
(** [callj] agrees in each lane with [tcal] *)
Definition call_ok (base : nat) (tcal : nat -> nat -> N -> list (option N) -> option N)
    (callj : nat -> nat -> (nat -> bool) -> vec -> list (option vec) -> option vec) : Prop :=
  forall j o mask self vs c i, (base <= j)%nat -> nth_error cs j = Some c -> nth_error is j = Some i -> is_ret c o = true ->
    Forall (fun os => (o < length os)%nat) (k_outs c) ->
    (forall k, (k < k_nin c)%nat -> i_act i k = true -> exists v, nth_error vs k = Some (Some v)) ->
    (forall l, In l lanes -> mask l = true -> exists y, tcal j o (self l) (lane_args vs l) = Some y) ->
    exists f, callj j o mask self vs = Some f /\
      forall l, In l lanes -> (mask l = true -> tcal j o (self l) (lane_args vs l) = Some (f l)) /\ (mask l = false -> f l = 0).

Definition agree tcal callj en (tc : nat -> tctx) (t : text) : Prop :=
  exists f, tev opsem m callj en t = Some f /\ forall l, In l lanes -> v_mask en l = true -> tval opsem tcal (tc l) t = Some (f l).
Lemma agree_all : forall tcal callj en tc ts, Forall (agree tcal callj en tc) ts ->
  exists fs, all (map (tev opsem m callj en) ts) = Some fs /\
    forall l, In l lanes -> v_mask en l = true -> all (map (tval opsem tcal (tc l)) ts) = Some (map (fun v : vec => v l) fs).
Proof.
  intros tcal callj en tc ts F. induction F as [|t ts (f & EF & FF) F (fs & ES & FS)]; [exists []; auto|].
  exists (f :: fs). cbn [map all]. rewrite EF. cbn [bind]. rewrite ES. cbn [bind]. split; [reflexivity|]. intros l I M. rewrite (FF l I M). cbn [bind]. rewrite (FS l I M). reflexivity.
Qed.
Definition opt_agree tcal callj en (tc : nat -> tctx) (t : option text) : Prop := match t with Some t => agree tcal callj en tc t | None => True end.
Lemma agree_args : forall tcal callj en tc ts, Forall (opt_agree tcal callj en tc) ts ->
  exists fs, all (map (fun t => match t with Some t => let? v := tev opsem m callj en t in Some (Some v) | None => Some None end) ts) = Some fs /\
    (forall k t, nth_error ts k = Some (Some t) -> exists v, nth_error fs k = Some (Some v)) /\
    forall l, In l lanes -> v_mask en l = true ->
      all (map (fun t => match t with Some t => let? v := tval opsem tcal (tc l) t in Some (Some v) | None => Some None end) ts) = Some (lane_args fs l).
Proof.
  intros tcal callj en tc ts F. induction F as [|t ts A F (fs & ES & NS & FS)].
  { exists []. split; [reflexivity|]. split; [intros k t E; destruct k; discriminate|reflexivity]. }
  destruct t as [t|]; cbn [opt_agree] in A.
  - destruct A as (f & EF & FF). exists (Some f :: fs). cbn [map all]. rewrite EF. cbn [bind]. rewrite ES. cbn [bind]. split; [reflexivity|]. split.
    + intros k t' E. destruct k; cbn [nth_error] in *; eauto.
    + intros l I M. rewrite (FF l I M). cbn [bind]. rewrite (FS l I M). reflexivity.
  - exists (None :: fs). cbn [map all]. cbn [bind]. rewrite ES. cbn [bind]. split; [reflexivity|]. split.
    + intros k t' E. destruct k; cbn [nth_error] in *; [discriminate|eauto].
    + intros l I M. cbn [bind]. rewrite (FS l I M). reflexivity.
Qed.
Lemma all_Some_in : forall A B (f : A -> option B) l r x, all (map f l) = Some r -> In x l -> exists y, f x = Some y.
Proof.
  intros A B f l r x H I. apply all_inv in H. assert (X : In (f x) (map Some r)) by (rewrite <- H; apply in_map; exact I).
  apply in_map_iff in X. destruct X as (y & E & _). eauto.
Qed.

Lemma tev_ok : forall tcal callj base en (tc : nat -> tctx), call_ok base tcal callj ->
  (forall l, In l lanes -> v_mask en l = true -> (forall v, v_var en v l = t_var (tc l) v) /\ v_self en l = t_self (tc l)) ->
  forall t, okt base t ->
  (forall k, In k (ins t) -> exists v, v_in en k = Some v /\ forall l, In l lanes -> v_mask en l = true -> t_in (tc l) k = Some (v l)) ->
  (forall r s l, In (r, s) (slots t) -> In l lanes -> v_mask en l = true -> value m (v_off en l + r) s = t_slot (tc l) r s) ->
  (forall j o c, In (j, o) (refers t) -> nth_error cs j = Some c -> is_ret c o = true) ->
  (forall l, In l lanes -> v_mask en l = true -> exists y, tval opsem tcal (tc l) t = Some y) ->
  agree tcal callj en tc t.
Proof.
  intros tcal callj base en tc CAL ENV. induction t using text_ind'; intros OK INS SL RET V; unfold agree; cbn [tev tval].
  - destruct (INS k (or_introl eq_refl)) as (v & E & EV). exists v. auto.
  - exists (v_var en c). split; [reflexivity|]. intros l I M. destruct (ENV l I M) as [E _]. rewrite E. reflexivity.
  - eexists. split; [reflexivity|]. intros l I M. cbn beta. rewrite M. rewrite <- (SL r s l); auto. left. reflexivity.
  - exists (v_self en). split; [reflexivity|]. intros l I M. destruct (ENV l I M) as [_ E]. rewrite E. reflexivity.
  - eexists. split; [reflexivity|]. reflexivity.
  - cbn [okt ins slots refers tval] in *. apply fold_and in OK.
    destruct (agree_all tcal callj en tc ts) as (fs & E & EF).
    { apply Forall_forall. intros t IT. rewrite Forall_forall in H, OK. apply H; auto.
      - intros k IK. apply INS. apply in_flat_map. eauto.
      - intros r s l IS. apply SL. apply in_flat_map. eauto.
      - intros j o' c IR. apply RET. apply in_flat_map. eauto.
      - intros l I M. destruct (V l I M) as [y EY]. destruct (all (map (tval opsem tcal (tc l)) ts)) as [r|] eqn:EA; cbn [bind] in EY; [|discriminate]. eapply all_Some_in; eauto. }
    rewrite E. cbn [bind]. eexists. split; [reflexivity|]. intros l I M. rewrite (EF l I M). reflexivity.
  - cbn [okt ins slots refers tval] in *. destruct OK as [O1 O2].
    destruct IHt1 as (fs & E1 & F1); [auto|intros; apply INS; apply in_app_iff; auto|intros; apply SL; auto; apply in_app_iff; auto|intros; eapply RET; eauto; apply in_app_iff; eauto| |].
    { intros l I M. destruct (V l I M) as [y EY]. destruct (tval opsem tcal (tc l) t1); [eauto|discriminate]. }
    destruct IHt2 as (fm & E2 & F2); [auto|intros; apply INS; apply in_app_iff; auto|intros; apply SL; auto; apply in_app_iff; auto|intros; eapply RET; eauto; apply in_app_iff; eauto| |].
    { intros l I M. destruct (V l I M) as [y EY]. rewrite (F1 l I M) in EY. cbn [bind] in EY. destruct (tval opsem tcal (tc l) t2); [eauto|discriminate]. }
    rewrite E1. cbn [bind]. rewrite E2. cbn [bind]. eexists. split; [reflexivity|]. intros l I M. rewrite (F1 l I M), (F2 l I M). reflexivity.
  - cbn [okt ins slots refers tval] in *. destruct OK as (O1 & O2 & O3 & B & c & i & EC & EI & OO & LT & AC).
    apply (fold_and _ (fun t => match t with Some t => okt base t | None => True end)) in O3.
    destruct IHt1 as (fs & E1 & F1); [auto|intros; apply INS; apply in_app_iff; auto|intros; apply SL; auto; apply in_app_iff; auto|intros; eapply RET; eauto; right; apply in_app_iff; eauto| |].
    { intros l I M. destruct (V l I M) as [y EY]. destruct (tval opsem tcal (tc l) t1); [eauto|discriminate]. }
    destruct IHt2 as (fm & E2 & F2); [auto|intros; apply INS; rewrite !in_app_iff; auto|intros; apply SL; auto; rewrite !in_app_iff; auto|intros; eapply RET; eauto; right; rewrite !in_app_iff; eauto| |].
    { intros l I M. destruct (V l I M) as [y EY]. rewrite (F1 l I M) in EY. cbn [bind] in EY. destruct (tval opsem tcal (tc l) t2); [eauto|discriminate]. }
    destruct (agree_args tcal callj en tc args) as (fv & E3 & N3 & F3).
    { apply Forall_forall. intros [t|] IT; [|exact I]. cbn [opt_agree]. rewrite Forall_forall in H, O3. apply (H (Some t) IT); auto.
      - exact (O3 (Some t) IT).
      - intros k IK. apply INS. rewrite !in_app_iff. right. right. apply in_flat_map. exists (Some t). auto.
      - intros r s l IS. apply SL. rewrite !in_app_iff. right. right. apply in_flat_map. exists (Some t). auto.
      - intros j' o' c' IR. apply RET. right. rewrite !in_app_iff. right. right. apply in_flat_map. exists (Some t). auto.
      - intros l I M. destruct (V l I M) as [y EY]. rewrite (F1 l I M), (F2 l I M) in EY. cbn [bind] in EY.
        match type of EY with context [all (map ?g args)] => destruct (all (map g args)) as [r|] eqn:EA end; cbn [bind] in EY; [|discriminate].
        destruct (all_Some_in _ _ _ _ _ (Some t) EA IT) as [z EZ]. cbn beta iota in EZ. destruct (tval opsem tcal (tc l) t); [eauto|discriminate]. }
    rewrite E1. cbn [bind]. rewrite E2. cbn [bind]. rewrite E3. cbn [bind].
    destruct (CAL j o (fun l => negb (fm l =? 0) && negb (fs l =? 0) && v_mask en l) fs fv c i) as (f & EF & FF); auto.
    { eapply RET; [left; reflexivity|exact EC]. }
    { intros k KL KA. destruct (AC k KL KA) as [t ET]. eapply N3; eauto. }
    { intros l I M. apply andb_true_iff in M. destruct M as [M1 M2]. destruct (V l I M2) as [y EY]. rewrite (F1 l I M2), (F2 l I M2) in EY. cbn [bind] in EY.
      rewrite (F3 l I M2) in EY. cbn [bind] in EY. rewrite M1 in EY. eauto. }
    exists f. split; [exact EF|]. intros l I M. rewrite (F1 l I M), (F2 l I M). cbn [bind]. rewrite (F3 l I M). cbn [bind].
    destruct (FF l I) as [G1 G2]. cbn beta in G1, G2. rewrite M, andb_true_r in G1, G2.
    destruct (negb (fm l =? 0) && negb (fs l =? 0)); [apply G1; reflexivity|rewrite G2; reflexivity].
Qed.
End Vec.
