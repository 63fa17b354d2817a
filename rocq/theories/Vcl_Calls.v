(** Calls: the callee that is executed is the one selected. *)
From Verif Require Import Base Lay_Model Lay_Spec Vcl_Model Vcl_Spec Vcl_Gen Vcl_Lane Vcl_Vec.
Local Open Scope N_scope.

Lemma find_id_nth : forall s ids n, find_id s ids = Some n -> nth_error ids n = Some s.
Proof.
  induction ids as [|x r IH]; intros n H; cbn [find_id] in H; [discriminate|]. destruct (N.eqb_spec x s) as [->|E]; [injection H as <-; reflexivity|].
  destruct (find_id s r); cbn [option_map] in H; [|discriminate]. injection H as <-. cbn [nth_error]. auto.
Qed.

Lemma ins_wf : forall cs infos base var nin, (forall v t, var v = Some t -> ins t = []) -> forall e t, gen infos base var e = Some t -> wf cs base nin e -> forall k, In k (ins t) -> (k < nin)%nat.
Proof.
  intros cs infos base var nin VAR. induction e using expr_ind'; intros t G W q IK; cbn [gen] in G; cbn [wf] in W; try (injection G as <-; destruct IK; fail).
  - injection G as <-. destruct IK as [<-|[]]. exact W.
  - rewrite (VAR _ _ G) in IK. destruct IK.
  - apply fold_and in W. destruct (all (map (gen infos base var) es)) as [ts|] eqn:EG; cbn [bind] in G; [|discriminate]. injection G as <-. cbn [ins] in IK.
    apply in_flat_map in IK. destruct IK as (t & IT & IK). apply all_inv in EG.
    assert (X : In (Some t) (map (gen infos base var) es)) by (rewrite EG; apply in_map; exact IT).
    apply in_map_iff in X. destruct X as (e & E & IE). rewrite Forall_forall in H, W. eapply H; eauto.
  - destruct W as [W1 W2]. destruct (gen infos base var e1) as [s'|] eqn:E1; cbn [bind] in G; [|discriminate].
    destruct (gen infos base var e2) as [m'|] eqn:E2; cbn [bind] in G; [|discriminate]. injection G as <-. cbn [ins] in IK. apply in_app_iff in IK. destruct IK; eauto.
  - destruct W as (B & W1 & W2 & W3 & _). apply (fold_and _ (fun a => wf cs base nin (snd a))) in W3. destruct (Nat.ltb j base); [discriminate|].
    destruct (nth_error infos (j - base)) as [i|] eqn:EI; cbn [bind] in G; [|discriminate].
    destruct (gen infos base var e1) as [s'|] eqn:E1; cbn [bind] in G; [|discriminate].
    destruct (gen infos base var e2) as [m'|] eqn:E2; cbn [bind] in G; [|discriminate].
    destruct (pass i 0 _) as [ts|] eqn:EP; cbn [bind] in G; [|discriminate]. injection G as <-. cbn [ins] in IK. rewrite !in_app_iff in IK.
    destruct IK as [IK|[IK|IK]]; eauto. apply in_flat_map in IK. destruct IK as ([t|] & IT & IK); [|destruct IK].
    apply pass_inv in EP. destruct EP as [LT NT]. rewrite map_length in LT. apply In_nth_error in IT. destruct IT as [n EN].
    destruct (nth_error args n) as [a|] eqn:EA; [|apply nth_error_None in EA; assert (n < length ts)%nat by (apply nth_error_Some; rewrite EN; discriminate); lia].
    specialize (NT n (fst a) (gen infos base var (snd a))). rewrite nth_error_map, EA in NT. specialize (NT eq_refl).
    destruct (_ && _); [|congruence]. destruct NT as (t' & T1 & T2). rewrite T2 in EN. injection EN as ->.
    rewrite Forall_forall in H, W3. eapply H; eauto; [eapply nth_error_In; eauto|apply W3; eapply nth_error_In; eauto].
Qed.

Section Calls.
Variable llvm : bool.
Variables (alignment cap : N).
Variable bk : N -> N.
Variable data : N -> list N.
Variable opsem : N -> list N -> N.
Variable cs : list vcall.
Variable is : list info.
Variable m : N -> N.
Variable ob : nat -> N.
Hypothesis BK : backend_ok llvm alignment cap.
Hypothesis DATA : forall v, bk v < 8 /\ N.of_nat (length (data v)) = bsize (bk v).
Hypothesis COST : Forall (fun c => cost (caps_of bk c) + 128 < 2 ^ 32) cs.
Hypothesis BUILD : build llvm alignment cap bk 0 cs = Some is.
Hypothesis WF : calls_wf cs.
Hypothesis RET : forall i f t, In i is -> In f (i_fns i) -> In (Some t) f ->
  forall j o c, In (j, o) (refers t) -> nth_error cs j = Some c -> is_ret c o = true.
Hypothesis SLOT : forall j c n id v r sz, nth_error cs j = Some c -> nth_error (k_ids c) n = Some id ->
  slot_of (lay_of llvm alignment cap bk c) n v = Some (r, sz) -> value m (value m (ob j + 8 * id + 4) 4 + r) sz = number (data v).

Definition lane_ctx (j : nat) (s : N) (vs : list (option N)) : tctx :=
  {| t_in := fun k => match nth_error vs k with Some v => v | None => None end; t_self := s; t_var := fun _ => 0;
     t_slot := fun r sz => value m (value m (ob j + 8 * s + 4) 4 + r) sz |}.
Fixpoint tcall (fuel : nat) (j o : nat) (s : N) (vs : list (option N)) : option N :=
  match fuel with
  | O => None
  | S fuel =>
      let? c := nth_error cs j in
      let? i := nth_error is j in
      let? n := find_id s (k_ids c) in
      let? f := nth_error (i_fns i) n in
      let? t := (let? t := nth_error f o in t) in
      tval opsem (tcall fuel) (lane_ctx j s vs) t
  end.
Lemma info_of : forall j c i, nth_error cs j = Some c -> nth_error is j = Some i -> call_info llvm alignment cap bk (skipn (S j) is) j c i.
Proof. intros j c i EC EI. destruct (build_inv llvm alignment cap bk data DATA cs 0 is BUILD) as [_ H]. destruct (H j c EC) as (i' & E & G). rewrite E in EI. injection EI as <-. exact G. Qed.
Lemma lost_of : forall j c i, nth_error cs j = Some c -> nth_error is j = Some i -> i_lost i = lost c.
Proof. intros. eapply g_lost. eapply info_of; eauto. Qed.
Lemma nth_error_skip : forall A n (l : list A) k, nth_error (skipn n l) k = nth_error l (n + k).
Proof. induction n; intros [|a l] k; cbn [skipn plus nth_error]; auto. destruct k; reflexivity. Qed.
Lemma infos_of : forall j j' i, (S j <= j')%nat -> nth_error (skipn (S j) is) (j' - S j) = Some i -> nth_error is j' = Some i.
Proof. intros j j' i L E. rewrite nth_error_skip in E. replace (S j + (j' - S j))%nat with j' in E by lia. exact E. Qed.
(** The text of an output of instance [n] *)
Lemma text_of : forall j c i n f o, nth_error cs j = Some c -> nth_error is j = Some i -> nth_error (i_fns i) n = Some f -> is_ret c o = true ->
  Forall (fun os => (o < length os)%nat) (k_outs c) ->
  exists os e t, nth_error (k_outs c) n = Some os /\ nth_error os o = Some e /\ wf cs (S j) (k_nin c) e /\
    gen (skipn (S j) is) (S j) (var_of llvm alignment cap bk c n) e = Some t /\ nth_error f o = Some (Some t) /\
    (forall k, In k (ins t) -> i_act i k = true).
Proof.
  intros j c i n f o EC EI EF R OO. pose proof (info_of j c i EC EI) as G.
  destruct (nth_error (k_outs c) n) as [os|] eqn:EO.
  2:{ apply nth_error_None in EO. assert (n < length (i_fns i))%nat by (apply nth_error_Some; rewrite EF; discriminate). rewrite (g_len _ _ _ _ _ _ _ _ G) in H. lia. }
  destruct (g_fns _ _ _ _ _ _ _ _ G n os EO) as (f' & EF' & LF & FT). rewrite EF in EF'. injection EF' as <-.
  rewrite Forall_forall in OO. pose proof (OO os (nth_error_In _ _ EO)) as L.
  destruct (nth_error os o) as [e|] eqn:EE; [|apply nth_error_None in EE; lia].
  destruct (FT o e EE) as (t & ET & NT). rewrite R in NT. exists os, e, t. do 2 (split; [auto|]).
  split. { destruct (WF j c EC) as (_ & _ & _ & _ & W). rewrite Forall_forall in W. specialize (W os (nth_error_In _ _ EO)). rewrite Forall_forall in W. apply W. eapply nth_error_In; eauto. }
  do 2 (split; [auto|]). intros k IK. eapply (g_act _ _ _ _ _ _ _ _ G); [eapply nth_error_In; exact EF|eapply nth_error_In; exact NT|exact IK].
Qed.
Lemma var_of_slot : forall c n v t, var_of llvm alignment cap bk c n v = Some t -> exists r sz, slot_of (lay_of llvm alignment cap bk c) n v = Some (r, sz) /\ t = TSlot r sz.
Proof. intros c n v t H. unfold var_of in H. destruct (slot_of _ n v) as [[r sz]|]; cbn [bind] in H; [|discriminate]. injection H as <-. exists r, sz. auto. Qed.

Lemma tcall_ok : forall fuel, callee_ok cs is 0 (callee opsem cs (fun v => number (data v)) fuel) (tcall fuel).
Proof.
  induction fuel as [|fuel IH]; intros j o s vs vs' c i y _ EC EI R LV ACT H; cbn [callee] in H; [discriminate|].
  rewrite EC in H. cbn [bind] in H. cbn [tcall]. rewrite EC, EI. cbn [bind].
  destruct (find_id s (k_ids c)) as [n|] eqn:EN; cbn [bind] in H; [|discriminate]. cbn [bind].
  destruct (nth_error (k_outs c) n) as [os|] eqn:EO; cbn [bind] in H; [|discriminate].
  destruct (nth_error os o) as [e|] eqn:EE; cbn [bind] in H; [|discriminate].
  pose proof (info_of j c i EC EI) as G. destruct (g_fns _ _ _ _ _ _ _ _ G n os EO) as (f & EF & LF & FT).
  rewrite EF. cbn [bind]. destruct (FT o e EE) as (t & ET & NT). rewrite R in NT. rewrite NT. cbn [bind].
  assert (W : wf cs (S j) (k_nin c) e).
  { destruct (WF j c EC) as (_ & _ & _ & _ & W). rewrite Forall_forall in W. specialize (W os (nth_error_In _ _ EO)). rewrite Forall_forall in W. apply W. eapply nth_error_In; eauto. }
  eapply (tval_ok opsem cs is lost_of (callee opsem cs (fun v => number (data v)) fuel) (tcall fuel) (skipn (S j) is) (S j) (var_of llvm alignment cap bk c n) (k_nin c)); [| | | |exact ET|exact W| | |exact H].
  - intros j' o' s' ws ws' c' i' y' B. apply IH. lia.
  - intros j' i'. apply infos_of.
  - intros v t' V. apply var_of_slot in V. destruct V as (r & sz & ES & ->). cbn [tval lane_ctx t_slot a_var]. f_equal. eapply SLOT; eauto. apply find_id_nth. exact EN.
  - reflexivity.
  - intros k IK. cbn [lane_ctx t_in a_in]. rewrite ACT; [reflexivity| |].
    + eapply ins_wf; [|exact ET|exact W|exact IK]. intros v t' V. apply var_of_slot in V. destruct V as (r & sz & _ & ->). reflexivity.
    + eapply (g_act _ _ _ _ _ _ _ _ G); [eapply nth_error_In; exact EF|eapply nth_error_In; exact NT|exact IK].
  - eapply RET; [eapply nth_error_In; exact EI|eapply nth_error_In; exact EF|eapply nth_error_In; exact NT].
Qed.

Variable x : kernel.
Variable lanes : list nat.
Hypothesis MEM : x_mem x = m.
Hypothesis LANES : llvm = false -> exists l, lanes = [l].
Hypothesis TAB : forall j c i, nth_error cs j = Some c -> nth_error is j = Some i ->
  exists keys has, nth_error (x_calls x) j = Some (single c, keys, ob j) /\ nth_error (x_has x) j = Some has /\
    (c_slots (i_lay i) <> [] -> has = true) /\
    if single c then exists key f, nth_error keys 0 = Some key /\ nth_error (i_fns i) 0 = Some f /\ defined (x_globals x) true key = Some f
    else forall n id f, nth_error (k_ids c) n = Some id -> nth_error (i_fns i) n = Some f ->
      callable llvm (x_globals x) (value m (ob j + 8 * id) 4) = Some f /\ (llvm = true -> value m (ob j + 8 * id) 4 <> 0).

Lemma docall_ok : forall F fuel, call_ok cs is lanes (length cs - F) (tcall fuel) (docall llvm opsem lanes F x).
Proof.
  induction F as [|F IH]; intros fuel j o mask self vs c i B EC EI R OO ARGS V.
  { assert (j < length cs)%nat by (apply nth_error_Some; rewrite EC; discriminate). lia. }
  destruct (TAB j c i EC EI) as (keys & has & EX & EH & HAS & T).
  set (off := fun l : nat => if mask l && has then value m ((if mask l then ob j + 8 * self l else 0) + 4) 4 else 0).
  set (run := fun (f : fn) (active : nat -> bool) => let? t := (let? t := nth_error f o in t) in
        tev opsem m (docall llvm opsem lanes F x)
            {| v_in := fun k => match nth_error vs k with Some v => v | None => None end; v_var := fun _ _ => 0; v_self := self; v_off := off; v_mask := active |} t).
  set (idx := fun l : nat => if mask l then value m (if mask l then ob j + 8 * self l else 0) 4 else 0).
  assert (EQ : docall llvm opsem lanes (S F) x j o mask self vs =
    if single c then
      (let? key := nth_error keys 0 in let? f := defined (x_globals x) true key in
       if llvm then let? r := run f mask in Some (fun l => if mask l then r l else 0)
       else match lanes with [l] => if mask l then run f mask else Some (fun _ => 0) | _ => None end)
    else if llvm then dispatch lanes (length lanes) (fun i0 active => let? f := callable llvm (x_globals x) i0 in run f active) idx (fun _ => 0)
    else match lanes with [l] => if mask l then (let? f := callable llvm (x_globals x) (idx l) in run f mask) else Some (fun _ => 0) | _ => None end).
  { cbn [docall]. rewrite EX, EH. cbn [bind]. rewrite MEM. reflexivity. }
  rewrite EQ. clear EQ.
  pose proof (info_of j c i EC EI) as G.
  (* the body of a callee *)
  assert (RUN : forall n f active, nth_error (i_fns i) n = Some f ->
            (forall l, In l lanes -> active l = true -> mask l = true /\ exists n', find_id (self l) (k_ids c) = Some n' /\ nth_error (i_fns i) n' = Some f) ->
            exists r, run f active = Some r /\ forall l, In l lanes -> active l = true -> tcall fuel j o (self l) (lane_args vs l) = Some (r l)).
  { intros n f active EF AC. destruct (text_of j c i n f o EC EI EF R OO) as (os & e & t & EO & EE & W & ET & NT & IA).
    unfold run. rewrite NT. cbn [bind].
    assert (AG : agree opsem m lanes (tcall (pred fuel)) (docall llvm opsem lanes F x)
        {| v_in := fun k => match nth_error vs k with Some v => v | None => None end; v_var := fun _ _ => 0; v_self := self; v_off := off; v_mask := active |}
        (fun l => lane_ctx j (self l) (lane_args vs l)) t).
    { apply (tev_ok opsem cs is m lanes (tcall (pred fuel)) (docall llvm opsem lanes F x) (S j)); cbn [v_in v_var v_self v_off v_mask].
      - intros j' o' mask' self' vs' c' i' B'. apply IH. lia.
      - intros l I A. split; [intros v|]; reflexivity.
      - eapply (okt_gen cs is (skipn (S j) is)); [apply lost_of|apply infos_of| |exact ET|exact W].
        intros v t' VV. apply var_of_slot in VV. destruct VV as (r & sz & _ & ->). exact I.
      - intros k IK. assert (KN : (k < k_nin c)%nat).
        { eapply ins_wf; [|exact ET|exact W|exact IK]. intros v t' VV. apply var_of_slot in VV. destruct VV as (r & sz & _ & ->). reflexivity. }
        destruct (ARGS k KN (IA k IK)) as [v EV]. rewrite EV. exists v. split; [reflexivity|]. intros l I A. cbn [lane_ctx t_in]. unfold lane_args. rewrite nth_error_map, EV. reflexivity.
      - intros r s l IS I A. destruct (AC l I A) as [M _]. unfold off. rewrite M.
        assert (H1 : has = true).
        { apply HAS. rewrite (g_lay _ _ _ _ _ _ _ _ G).
          destruct (slots_gen (skipn (S j) is) (S j) (var_of llvm alignment cap bk c n)) with (e := e) (t := t) as (v & _ & t' & VV); auto.
          - intros v t' VV. apply var_of_slot in VV. destruct VV as (r' & sz & _ & ->). eauto.
          - intros Z. rewrite Z in IS. destruct IS.
          - apply var_of_slot in VV. destruct VV as (r' & sz & ES & _).
            destruct (slot_of_ok llvm alignment cap bk data cs BK DATA COST c n v r' sz (nth_error_In _ _ EC) ES) as (l0 & q & o0 & _ & _ & EQ & _).
            intros Z. rewrite Z in EQ. destruct q; discriminate. }
        rewrite H1. cbn [andb]. reflexivity.
      - eapply RET; [eapply nth_error_In; exact EI|eapply nth_error_In; exact EF|eapply nth_error_In; exact NT].
      - intros l I A. destruct (AC l I A) as (M & n' & EN & EF'). destruct (V l I M) as [y EY]. destruct fuel as [|fu]; [discriminate|].
        cbn [tcall pred] in EY |- *. rewrite EC, EI in EY. cbn [bind] in EY. rewrite EN in EY. cbn [bind] in EY. rewrite EF' in EY. cbn [bind] in EY. rewrite NT in EY. cbn [bind] in EY. eauto. }
    destruct AG as (r & ER & FR). exists r. split; [exact ER|]. intros l I A. specialize (FR l I A).
    destruct (AC l I A) as (M & n' & EN & EF'). destruct (V l I M) as [y EY]. destruct fuel as [|fu]; [discriminate|].
    cbn [tcall pred] in FR |- *. rewrite EC, EI. cbn [bind]. rewrite EN. cbn [bind]. rewrite EF'. cbn [bind]. rewrite NT. cbn [bind]. exact FR. }
  assert (SEL : forall l, In l lanes -> mask l = true -> exists n f, find_id (self l) (k_ids c) = Some n /\ nth_error (k_ids c) n = Some (self l) /\ nth_error (i_fns i) n = Some f).
  { intros l I M. destruct (V l I M) as [y EY]. destruct fuel as [|fu]; [discriminate|]. cbn [tcall] in EY. rewrite EC, EI in EY. cbn [bind] in EY.
    destruct (find_id (self l) (k_ids c)) as [n|] eqn:EN; cbn [bind] in EY; [|discriminate]. destruct (nth_error (i_fns i) n) as [f|] eqn:EF; cbn [bind] in EY; [|discriminate].
    exists n, f. split; [reflexivity|]. split; [apply find_id_nth; exact EN|exact EF]. }
  destruct (single c) eqn:ESI.
  - destruct T as (key & f & EK & EF & ED). rewrite EK. cbn [bind]. rewrite ED. cbn [bind].
    assert (ONE : forall l, In l lanes -> mask l = true -> mask l = true /\ exists n', find_id (self l) (k_ids c) = Some n' /\ nth_error (i_fns i) n' = Some f).
    { intros l I M. split; [exact M|]. destruct (SEL l I M) as (n & f' & S1 & S2 & S3). exists n. split; [exact S1|].
      unfold single, n_inst in ESI. apply Nat.eqb_eq in ESI. assert (n < length (k_ids c))%nat by (apply nth_error_Some; rewrite S2; discriminate). replace n with O by lia. exact EF. }
    destruct (RUN O f mask EF ONE) as (r & ER & FR). destruct llvm.
    + rewrite ER. cbn [bind]. eexists. split; [reflexivity|]. intros l I. cbn beta. split; [intros M; rewrite M; apply FR; auto|intros M; rewrite M; reflexivity].
    + destruct (LANES eq_refl) as [l0 EL]. rewrite EL in *. destruct (mask l0) eqn:M0.
      * exists r. split; [exact ER|]. intros l [<-|[]]. split; [intros _; apply FR; [left; reflexivity|exact M0]|congruence].
      * eexists. split; [reflexivity|]. intros l [<-|[]]. split; [congruence|reflexivity].
  - assert (IDX : forall l, In l lanes -> mask l = true -> exists n f, find_id (self l) (k_ids c) = Some n /\ nth_error (i_fns i) n = Some f /\
              callable llvm (x_globals x) (idx l) = Some f /\ (llvm = true -> idx l <> 0)).
    { intros l I M. destruct (SEL l I M) as (n & f & S1 & S2 & S3). exists n, f. unfold idx. rewrite M. destruct (T n (self l) f S2 S3). auto. }
    destruct llvm eqn:EL.
    + destruct (dispatch_ok lanes (fun i0 active => let? f := callable true (x_globals x) i0 in run f active) idx (fun l y => tcall fuel j o (self l) (lane_args vs l) = Some y)) with (fuel := length lanes) (idx := idx) (acc := fun _ : nat => 0) as (f & EF & FF).
      * intros next active NZ (l0 & I0 & E0) AC.
        assert (M0 : mask l0 = true). { unfold idx in E0. destruct (mask l0); [reflexivity|congruence]. }
        destruct (IDX l0 I0 M0) as (n & f & F1 & F2 & F3 & _). rewrite E0 in F3. rewrite F3. cbn [bind].
        destruct (RUN n f active F2) as (r & ER & FR); [|exists r; auto].
        intros l I A. pose proof (AC l I A) as EI2. assert (M : mask l = true). { unfold idx in EI2. destruct (mask l); [reflexivity|congruence]. }
        split; [exact M|]. destruct (IDX l I M) as (n' & f' & G1 & G2 & G3 & _). rewrite EI2, F3 in G3. injection G3 as <-. eauto.
      * apply busy_le.
      * auto.
      * exists f. split; [exact EF|]. intros l I. destruct (FF l I) as [F1 F2]. split.
        -- intros M. apply F1. destruct (IDX l I M) as (_ & _ & _ & _ & _ & NZ). auto.
        -- intros M. apply F2. unfold idx. rewrite M. reflexivity.
    + destruct (LANES eq_refl) as [l0 EL0]. rewrite EL0 in *. destruct (mask l0) eqn:M0.
      * destruct (IDX l0 (or_introl eq_refl) M0) as (n & f & F1 & F2 & F3 & _). 
        destruct (RUN n f mask F2) as (r & ER & FR).
        { intros l [<-|[]] _. eauto. }
        rewrite F3. cbn [bind]. exists r. split; [exact ER|]. intros l [<-|[]]. split; [intros _; apply FR; [left; reflexivity|exact M0]|congruence].
      * eexists. split; [reflexivity|]. intros l [<-|[]]. split; [congruence|reflexivity].
Qed.
End Calls.
