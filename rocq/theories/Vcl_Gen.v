(** Code generation: what is generated for a well-formed program. *)
From Verif Require Import Base Lay_Model Lay_Spec Lay_Proofs Lay_Scatter Lay_Inst Lay_Call Lay_Upload Lay_Read Vcl_Model Vcl_Spec.
Local Open Scope N_scope.

(** ** Induction *)
Section ExprInd.
Variable P : expr -> Prop.
Hypothesis HIn : forall k, P (EIn k).
Hypothesis HVar : forall c, P (EVar c).
Hypothesis HSelf : P ESelf.
Hypothesis HLit : forall x, P (ELit x).
Hypothesis HOp : forall o es, Forall P es -> P (EOp o es).
Hypothesis HMasked : forall x s m, P s -> P m -> P (EMasked x s m).
Hypothesis HCall : forall j o s m args, P s -> P m -> Forall (fun a => P (snd a)) args -> P (ECall j o s m args).
Fixpoint expr_ind' (e : expr) : P e :=
  match e with
  | EIn k => HIn k
  | EVar c => HVar c
  | ESelf => HSelf
  | ELit x => HLit x
  | EOp o es => HOp o es ((fix go l : Forall P l := match l with [] => Forall_nil _ | x :: l => Forall_cons _ (expr_ind' x) (go l) end) es)
  | EMasked x s m => HMasked x s m (expr_ind' s) (expr_ind' m)
  | ECall j o s m args => HCall j o s m args (expr_ind' s) (expr_ind' m)
      ((fix go l : Forall (fun a => P (snd a)) l := match l with [] => Forall_nil _ | x :: l => Forall_cons _ (expr_ind' (snd x)) (go l) end) args)
  end.
End ExprInd.
Section TextInd.
Variable P : text -> Prop.
Definition opt_P (t : option text) : Prop := match t with Some t => P t | None => True end.
Hypothesis HIn : forall k, P (TIn k).
Hypothesis HVar : forall c, P (TVar c).
Hypothesis HSlot : forall r s, P (TSlot r s).
Hypothesis HSelf : P TSelf.
Hypothesis HLit : forall x, P (TLit x).
Hypothesis HOp : forall o ts, Forall P ts -> P (TOp o ts).
Hypothesis HMasked : forall x s m, P s -> P m -> P (TMasked x s m).
Hypothesis HCall : forall j o s m args, P s -> P m -> Forall opt_P args -> P (TCall j o s m args).
Fixpoint text_ind' (t : text) : P t :=
  match t with
  | TIn k => HIn k
  | TVar c => HVar c
  | TSlot r s => HSlot r s
  | TSelf => HSelf
  | TLit x => HLit x
  | TOp o ts => HOp o ts ((fix go l : Forall P l := match l with [] => Forall_nil _ | x :: l => Forall_cons _ (text_ind' x) (go l) end) ts)
  | TMasked x s m => HMasked x s m (text_ind' s) (text_ind' m)
  | TCall j o s m args => HCall j o s m args (text_ind' s) (text_ind' m)
      ((fix go l : Forall opt_P l := match l with [] => Forall_nil _ | x :: l => Forall_cons _ (match x return opt_P x with Some t => text_ind' t | None => I end) (go l) end) args)
  end.
End TextInd.

(** ** Lists *)
Lemma all_inv : forall A (l : list (option A)) r, all l = Some r -> l = map Some r.
Proof.
  induction l as [|[x|] l IH]; cbn [all bind]; intros r H; try discriminate; [injection H as <-; reflexivity|].
  destruct (all l); cbn [bind] in H; [|discriminate]. injection H as <-. cbn [map]. f_equal. auto.
Qed.
Lemma all_map_Some : forall A (r : list A), all (map Some r) = Some r.
Proof. induction r; cbn [map all bind]; [reflexivity|]. rewrite IHr. reflexivity. Qed.
Lemma all_ex : forall A B (f : A -> option B) l, Forall (fun x => exists y, f x = Some y) l -> exists r, all (map f l) = Some r.
Proof.
  induction 1 as [|x l [y E] F [r IH]]; [exists []; reflexivity|]. exists (y :: r). cbn [map all]. rewrite E. cbn [bind]. rewrite IH. reflexivity.
Qed.
Lemma nth_error_mapi : forall A B (f : nat -> A -> B) l n, nth_error (mapi f l) n = option_map (f n) (nth_error l n).
Proof.
  intros A B f l n. unfold mapi.
  assert (G : forall l s n, nth_error (map (fun x => f (fst x) (snd x)) (combine (seq s (length l)) l)) n = option_map (f (s + n)%nat) (nth_error l n)).
  { clear. induction l as [|a l IH]; intros s n; [destruct n; reflexivity|]. cbn [length seq combine map]. destruct n; cbn [nth_error].
    - rewrite Nat.add_0_r. reflexivity.
    - rewrite IH. replace (S s + n)%nat with (s + S n)%nat by lia. reflexivity. }
  apply G.
Qed.
Lemma mapi_length : forall A B (f : nat -> A -> B) l, length (mapi f l) = length l.
Proof. intros. unfold mapi. rewrite map_length, combine_length, seq_length. lia. Qed.
Lemma all_length : forall A (l : list (option A)) r, all l = Some r -> length r = length l.
Proof. intros A l r H. apply all_inv in H. rewrite H, map_length. reflexivity. Qed.
Lemma all_nth : forall A (l : list (option A)) r n x, all l = Some r -> nth_error l n = Some x -> exists y, x = Some y /\ nth_error r n = Some y.
Proof.
  intros A l r n x H E. apply all_inv in H. subst l. rewrite nth_error_map in E. destruct (nth_error r n) as [y|] eqn:E2; [|discriminate]. injection E as <-. exists y. auto.
Qed.
Lemma fold_and : forall A (P : A -> Prop) l, fold_right (fun x Q => P x /\ Q) True l <-> Forall P l.
Proof.
  induction l; cbn [fold_right]; [split; auto|]. rewrite IHl. split; [intros [H1 H2]; constructor; auto|intros H; inversion H; auto].
Qed.

(** ** Registers *)
Lemma inst_regs_in : forall reg i h, In h (snd i) -> inst_regs reg i h = O.
Proof.
  intros reg [slots sched] h H. cbn [snd] in H. unfold inst_regs.
  replace (existsb (Nat.eqb h) sched) with true; [reflexivity|]. symmetry. apply existsb_exists. exists h. split; [exact H|apply Nat.eqb_refl].
Qed.
Lemma existsb_nat : forall h l, existsb (Nat.eqb h) l = true <-> In h l.
Proof.
  intros. rewrite existsb_exists. split; [intros (x & I & E); apply Nat.eqb_eq in E; subst; exact I|intros I; exists h; split; [exact I|apply Nat.eqb_refl]].
Qed.
Lemma fold_regs : forall l (reg : nat -> nat) h, ~ In h (map fst l) ->
  fold_left (fun (r : nat -> nat) (hn : nat * nat) => fun h => if Nat.eqb h (fst hn) then snd hn else r h) l reg h = reg h.
Proof.
  induction l as [|[a b] l IH]; intros reg h H; cbn [fold_left]; [reflexivity|]. cbn [map fst In] in H.
  rewrite IH by tauto. cbn [fst snd]. destruct (Nat.eqb_spec h a); [subst; tauto|reflexivity].
Qed.
Lemma in_combine_fst : forall A B (l : list A) (m : list B) h, In h (map fst (combine l m)) -> In h l.
Proof. intros A B l m h H. apply in_map_iff in H. destruct H as ([a b] & <- & I). apply in_combine_l in I. exact I. Qed.
Lemma inst_regs_out : forall reg i h, ~ In h (snd i) -> inst_regs reg i h = if existsb (Nat.eqb h) (fst i) then O else reg h.
Proof.
  intros reg [slots sched] h H. cbn [fst snd] in *. unfold inst_regs.
  destruct (existsb (Nat.eqb h) sched) eqn:E; [apply existsb_nat in E; contradiction|].
  rewrite fold_regs by (intros X; apply in_combine_fst in X; contradiction). reflexivity.
Qed.
Lemma call_regs_zero : forall is (reg : nat -> nat) h, reg h = O -> fold_left inst_regs is reg h = O.
Proof.
  induction is as [|i is IH]; intros reg h H; cbn [fold_left]; [exact H|]. apply IH.
  destruct (in_dec Nat.eq_dec h (snd i)); [apply inst_regs_in; auto|]. rewrite inst_regs_out by auto. destruct (existsb _ _); auto.
Qed.
(** The register of an argument is lost exactly if the callees use the variable *)
Lemma lost_iff : forall c h, lost c h = true <-> exists i, In i (k_vars c) /\ (In h (fst i) \/ In h (snd i)).
Proof.
  intros c h. unfold lost, call_regs. rewrite Nat.eqb_eq.
  assert (G : forall is reg, reg h <> O -> (fold_left inst_regs is reg h = O <-> exists i, In i is /\ (In h (fst i) \/ In h (snd i)))).
  { clear. induction is as [|i is IH]; intros reg R; cbn [fold_left]; [split; [contradiction|intros (i & [] & _)]|].
    destruct (in_dec Nat.eq_dec h (snd i)) as [I2|I2].
    - split; [intros _; exists i; split; [left; auto|auto]|]. intros _. apply call_regs_zero. apply inst_regs_in; auto.
    - destruct (existsb (Nat.eqb h) (fst i)) eqn:E.
      + split; [intros _; exists i; split; [left; auto|left; apply existsb_nat; auto]|]. intros _. apply call_regs_zero. rewrite inst_regs_out by auto. rewrite E. reflexivity.
      + rewrite IH by (rewrite inst_regs_out by auto; rewrite E; exact R).
        split; [intros (x & I & J); exists x; split; [right; auto|auto]|].
        intros (x & [<-|I] & J); [|exists x; auto]. exfalso. destruct J as [J|J]; [apply existsb_nat in J; congruence|contradiction]. }
  apply G. discriminate.
Qed.

(** ** Captured variables *)
Lemma once_in : forall l seen x, In x (once seen l) <-> In x l /\ ~ In x seen.
Proof.
  induction l as [|a l IH]; intros seen x; cbn [once]; [cbn; tauto|].
  destruct (existsb (N.eqb a) seen) eqn:E.
  - apply existsb_exists in E. destruct E as (y & Y & E). apply N.eqb_eq in E. subst y. rewrite IH. cbn [In]. split; [tauto|]. intros [[->|I] S]; [contradiction|auto].
  - assert (NI : ~ In a seen). { intros I. assert (existsb (N.eqb a) seen = true) by (apply existsb_exists; exists a; split; [auto|apply N.eqb_refl]). congruence. }
    cbn [In]. rewrite IH. cbn [In]. destruct (N.eq_dec a x) as [->|NE]; [tauto|]. tauto.
Qed.

Section Gen.
Variable llvm : bool.
Variables (alignment cap : N).
Variable bk : N -> N.
Variable data : N -> list N.
Variable cs : list vcall.
Hypothesis BK : backend_ok llvm alignment cap.
Hypothesis DATA : forall v, bk v < 8 /\ N.of_nat (length (data v)) = bsize (bk v).
Hypothesis COST : Forall (fun c => cost (caps_of bk c) + 128 < 2 ^ 32) cs.

Lemma caps_buckets : forall c, Forall buckets_ok (caps_of bk c).
Proof.
  intros c. apply Forall_forall. intros ss I. unfold caps_of in I. apply in_map_iff in I. destruct I as (os & <- & _).
  apply Forall_forall. intros [v b] I. apply in_map_iff in I. destruct I as (x & E & _). injection E as <- <-. apply DATA.
Qed.
Definition lay_of (c : vcall) : Lay_Model.call := layout_call llvm alignment cap (caps_of bk c) (k_ids c).
Definition var_of (c : vcall) (i : nat) (v : N) : option text := let? s := slot_of (lay_of c) i v in Some (TSlot (fst s) (snd s)).

Lemma slot_of_ok : forall c i v r sz, In c cs -> slot_of (lay_of c) i v = Some (r, sz) ->
  exists l n o, nth_error (c_layouts (lay_of c)) i = Some l /\ l_start l <= N.of_nat n < l_start l + l_count l /\
    nth_error (c_slots (lay_of c)) n = Some (v, o, bk v) /\ r = o - l_offset l /\ sz = length (data v).
Proof.
  intros c i v r sz IC H. unfold slot_of in H. destruct (nth_error (c_layouts (lay_of c)) i) as [l|] eqn:EL; cbn [bind] in H; [|discriminate].
  destruct (find _ _) as [[[v' o] b]|] eqn:EF; cbn [bind] in H; [|discriminate]. cbn [fst snd] in H.
  apply find_some in EF. destruct EF as [IF EV]. cbn [fst] in EV. apply N.eqb_eq in EV. subst v'.
  pose proof COST as CO. rewrite Forall_forall in CO. specialize (CO c IC).
  destruct (layout_call_ok llvm alignment cap BK (caps_of bk c) (k_ids c) (caps_buckets c) CO) as (hi & IN & HI & DM).
  fold (lay_of c) in IN, HI, DM.
  apply In_nth_error in IF. destruct IF as [n EN].
  assert (NL : (n < N.to_nat (l_count l))%nat).
  { assert (n < length (firstn (N.to_nat (l_count l)) (skipn (N.to_nat (l_start l)) (c_slots (lay_of c)))))%nat by (apply nth_error_Some; rewrite EN; discriminate). rewrite firstn_length in H0. lia. }
  assert (EN2 : nth_error (c_slots (lay_of c)) (N.to_nat (l_start l) + n) = Some (v, o, b)).
  { etransitivity; [|exact EN]. clear - NL. generalize (c_slots (lay_of c)). intros s. revert s. generalize (N.to_nat (l_start l)) as a. induction a; intros s; cbn [skipn plus].
    - revert n s NL. generalize (N.to_nat (l_count l)) as m. induction m; intros n s NL; [lia|]. destruct s; [destruct n; reflexivity|]. destruct n; [reflexivity|]. cbn [nth_error firstn]. apply IHm. lia.
    - destruct s; [destruct (N.to_nat (l_count l)), n; reflexivity|]. cbn [nth_error]. apply IHa. }
  assert (B : b = bk v /\ True).
  { assert (I : In (v, b) (map forget (c_slots (lay_of c)))). { apply in_map_iff. exists (v, o, b). split; [reflexivity|]. eapply nth_error_In; eauto. }
    eapply Permutation_in in I; [|eapply instances_perm; eauto]. apply in_concat in I. destruct I as (ss & I1 & I2).
    unfold caps_of in I1. apply in_map_iff in I1. destruct I1 as (os & <- & _). apply in_map_iff in I2. destruct I2 as (x & E & _). injection E as <- <-. auto. }
  destruct B as [-> _]. exists l, (N.to_nat (l_start l) + n)%nat, o. split; [reflexivity|]. split; [lia|]. split; [exact EN2|].
  injection H as <- <-. split; [reflexivity|]. destruct (DATA v) as [_ D]. rewrite <- D. apply Nat2N.id.
Qed.
Lemma slot_of_ex : forall c i os v, In c cs -> nth_error (k_outs c) i = Some os -> In v (flat_map evars os) ->
  exists s, slot_of (lay_of c) i v = Some s.
Proof.
  intros c i os v IC EO IV.
  pose proof COST as CO. rewrite Forall_forall in CO. specialize (CO c IC).
  destruct (layout_call_ok llvm alignment cap BK (caps_of bk c) (k_ids c) (caps_buckets c) CO) as (hi & IN & HI & DM).
  fold (lay_of c) in IN, HI, DM.
  assert (ES : nth_error (caps_of bk c) i = Some (map (fun v => (v, bk v)) (once [] (flat_map evars os)))) by (unfold caps_of; rewrite nth_error_map, EO; reflexivity).
  assert (LL : length (c_layouts (lay_of c)) = length (caps_of bk c)) by (eapply instances_length; eauto).
  destruct (nth_error (c_layouts (lay_of c)) i) as [l|] eqn:EL.
  2:{ apply nth_error_None in EL. assert (i < length (caps_of bk c))%nat by (apply nth_error_Some; rewrite ES; discriminate). lia. }
  destruct (instances_nth _ _ _ _ _ _ _ _ _ IN i _ l ES EL) as (pre & out & post & h & A & B & C & D & _).
  unfold slot_of. rewrite EL. cbn [bind].
  replace (firstn _ _) with out.
  2:{ rewrite A. replace (N.to_nat (l_start l)) with (length pre) by lia. rewrite skipn_app, skipn_all, Nat.sub_diag. cbn [app skipn].
      replace (N.to_nat (l_count l)) with (length out) by lia. rewrite firstn_app, firstn_all, Nat.sub_diag. cbn [firstn]. rewrite app_nil_r. reflexivity. }
  destruct (find _ out) as [s|] eqn:EF; cbn [bind]; [eauto|]. exfalso.
  assert (I : In (v, bk v) (map forget out)).
  { eapply Permutation_in; [apply Permutation_sym; exact D|]. apply in_map_iff. exists v. split; [reflexivity|]. apply once_in. split; [exact IV|intros []]. }
  apply in_map_iff in I. destruct I as ([[v' o] b] & E & I). injection E as -> ->. apply (find_none _ _ EF) in I. cbn [fst] in I. rewrite N.eqb_refl in I. discriminate.
Qed.

(** ** Expressions *)
Lemma pass_ex : forall i args k, Forall (fun a => i_act i k = i_act i k /\ exists t, snd a = Some t) args -> exists ts, pass i k args = Some ts.
Proof.
  intros i args. induction args as [|[h t] args IH]; intros k F; cbn [pass]; [eauto|]. inversion F; subst. destruct H1 as [_ [t' E]]. cbn [snd] in E. subst t.
  destruct (IH (S k)) as [r R].
  { apply Forall_forall. intros a I. rewrite Forall_forall in H2. destruct (H2 a I) as [_ X]. auto. }
  destruct (i_act i k); [destruct (i_lost i h)|]; cbn [bind]; rewrite R; cbn [bind]; eauto.
Qed.
Lemma gen_ex : forall infos base var nin e, (base + length infos = length cs)%nat -> wf cs base nin e ->
  (forall v, In v (evars e) -> exists t, var v = Some t) -> exists t, gen infos base var e = Some t.
Proof.
  intros infos base var nin e L. induction e using expr_ind'; cbn [gen evars wf]; intros W V; eauto.
  - apply V. left. reflexivity.
  - apply fold_and in W. destruct (all_ex _ _ (gen infos base var) es) as [ts E].
    { apply Forall_forall. intros e I. rewrite Forall_forall in H, W. apply H; auto. intros v IV. apply V. apply in_flat_map. exists e. auto. }
    rewrite E. cbn [bind]. eauto.
  - destruct W as [W1 W2]. destruct IHe1 as [s ->]; [auto|intros; apply V; apply in_app_iff; auto|].
    destruct IHe2 as [m' ->]; [auto|intros; apply V; apply in_app_iff; auto|]. cbn [bind]. eauto.
  - destruct W as (B & W1 & W2 & W3 & c & EC & _). apply (fold_and _ (fun a => wf cs base nin (snd a))) in W3.
    destruct (Nat.ltb_spec j base); [lia|].
    destruct (nth_error infos (j - base)) as [i|] eqn:EI.
    2:{ apply nth_error_None in EI. assert (j < length cs)%nat by (apply nth_error_Some; rewrite EC; discriminate). lia. }
    cbn [bind]. destruct IHe1 as [s ->]; [auto|intros; apply V; rewrite !in_app_iff; auto|].
    destruct IHe2 as [m' ->]; [auto|intros; apply V; rewrite !in_app_iff; auto|]. cbn [bind].
    destruct (pass_ex i (map (fun a => (fst a, gen infos base var (snd a))) args) O) as [ts ->]; [|cbn [bind]; eauto].
    apply Forall_forall. intros a I. apply in_map_iff in I. destruct I as (x & <- & I). split; [reflexivity|]. cbn [snd].
    rewrite Forall_forall in H, W3. apply H; auto. intros v IV. apply V. rewrite !in_app_iff. left. apply in_flat_map. exists x. auto.
Qed.

(** ** Calls *)
Record call_info (rest : list info) (j : nat) (c : vcall) (i : info) : Prop := {
  g_lay : i_lay i = lay_of c;
  g_lost : i_lost i = lost c;
  g_len : length (i_fns i) = length (k_outs c);
  g_fns : forall n os, nth_error (k_outs c) n = Some os -> exists f, nth_error (i_fns i) n = Some f /\ length f = length os /\
    forall o e, nth_error os o = Some e -> exists t, gen rest (S j) (var_of c n) e = Some t /\ nth_error f o = Some (if is_ret c o then Some t else None);
  g_act : forall f t k, In f (i_fns i) -> In (Some t) f -> In k (ins t) -> i_act i k = true
}.
Lemma gen_call_ok : forall rest j c i, gen_call llvm alignment cap bk rest j c = Some i -> call_info rest j c i.
Proof.
  intros rest j c i H. unfold gen_call in H. fold (caps_of bk c) in H. fold (lay_of c) in H.
  destruct (all _) as [full|] eqn:EA; cbn [bind] in H; [|discriminate]. injection H as <-.
  constructor; cbn [i_act i_lost i_fns i_lay]; auto.
  - rewrite map_length, (all_length _ _ _ EA), mapi_length. reflexivity.
  - intros n os EO.
    assert (EM : nth_error (mapi (fun n os => all (map (gen rest (S j) (fun v => let? s := slot_of (lay_of c) n v in Some (TSlot (fst s) (snd s)))) os)) (k_outs c)) n
                 = Some (all (map (gen rest (S j) (var_of c n)) os))) by (rewrite nth_error_mapi, EO; reflexivity).
    destruct (all_nth _ _ _ _ _ EA EM) as (ts & ET & EN).
    eexists. rewrite nth_error_map, EN. split; [reflexivity|]. split; [rewrite mapi_length, (all_length _ _ _ ET), map_length; reflexivity|].
    intros o e EE. assert (EG : nth_error (map (gen rest (S j) (var_of c n)) os) o = Some (gen rest (S j) (var_of c n) e)) by (rewrite nth_error_map, EE; reflexivity).
    destruct (all_nth _ _ _ _ _ ET EG) as (t & E1 & E2). exists t. split; [exact E1|]. rewrite nth_error_mapi, E2. reflexivity.
  - intros f t k IF IT IK.
    match goal with |- ?a && (_ || ?b) = true => assert (A : a = true); [|assert (B : b = true); [|rewrite A, B, orb_true_r; reflexivity]] end.
    + apply orb_true_iff. left. apply orb_true_iff. left. apply existsb_exists. exists f. split; [exact IF|]. apply existsb_exists. exists t. split; [apply in_flat_map; exists (Some t); split; [exact IT|left; reflexivity]|]. apply existsb_nat. exact IK.
    + apply orb_true_iff. left. apply in_map_iff in IF. destruct IF as (ts & <- & IF). apply existsb_exists. exists ts. split; [exact IF|].
      apply existsb_exists. exists t. split; [|apply existsb_nat; exact IK].
      apply In_nth_error in IT. destruct IT as [n IT]. rewrite nth_error_mapi in IT. destruct (nth_error ts n) as [t'|] eqn:ET; [|discriminate]. cbn [option_map] in IT.
      destruct (is_ret c n); [|discriminate]. injection IT as ->. eapply nth_error_In; eauto.
Qed.
Lemma gen_call_ex : forall rest j c, In c cs -> (S j + length rest = length cs)%nat -> Forall (Forall (wf cs (S j) (k_nin c))) (k_outs c) ->
  exists i, gen_call llvm alignment cap bk rest j c = Some i.
Proof.
  intros rest j c IC L W. unfold gen_call. fold (caps_of bk c). fold (lay_of c).
  match goal with |- context [all ?l] => assert (X : exists full, all l = Some full) end.
  { unfold mapi. apply all_ex. apply Forall_forall. intros [n os] I. cbn [fst snd].
    assert (EO : nth_error (k_outs c) n = Some os).
    { apply In_nth_error in I. destruct I as [q I]. revert I. clear. assert (G : forall l s q, nth_error (combine (seq s (length l)) l) q = Some (n, os) -> (s <= n)%nat /\ nth_error l (n - s) = Some os).
      { induction l as [|a l IH]; intros s p E; [destruct p; discriminate|]. cbn [length seq combine] in E. destruct p; cbn [nth_error] in E.
        - injection E as <- <-. rewrite Nat.sub_diag. auto.
        - apply IH in E. destruct E as [E1 E2]. split; [lia|]. replace (n - s)%nat with (S (n - S s)) by lia. exact E2. }
      intros I. apply G in I. rewrite Nat.sub_0_r in I. tauto. }
    apply all_ex. apply Forall_forall. intros e IE. eapply gen_ex; [exact L| |].
    - rewrite Forall_forall in W. specialize (W os (nth_error_In _ _ EO)). rewrite Forall_forall in W. exact (W e IE).
    - intros v IV. destruct (slot_of_ex c n os v IC EO) as [s E]; [apply in_flat_map; eauto|]. rewrite E. cbn [bind]. eauto. }
  destruct X as [full ->]. cbn [bind]. eauto.
Qed.
Lemma build_inv : forall l j is, build llvm alignment cap bk j l = Some is ->
  length is = length l /\ forall n c, nth_error l n = Some c -> exists i, nth_error is n = Some i /\ call_info (skipn (S n) is) (j + n) c i.
Proof.
  induction l as [|c l IH]; intros j is H; cbn [build] in H.
  - injection H as <-. split; [reflexivity|]. intros n c E. destruct n; discriminate.
  - destruct (build _ _ _ _ (S j) l) as [rest|] eqn:EB; cbn [bind] in H; [|discriminate].
    destruct (gen_call _ _ _ _ rest j c) as [i|] eqn:EG; cbn [bind] in H; [|discriminate]. injection H as <-.
    destruct (IH _ _ EB) as [L N0]. split; [cbn [length]; lia|]. intros n c' E. destruct n; cbn [nth_error skipn] in *.
    + injection E as <-. exists i. split; [reflexivity|]. rewrite Nat.add_0_r. apply gen_call_ok. exact EG.
    + destruct (N0 n c' E) as (i' & E1 & E2). exists i'. split; [exact E1|]. replace (j + S n)%nat with (S j + n)%nat by lia. exact E2.
Qed.
Lemma build_ex : calls_wf cs -> exists is, build llvm alignment cap bk 0 cs = Some is.
Proof.
  intros W. assert (G : forall l j, (forall n c, nth_error l n = Some c -> nth_error cs (j + n) = Some c) -> (j + length l = length cs)%nat -> exists is, build llvm alignment cap bk j l = Some is).
  { induction l as [|c l IH]; intros j N0 L; cbn [build]; [eauto|].
    destruct (IH (S j)) as [rest E]; [intros n c' E; replace (S j + n)%nat with (j + S n)%nat by lia; apply N0; exact E|cbn [length] in L; lia|].
    rewrite E. cbn [bind]. assert (EC : nth_error cs j = Some c) by (specialize (N0 O c eq_refl); rewrite Nat.add_0_r in N0; exact N0).
    destruct (gen_call_ex rest j c) as [i ->]; [eapply nth_error_In; eauto| |exact (proj2 (proj2 (proj2 (proj2 (W j c EC)))))|cbn [bind]; eauto].
    apply build_inv in E. destruct E as [E _]. cbn [length] in L. lia. }
  apply G; auto.
Qed.
End Gen.
