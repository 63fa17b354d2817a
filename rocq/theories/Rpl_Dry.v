(** Frozen functions: dry run, and what cannot be recorded. *)
From Verif Require Import Base Rpl_Model Rpl_Spec Rpl_Rec Rpl_Sim.
Local Open Scope N_scope.

(** ** Dry run *)
Lemma plan_dry o bs k outs : plan_of true o bs = Go k outs -> plan_of false o bs = Go k outs /\ (forall n, k <> KCompress n).
Proof.
  unfold plan_of. destruct (o_kind o); destruct (o_args o) as [|a0 [|a1 [|a2 [|a3 l]]]]; try discriminate; destruct bs as [|b0 [|b1 [|b2 bs]]]; try discriminate;
    repeat match goal with |- context [match ?x with _ => _ end] => destruct x eqn:?; try discriminate | |- context [if ?x then _ else _] => destruct x eqn:?; try discriminate end;
    cbn [andb] in *; try discriminate; intros E; (split; [try exact E|]); injection E as <- <-; intros; try discriminate; reflexivity.
Qed.
Lemma count_flags (l : list oarg) : length (filter o_out l) = length (filter (fun b : bool => b) (map o_out l)).
Proof. induction l as [|a l IH]; cbn [filter map]; [reflexivity|]. destruct (o_out a); cbn [length]; lia. Qed.
Lemma plan_len d o bs k outs : shape (o_kind o) (map o_out (o_args o)) -> plan_of d o bs = Go k outs -> length outs = length (filter o_out (o_args o)).
Proof.
  intros SH. unfold plan_of. destruct (o_kind o) eqn:EK; cbn [shape] in SH.
  1: { destruct (Frz_Model.infer _ _ _ _); [|discriminate]. intros E. injection E as <- <-. unfold launch_outs. now rewrite map_length. }
  all: rewrite count_flags; try rewrite SH; cbn [filter length]; try (destruct SH as (vs & SH & FV)).
  all: repeat match goal with |- context [match ?x with _ => _ end] => destruct x eqn:?; try discriminate end; intros E; injection E as <- <-; try reflexivity.
  all: try discriminate SH.
  all: rewrite SH; cbn [filter length]; f_equal; clear -FV; induction FV as [|b vs H FV IH]; cbn [filter]; [reflexivity|]; rewrite H; exact IH.
Qed.

Section Dry.
Context {C : Type} (blank : C) (dev : kind -> list C -> list C) (count : kind -> list C -> N).
Notation st := (st (C := C)).

Definition same_sizes (a b : st) : Prop := length (t_slots a) = length (t_slots b) /\ forall j, s_size (get a j) = s_size (get b j).
Definition filled (w : list nat) (t : st) : Prop := forall j, In j w -> s_data (get t j) <> None.

Lemma get_at (l : list (slot (C := C))) i x nx fr j : get {| t_slots := set_nth i x l; t_next := nx; t_freed := fr |} j = if (j =? i)%nat && (i <? length l)%nat then x else nth j l slot0.
Proof.
  unfold get. cbn [t_slots]. destruct (Nat.eqb_spec j i) as [->|NE]; cbn [andb]; [|now rewrite nth_set_nth_neq by auto].
  destruct (Nat.ltb_spec i (length l)) as [L|L]; [now rewrite nth_set_nth_eq|]. now rewrite set_nth_oob by lia.
Qed.
Lemma alloc_facts d (t : st) i n : let t' := alloc blank d t i n in length (t_slots t') = length (t_slots t) /\
  (forall j, s_size (get t' j) = if (j =? i)%nat && (i <? length (t_slots t))%nat then n else s_size (get t j)) /\
  (d = false -> (forall j, s_data (get t j) <> None -> s_data (get t' j) <> None) /\ ((i < length (t_slots t))%nat -> s_data (get t' i) <> None)).
Proof.
  unfold alloc.
  assert (G : forall x nx fr j, get {| t_slots := set_nth i x (t_slots t); t_next := nx; t_freed := fr |} j = if (j =? i)%nat && (i <? length (t_slots t))%nat then x else get t j) by (intros; apply get_at).
  destruct (s_data (get t i)) as [[b c]|] eqn:D; [destruct (s_alloc (get t i) <? n)|]; destruct d; unfold put; cbn zeta; cbn [t_slots]; rewrite set_nth_length; (split; [reflexivity|]);
    (split; [intros j; rewrite G; destruct ((j =? i)%nat && (i <? length (t_slots t))%nat); reflexivity|]); try (discriminate 1); intros _;
    (split; [intros j HJ; rewrite G; destruct ((j =? i)%nat && (i <? length (t_slots t))%nat); cbn [s_data]; congruence|]);
    intros L; rewrite G, Nat.eqb_refl, (proj2 (Nat.ltb_lt i _) L); cbn [andb s_data]; congruence.
Qed.
Lemma alloc_all_facts : forall l ds (a b : st) w, same_sizes a b -> filled w b -> length ds = length l -> Forall (fun o => (o_slot o < length (t_slots b))%nat) l ->
  same_sizes (alloc_all blank true a l ds) (alloc_all blank false b l ds) /\ filled (map o_slot l ++ w) (alloc_all blank false b l ds) /\ length (t_slots (alloc_all blank false b l ds)) = length (t_slots b).
Proof.
  induction l as [|o l IH]; intros ds a b w S F L B; destruct ds as [|d ds]; cbn [length] in L; try lia; cbn [alloc_all map app]; [auto|].
  apply Forall_cons_iff in B as [Bo B]. destruct S as [S1 S2].
  destruct (alloc_facts true a (o_slot o) d) as (A1 & A2 & _). destruct (alloc_facts false b (o_slot o) d) as (B1 & B2 & B3). destruct (B3 eq_refl) as [B4 B5].
  destruct (IH ds (alloc blank true a (o_slot o) d) (alloc blank false b (o_slot o) d) (o_slot o :: w)) as (X1 & X2 & X3).
  - split; [congruence|]. intros j. rewrite A2, B2, S1, S2. reflexivity.
  - intros j [<-|H]; [now apply B5|]. apply B4. now apply F.
  - lia.
  - now rewrite B1.
  - split; [exact X1|]. split; [|congruence]. intros j H. apply X2. cbn [In] in H. rewrite in_app_iff in *. cbn [In]. tauto.
Qed.
Lemma load_some : forall l (t : st), Forall (fun a => s_data (get t (o_slot a)) <> None) l -> exists cs, load blank t l = Some cs.
Proof.
  induction l as [|a l IH]; intros t F; cbn [load]; [eauto|]. apply Forall_cons_iff in F as [Fa F]. destruct (s_data (get t (o_slot a))) as [d|]; [|congruence]. cbn [bind]. destruct (IH t F) as [cs ->]. cbn [bind]. eauto.
Qed.
Lemma store_sizes : forall l cs (t : st), length (t_slots (store t l cs)) = length (t_slots t) /\ (forall j, s_size (get (store t l cs) j) = s_size (get t j)) /\ (forall j, s_data (get t j) <> None -> s_data (get (store t l cs) j) <> None).
Proof.
  induction l as [|a l IH]; intros cs t; destruct cs as [|c cs]; cbn [store]; auto. destruct (IH cs (store1 t (o_slot a) c)) as (X1 & X2 & X3). clear IH.
  assert (S : length (t_slots (store1 t (o_slot a) c)) = length (t_slots t) /\ (forall j, s_size (get (store1 t (o_slot a) c) j) = s_size (get t j)) /\ (forall j, s_data (get t j) <> None -> s_data (get (store1 t (o_slot a) c) j) <> None)).
  { unfold store1. destruct (s_data (get t (o_slot a))) as [[b c0]|] eqn:D; [|auto]. unfold put. cbn [t_slots]. rewrite set_nth_length. split; [reflexivity|].
    split; intros j; rewrite get_at; fold (get t j); destruct (Nat.eqb_spec j (o_slot a)) as [->|]; cbn [andb]; auto; destruct (o_slot a <? length (t_slots t))%nat; cbn [s_size s_data]; auto; congruence. }
  destruct S as (S1 & S2 & S3). split; [congruence|]. split; [intros j; now rewrite X2|]. auto.
Qed.

Lemma dry_ok n : forall ops w (a b a' : st), length (t_slots b) = n -> same_sizes a b -> filled w b -> defined n w ops -> replay_ops blank dev count true a ops = Ok a' ->
  exists b', replay_ops blank dev count false b ops = Ok b' /\ same_sizes a' b'.
Proof.
  induction ops as [|o ops IH]; intros w a b a' L S F D E; cbn [replay_ops defined] in *; [injection E as <-; eauto|].
  destruct D as [[SH D1] D2]. unfold replay_op in E at 1. unfold replay_op at 1.
  assert (EB : map (fun x => s_size (get a (o_slot x))) (o_args o) = map (fun x => s_size (get b (o_slot x))) (o_args o)) by (apply map_ext; intros x; apply S).
  rewrite EB in E. destruct (plan_of true o (map (fun x => s_size (get b (o_slot x))) (o_args o))) as [k outs| |] eqn:EP; try discriminate.
  destruct (plan_dry _ _ _ _ EP) as [EP' NC]. rewrite EP'. pose proof (plan_len _ _ _ _ _ SH EP) as LO.
  assert (FB : Forall (fun x => (o_slot x < length (t_slots b))%nat) (filter o_out (o_args o))).
  { apply Forall_forall. intros x Hx. apply filter_In in Hx as [Hx _]. rewrite Forall_forall in D1. rewrite L. apply (D1 x Hx). }
  destruct (alloc_all_facts (filter o_out (o_args o)) outs a b w S F LO FB) as (S1 & F1 & L1).
  set (a1 := alloc_all blank true a (filter o_out (o_args o)) outs) in *. set (b1 := alloc_all blank false b (filter o_out (o_args o)) outs) in *.
  destruct (load_some (o_args o) b1) as [cs EL].
  { apply Forall_forall. intros x Hx. apply F1. destruct (o_out x) eqn:EO; [apply in_or_app; left; apply in_map; apply filter_In; auto|]. rewrite Forall_forall in D1. now apply (D1 x Hx). }
  rewrite EL. assert (RZ : resize count (store b1 (o_args o) (dev k cs)) k (o_args o) cs = store b1 (o_args o) (dev k cs)).
  { unfold resize. destruct k; try reflexivity. exfalso. eapply NC. reflexivity. }
  rewrite RZ. destruct (store_sizes (o_args o) (dev k cs) b1) as (T1 & T2 & T3).
  apply (IH (map o_slot (filter o_out (o_args o)) ++ w) a1 _ a'); auto.
  - congruence.
  - destruct S1 as [S1a S1b]. split; [congruence|]. intros j. now rewrite T2.
  - intros j H. apply T3. now apply F1.
Qed.
End Dry.

(** ** What a recording reads was written *)
Definition wr (w : list nat) (ops : list rop) : list nat := fold_left (fun w o => map o_slot (filter o_out (o_args o)) ++ w) ops w.
Lemma defined_app n : forall ops w ops', defined n w (ops ++ ops') <-> defined n w ops /\ defined n (wr w ops) ops'.
Proof. induction ops as [|o ops IH]; intros w ops'; cbn [app defined wr fold_left]; [tauto|]. rewrite IH. fold (wr (map o_slot (filter o_out (o_args o)) ++ w) ops). tauto. Qed.
Lemma wr_app w ops o : wr w (ops ++ [o]) = map o_slot (filter o_out (o_args o)) ++ wr w ops.
Proof. unfold wr. now rewrite fold_left_app. Qed.
Lemma defined_le n m : (n <= m)%nat -> forall ops w, defined n w ops -> defined m w ops.
Proof.
  intros L. induction ops as [|o ops IH]; intros w D; cbn [defined] in *; [exact D|]. destruct D as [[D1 D2] D3]. split; [split; [exact D1|]|now apply IH]. eapply Forall_impl; [|exact D2]. cbn beta. intros a [A1 A2]. split; [lia|exact A2].
Qed.
Lemma find_in x i : forall m, find x m = Some i -> In (x, i) m.
Proof. induction m as [|[q j] m IH]; cbn [find In]; [discriminate|]. destruct (N.eqb_spec q x) as [->|]; [|auto]. intros E. injection E as ->. now left. Qed.
Lemma erase_in x p : forall m, In p (erase x m) -> In p m.
Proof. induction m as [|[q j] m IH]; cbn [erase In]; [auto|]. destruct (q =? x); cbn [In]; intuition. Qed.
Definition known_ok (s : rst) (w : list nat) : Prop := (forall x i, In (x, i) (r_map s) -> (i < length (r_vars s))%nat) /\ (forall i, (i < length (r_vars s))%nat -> v_un (get_var s i) = false -> In i w).
Lemma known_incl s w w' : incl w w' -> known_ok s w -> known_ok s w'.
Proof. intros H [K1 K2]. split; [exact K1|]. auto. Qed.
Lemma out_known s x vt w : known_ok s w -> let r := out_param s x vt in known_ok (fst r) (o_slot (snd r) :: w) /\ (length (r_vars s) <= length (r_vars (fst r)))%nat /\ (o_slot (snd r) < length (r_vars (fst r)))%nat /\ o_out (snd r) = true /\ r_ins (fst r) = r_ins s /\ r_ops (fst r) = r_ops s /\ r_map (fst (add_variable s x)) = r_map (fst r).
Proof.
  intros [K1 K2]. unfold out_param, add_variable. destruct (find x (r_map s)) as [i|] eqn:E; cbn zeta; cbn [fst snd o_slot o_out with_vars r_ins r_ops r_map r_vars].
  - pose proof (K1 _ _ (find_in _ _ _ E)) as B. rewrite set_nth_length. split; [|repeat split; auto]. split; [intros y j Ey; cbn [with_vars r_vars r_map]; rewrite set_nth_length; apply (K1 _ _ Ey)|].
    intros j Bj U. cbn [with_vars r_vars] in Bj. rewrite set_nth_length in Bj. cbn [In]. destruct (Nat.eq_dec i j) as [->|NE]; [now left|]. right. apply K2; [exact Bj|]. unfold get_var in *. cbn [with_vars r_vars] in U. rewrite nth_set_nth_neq in U by auto. exact U.
  - rewrite set_nth_length, app_length. cbn [length]. split; [|repeat split; auto; lia]. split.
    + intros y j Ey. cbn [with_vars r_vars r_map In] in *. rewrite set_nth_length, app_length. cbn [length]. destruct Ey as [Ey|Ey]; [injection Ey as <- <-; lia|]. pose proof (K1 _ _ Ey). lia.
    + intros j Bj U. cbn [with_vars r_vars] in Bj. rewrite set_nth_length, app_length in Bj. cbn [length] in Bj. cbn [In]. destruct (Nat.eq_dec (length (r_vars s)) j) as [->|NE]; [now left|]. right. apply K2; [lia|].
      unfold get_var in *. cbn [with_vars r_vars] in U. rewrite nth_set_nth_neq in U by auto. rewrite app_nth1 in U by lia. exact U.
Qed.
Lemma params_known : forall l s w r, known_ok s w -> params false s l = Some r ->
  known_ok (fst r) (map o_slot (filter o_out (snd r)) ++ w) /\ (length (r_vars s) <= length (r_vars (fst r)))%nat /\ map o_out (snd r) = map a_out l /\
  Forall (fun a => (o_slot a < length (r_vars (fst r)))%nat /\ (o_out a = false -> In (o_slot a) (map o_slot (filter o_out (snd r)) ++ w))) (snd r) /\ r_ins (fst r) = r_ins s /\ r_ops (fst r) = r_ops s.
Proof.
  induction l as [|a l IH]; intros s w r K E; cbn [params] in E.
  - injection E as <-. cbn [fst snd filter map app]. repeat split; auto; try apply K; constructor.
  - destruct (a_out a) eqn:EO.
    + destruct (out_known s (a_p a) (a_vt a) w K) as (K1 & L1 & B1 & O1 & I1 & P1 & _). set (q := out_param s (a_p a) (a_vt a)) in *. cbn [bind] in E.
      destruct (params false (fst q) l) as [rs|] eqn:ER; [|discriminate]. cbn [bind] in E. injection E as <-. cbn [fst snd].
      destruct (IH (fst q) _ rs K1 ER) as (X1 & X2 & X3 & X4 & X5 & X6). cbn [filter]. rewrite O1. cbn [map app].
      assert (IC : incl (map o_slot (filter o_out (snd rs)) ++ o_slot (snd q) :: w) (o_slot (snd q) :: map o_slot (filter o_out (snd rs)) ++ w)).
      { intros j Hj. apply in_app_or in Hj. cbn [In] in *. rewrite in_app_iff. tauto. }
      split; [eapply known_incl; eassumption|]. split; [lia|]. split; [congruence|]. split; [|split; congruence].
      constructor; [split; [lia|rewrite O1; discriminate]|]. eapply Forall_impl; [|exact X4]. cbn beta. intros b [H1 H2]. split; [exact H1|]. intros Ob. apply IC. now apply H2.
    + unfold in_param in E. destruct (find (a_p a) (r_map s)) as [i|] eqn:EF; cbn [option_map] in E; [|discriminate]. cbn [negb andb] in E. destruct (v_un (get_var s i)) eqn:EU; [discriminate|]. cbn [bind fst] in E.
      destruct (params false s l) as [rs|] eqn:ER; [|discriminate]. cbn [bind] in E. injection E as <-. cbn [fst snd].
      destruct (IH s w rs K ER) as (X1 & X2 & X3 & X4 & X5 & X6). cbn [filter o_out]. split; [exact X1|]. split; [exact X2|]. split; [cbn [map o_out]; congruence|]. split; [|auto].
      destruct K as [Ka Kb]. pose proof (Ka _ _ (find_in _ _ _ EF)) as B. constructor; [|exact X4]. cbn [o_slot o_out]. split; [lia|]. intros _. apply in_or_app. right. apply Kb; assumption.
Qed.
Definition rec_ok (s : rst) : Prop := known_ok s (wr (r_ins s) (r_ops s)) /\ Forall (fun i => (i < length (r_vars s))%nat) (r_ins s) /\ defined (length (r_vars s)) (r_ins s) (r_ops s).
Lemma record_ok s c l s' : rec_ok s -> shape (c_kind c) (map a_out l) -> record_with false s c l = Some s' -> rec_ok s'.
Proof.
  intros (K & FI & D) SH E. unfold record_with in E. destruct (params false s l) as [r|] eqn:EP; [|discriminate]. cbn [bind] in E. injection E as <-.
  destruct (params_known l s _ r K EP) as (X1 & X2 & X3 & X4 & X5 & X6). unfold rec_ok, push. cbn [r_ins r_ops r_vars]. rewrite wr_app, X5, X6. cbn [o_args]. split; [exact X1|].
  split; [eapply Forall_impl; [|exact FI]; cbn beta; lia|]. apply defined_app. split; [eapply defined_le; [exact X2|exact D]|]. cbn [defined]. split; [|exact Logic.I].
  split; cbn [o_kind o_args]; [now rewrite X3|exact X4].
Qed.
Lemma call_ok s c s' : rec_ok s -> shape (c_kind c) (map a_out (c_args c)) -> (forall es, c_kind c <> KAgg es) -> rec_call s c = Some s' -> rec_ok s'.
Proof.
  intros R SH NA E. unfold rec_call in E.
  destruct (c_kind c) as [k n|n isz v|n|rp n|n|n bs bc|vt rp n bs|vt rp n bs ex rev|vt n|es|n|n|] eqn:EK; try (rewrite <- EK in SH; eapply record_ok; eassumption).
  - destruct (c_args c) as [|src [|dst [|a2 l]]]; cbn [shape map] in SH; try discriminate. destruct (find (a_p src) (r_map s)) as [i|]; [|discriminate]. cbn [bind] in E.
    eapply record_ok; [exact R| |exact E]. rewrite EK. cbn [shape map a_out]. congruence.
  - destruct (c_args c) as [|src l]; [cbn [shape map] in SH; discriminate|]. destruct (find (a_p src) (r_map s)); [rewrite <- EK in SH; eapply record_ok; eassumption|]. injection E as <-. exact R.
  - exfalso. eapply NA. reflexivity.
  - destruct (c_args c) as [|src [|dst [|a2 l]]]; cbn [shape map] in SH; try discriminate.
    destruct R as (K & FI & D). destruct (out_known s (a_p dst) Void _ K) as (K1 & L1 & B1 & O1 & I1 & P1 & _). destruct (out_param s (a_p dst) Void) as [s1 o]. cbn [fst snd] in *.
    eapply record_ok; [| |exact E]; [|rewrite EK; cbn [shape map]; exact SH].
    unfold rec_ok, push. cbn [r_ins r_ops r_vars]. rewrite wr_app. cbn [o_args filter]. rewrite O1, I1, P1. cbn [map app]. split; [exact K1|]. split; [eapply Forall_impl; [|exact FI]; cbn beta; lia|].
    apply defined_app. split; [eapply defined_le; [exact L1|exact D]|]. cbn [defined]. split; [|exact Logic.I]. split; cbn [o_kind o_args shape map]; [now rewrite O1|]. constructor; [|constructor]. split; [exact B1|congruence].
Qed.
Lemma all_ok : forall tr s s', rec_ok s -> Forall plain_ev tr -> rec_all s tr = Some s' -> rec_ok s'.
Proof.
  induction tr as [|v tr IH]; intros s s' R F E; cbn [rec_all] in E; [injection E as <-; exact R|]. apply Forall_cons_iff in F as [Fv F]. destruct v as [c|x]; cbn [rec_ev] in E.
  - destruct Fv as [SH NA]. destruct (rec_call s c) as [s1|] eqn:E1; [|discriminate]. cbn [bind] in E. eapply IH; [|exact F|exact E]. eapply call_ok; eassumption.
  - cbn [bind] in E. eapply IH; [|exact F|exact E]. destruct R as ([K1 K2] & FI & D). split; [|split; [exact FI|exact D]]. split; [|exact K2].
    intros y i Ey. apply (K1 y i). cbn [rec_free r_map] in Ey. eapply erase_in. exact Ey.
Qed.
Lemma inputs_ok : forall xs s, rec_ok s -> r_ops s = [] -> rec_ok (fold_left rec_input xs s) /\ r_ops (fold_left rec_input xs s) = [].
Proof.
  induction xs as [|x xs IH]; intros s R E; cbn [fold_left]; [auto|]. apply IH.
  - unfold rec_input. destruct R as ([K1 K2] & FI & D). rewrite E in *. cbn [wr fold_left] in K2. unfold add_variable. destruct (find (fst x) (r_map s)) as [i|] eqn:EF.
    + pose proof (K1 _ _ (find_in _ _ _ EF)) as B. unfold rec_ok. cbn [r_ins r_ops r_vars]. rewrite set_nth_length, E. cbn [wr fold_left defined]. split; [split|].
      * intros y j Hy. cbn [r_map r_vars] in *. rewrite set_nth_length. now apply (K1 y j).
      * intros j Bj U. cbn [r_vars] in Bj. rewrite set_nth_length in Bj. rewrite in_app_iff. cbn [In]. destruct (Nat.eq_dec i j) as [->|NE]; [auto|]. left. apply K2; [exact Bj|]. unfold get_var in *. cbn [r_vars] in U. now rewrite nth_set_nth_neq in U by auto.
      * split; [|exact Logic.I]. apply Forall_app. split; [exact FI|constructor; [exact B|constructor]].
    + unfold rec_ok. cbn [r_ins r_ops r_vars]. rewrite set_nth_length, app_length, E. cbn [wr fold_left defined length]. split; [split|].
      * intros y j Hy. cbn [r_map r_vars In] in *. rewrite set_nth_length, app_length. cbn [length]. destruct Hy as [Hy|Hy]; [injection Hy as <- <-; lia|]. pose proof (K1 y j Hy). lia.
      * intros j Bj U. cbn [r_vars] in Bj. rewrite set_nth_length, app_length in Bj. cbn [length] in Bj. rewrite in_app_iff. cbn [In]. destruct (Nat.eq_dec (length (r_vars s)) j) as [->|NE]; [auto|]. left. apply K2; [lia|]. unfold get_var in *. cbn [r_vars] in U. rewrite nth_set_nth_neq in U by auto. now rewrite app_nth1 in U by lia.
      * split; [|exact Logic.I]. apply Forall_app. split; [eapply Forall_impl; [|exact FI]; cbn beta; lia|]. constructor; [lia|constructor].
  - unfold rec_input, add_variable. destruct (find (fst x) (r_map s)); exact E.
Qed.
Lemma recorded_defined xs tr ys g : Forall plain_ev tr -> record xs tr ys = Some g -> defined (length (g_vars g)) (g_ins g) (g_ops g) /\ Forall (fun i => (i < length (g_vars g))%nat) (g_ins g).
Proof.
  intros F E. unfold record in E. destruct (rec_all (fold_left rec_input xs rst0) tr) as [s|] eqn:ES; [|discriminate]. cbn [bind] in E. destruct (existsb v_un (r_vars s)); [discriminate|]. injection E as <-. cbn [g_vars g_ins g_ops].
  destruct (inputs_ok xs rst0) as [R _]; [|reflexivity|].
  - unfold rec_ok, rst0. cbn [r_ins r_ops r_vars length defined wr fold_left]. split; [split|]; [intros ? ? []|cbn [r_vars length]; lia|]. split; [constructor|exact Logic.I].
  - destruct (all_ok tr _ _ R F ES) as (_ & A & B). auto.
Qed.
Lemma r_ins_len xs : length (r_ins (fold_left rec_input xs rst0)) = length xs.
Proof.
  assert (G : forall xs s, length (r_ins (fold_left rec_input xs s)) = (length (r_ins s) + length xs)%nat).
  { induction xs0 as [|x l IH]; intros s; cbn [fold_left length]; [lia|]. rewrite IH. unfold rec_input. destruct (add_variable s (fst x)) as [s1 i] eqn:EA. cbn [r_ins]. rewrite app_length. cbn [length].
    unfold add_variable in EA. destruct (find (fst x) (r_map s)); injection EA as <- <-; cbn [r_ins]; lia. }
  apply (G xs rst0).
Qed.
Lemma all_ins : forall tr s s', Forall plain_ev tr -> rec_ok s -> rec_all s tr = Some s' -> r_ins s' = r_ins s.
Proof.
  assert (RW : forall s c l s', rec_ok s -> record_with false s c l = Some s' -> r_ins s' = r_ins s).
  { intros s c l s' (K & _) E. unfold record_with in E. destruct (params false s l) as [r|] eqn:EP; [|discriminate]. cbn [bind] in E. injection E as <-. unfold push. cbn [r_ins]. apply (params_known l s _ r K EP). }
  induction tr as [|v tr IH]; intros s s' F R E; cbn [rec_all] in E; [congruence|]. apply Forall_cons_iff in F as [Fv F]. destruct v as [c|x]; cbn [rec_ev] in E.
  - destruct Fv as [SH NA]. destruct (rec_call s c) as [s1|] eqn:E1; [|discriminate]. cbn [bind] in E. rewrite (IH s1 s' F (call_ok s c s1 R SH NA E1) E). clear IH E.
    unfold rec_call in E1. destruct (c_kind c) eqn:EK; try (eapply RW; eassumption).
    + destruct (c_args c) as [|src [|dst [|a2 l]]]; try (eapply RW; eassumption). destruct (find (a_p src) (r_map s)) as [i|]; [|discriminate]. cbn [bind] in E1. eapply RW; eassumption.
    + destruct (c_args c) as [|src l]; [eapply RW; eassumption|]. destruct (find (a_p src) (r_map s)); [eapply RW; eassumption|]. congruence.
    + exfalso. eapply NA. reflexivity.
    + destruct (c_args c) as [|src [|dst [|a2 l]]]; cbn [shape map] in SH; try discriminate.
      destruct R as (K & _). destruct (out_known s (a_p dst) Void _ K) as (K1 & L1 & B1 & O1 & I1 & P1 & _). destruct (out_param s (a_p dst) Void) as [s2 o]. cbn [fst snd] in *.
      unfold record_with in E1. destruct (params false _ [src; dst]) as [r|] eqn:EP; [|discriminate]. cbn [bind] in E1. injection E1 as <-. cbn [push r_ins].
      eapply params_known in EP as (_ & _ & _ & _ & Z & _); [|exact K1]. rewrite Z. cbn [push r_ins]. exact I1.
  - cbn [bind] in E. assert (R' : rec_ok (rec_free s x)). { apply (all_ok [Free x] s (rec_free s x) R); [constructor; [exact Logic.I|constructor]|reflexivity]. } rewrite (IH _ _ F R' E). reflexivity.
Qed.

Section DryTop.
Context {C : Type} (blank : C) (dev : kind -> list C -> list C) (count : kind -> list C -> N).
Lemma start_filled : forall l (ins : list (input (C := C))) k (t : st (C := C)), length ins = length l -> Forall (fun i => (i < length (t_slots t))%nat) l ->
  let t' := fold_left init_slot (combine l (combine (seq k (length ins)) ins)) t in length (t_slots t') = length (t_slots t) /\ filled l t' /\ (forall j, s_data (get t j) <> None -> s_data (get t' j) <> None).
Proof.
  induction l as [|i l IH]; intros ins k t L F; destruct ins as [|v ins]; cbn [length] in L; try lia; cbn [length seq combine fold_left]; [cbn zeta; split; [reflexivity|]; split; [intros j []|auto]|].
  apply Forall_cons_iff in F as [Fi F]. cbn zeta.
  assert (L0 : length (t_slots (init_slot t (i, (k, v)))) = length (t_slots t)) by (unfold init_slot, put; cbn [t_slots]; apply set_nth_length).
  destruct (IH ins (S k) (init_slot t (i, (k, v)))) as (A1 & A2 & A3); [lia|now rewrite L0|].
  assert (G : forall j, s_data (get t j) <> None \/ j = i -> s_data (get (init_slot t (i, (k, v))) j) <> None).
  { intros j H. unfold init_slot. rewrite get_set by exact Fi. destruct (Nat.eqb_spec j i) as [->|NE]; [discriminate|]. destruct H; [assumption|congruence]. }
  split; [congruence|]. split; [|intros j H; apply A3, G; auto]. intros j [<-|H]; [apply A3, G; auto|now apply A2].
Qed.
Theorem dry_run_ok xs tr ys g (ins : list (input (C := C))) : Forall plain_ev tr -> record xs tr ys = Some g -> length ins = length xs -> g_dry g = true ->
  dry_run blank dev count g ins = Some true -> exists t, replay_ops blank dev count false (start g ins) (g_ops g) = Ok t.
Proof.
  intros F E L GD DR. unfold dry_run in DR. rewrite GD in DR. destruct (replay_ops blank dev count true (start g ins) (g_ops g)) as [s| |] eqn:ER; try discriminate.
  destruct (recorded_defined xs tr ys g F E) as [D B].
  assert (LI : length (g_ins g) = length xs).
  { unfold record in E. destruct (rec_all (fold_left rec_input xs rst0) tr) as [s1|] eqn:ES; [|discriminate]. cbn [bind] in E. destruct (existsb v_un (r_vars s1)); [discriminate|]. injection E as <-. cbn [g_ins].
    destruct (inputs_ok xs rst0) as [R _]; [|reflexivity|rewrite (all_ins tr _ _ F R ES); apply r_ins_len].
    unfold rec_ok, rst0. cbn [r_ins r_ops r_vars length defined wr fold_left]. split; [split|]; [intros ? ? []|cbn [r_vars length]; lia|]. split; [constructor|exact Logic.I]. }
  destruct (start_filled (g_ins g) ins 0 {| t_slots := map (fun _ => slot0) (g_vars g); t_next := 0; t_freed := [] |}) as (A1 & A2 & _); [congruence|cbn [t_slots]; now rewrite map_length|].
  fold (start g ins) in A1, A2. cbn [t_slots] in A1. rewrite map_length in A1.
  destruct (dry_ok blank dev count (length (g_vars g)) (g_ops g) (g_ins g) (start g ins) (start g ins) s A1) as (b & Eb & _); auto; [split; auto|eauto].
Qed.
End DryTop.

(** ** Unknown variables *)
Lemma add_unknown s p x : x <> p -> find x (r_map s) = None -> find x (r_map (fst (add_variable s p))) = None.
Proof. intros NE E. unfold add_variable. destruct (find p (r_map s)); cbn [fst r_map find]; [exact E|]. destruct (N.eqb_spec p x); [congruence|exact E]. Qed.
Lemma out_unknown s p vt x : x <> p -> find x (r_map s) = None -> find x (r_map (fst (out_param s p vt))) = None.
Proof. intros NE E. unfold out_param. pose proof (add_unknown s p x NE E) as X. destruct (add_variable s p) as [s1 i]. cbn [fst with_vars r_map] in *. exact X. Qed.
Lemma params_unknown x lax : forall l s r, (forall a, In a l -> (a_out a = true \/ lax = true) -> a_p a <> x) -> find x (r_map s) = None -> params lax s l = Some r -> find x (r_map (fst r)) = None.
Proof.
  induction l as [|a l IH]; intros s r NI E P; cbn [params] in P; [injection P as <-; exact E|].
  assert (NI' : forall b, In b l -> (a_out b = true \/ lax = true) -> a_p b <> x) by (intros b Hb; apply NI; now right).
  destruct (a_out a) eqn:EO.
  - cbn [bind] in P. destruct (params lax (fst (out_param s (a_p a) (a_vt a))) l) as [rs|] eqn:ER; [|discriminate]. cbn [bind] in P. injection P as <-. cbn [fst]. eapply IH; [exact NI'| |exact ER]. apply out_unknown; [|exact E]. intros X. symmetry in X. revert X. apply NI; [now left|now left].
  - unfold in_param in P. destruct lax.
    + pose proof (add_unknown s (a_p a) x) as AU. destruct (add_variable s (a_p a)) as [s1 i]. cbn [negb andb bind fst snd] in *. destruct (params true s1 l) as [rs|] eqn:ER; [|discriminate]. cbn [bind] in P. injection P as <-. cbn [fst].
      eapply IH; [exact NI'| |exact ER]. apply AU; [|exact E]. intros X. symmetry in X. revert X. apply NI; [now left|now right].
    + destruct (find (a_p a) (r_map s)) as [i|]; cbn [option_map] in P; [|discriminate]. destruct (negb false && v_un (get_var s i)); [discriminate|]. cbn [bind fst] in P. destruct (params false s l) as [rs|] eqn:ER; [|discriminate]. cbn [bind] in P. injection P as <-. cbn [fst]. eapply IH; eassumption.
Qed.
Lemma params_rejects x : forall l s, (forall a, In a l -> a_out a = true -> a_p a <> x) -> find x (r_map s) = None -> (exists a, In a l /\ a_out a = false /\ a_p a = x) -> params false s l = None.
Proof.
  induction l as [|a l IH]; intros s NI E (b & Hb & Ob & Eb); [contradiction|]. cbn [params].
  assert (NI' : forall b, In b l -> a_out b = true -> a_p b <> x) by (intros c Hc; apply NI; now right).
  destruct (a_out a) eqn:EO.
  - cbn [bind]. rewrite IH; [reflexivity|exact NI'| |].
    + apply out_unknown; [|exact E]. intros X. symmetry in X. revert X. apply NI; [now left|assumption].
    + exists b. split; [|auto]. destruct Hb as [->|Hb]; [congruence|exact Hb].
  - unfold in_param. destruct (N.eq_dec (a_p a) x) as [EX|NE]; [rewrite EX, E; reflexivity|].
    destruct (find (a_p a) (r_map s)) as [i|]; cbn [option_map]; [|reflexivity]. destruct (negb false && v_un (get_var s i)); [reflexivity|]. cbn [bind fst]. rewrite IH; [reflexivity|exact NI'|exact E|]. exists b. split; [|auto]. destruct Hb as [->|Hb]; [congruence|exact Hb].
Qed.
Lemma args_absent x c l : (forall a, In a l -> In a (c_args c)) -> ~ In x (outs_of c) -> forall a, In a l -> a_out a = true -> a_p a <> x.
Proof. intros H NI a Ha Oa X. apply NI. rewrite <- X. apply in_map. apply filter_In. auto. Qed.
Lemma record_unknown x lax s c l s' : (forall a, In a l -> (a_out a = true \/ lax = true) -> a_p a <> x) -> find x (r_map s) = None -> record_with lax s c l = Some s' -> find x (r_map s') = None.
Proof.
  intros NI E R. unfold record_with in R. destruct (params lax s l) as [r|] eqn:EP; [|discriminate]. cbn [bind] in R. injection R as <-. cbn [push r_map]. eapply params_unknown; eassumption.
Qed.
Lemma call_unknown x s c s' : absent x (Call c) -> find x (r_map s) = None -> rec_call s c = Some s' -> find x (r_map s') = None.
Proof.
  intros (SH & A1 & A2) E R. assert (NI : forall a, In a (c_args c) -> (a_out a = true \/ false = true) -> a_p a <> x) by (intros a Ha [Oa|Oa]; [|discriminate]; revert a Ha Oa; apply (args_absent x c); auto).
  unfold rec_call in R. destruct (c_kind c) eqn:EK; try (eapply record_unknown; [exact NI|exact E|exact R]); cbn [shape] in SH.
  - destruct (c_args c) as [|src [|dst [|a2 l]]] eqn:EA; cbn [map] in SH; try discriminate. destruct (find (a_p src) (r_map s)) as [i|]; [|discriminate]. cbn [bind] in R. eapply record_unknown; [|exact E|exact R].
    intros a [<-|[<-|[]]] [Oa|Oa]; try discriminate; [apply NI; [now left|now left]|]. cbn [a_p]. apply NI; [right; now left|left; congruence].
  - destruct (c_args c) as [|src l] eqn:EA; [discriminate|]. destruct (find (a_p src) (r_map s)); [eapply record_unknown; [exact NI|exact E|exact R]|]. congruence.
  - eapply record_unknown; [|exact E|exact R]. intros a Ha _ X. destruct (a_out a) eqn:EO; [apply (NI a Ha); auto|]. apply (A2 ltac:(eauto)). unfold ins_of. rewrite <- X. apply in_map. apply filter_In. rewrite EO. auto.
  - destruct (c_args c) as [|src [|dst [|a2 l]]] eqn:EA; cbn [map] in SH; try discriminate. assert (ND : a_p dst <> x) by (apply NI; [right; now left|left; congruence]).
    pose proof (out_unknown s (a_p dst) Void x ltac:(congruence) E) as OU. destruct (out_param s (a_p dst) Void) as [s1 o]. cbn [fst] in OU.
    eapply record_unknown; [exact NI| |exact R]. exact OU.
Qed.
Lemma erase_unknown x p m : find x m = None -> find x (erase p m) = None.
Proof. rewrite !find_none. intros H X. apply H. eapply erase_incl. exact X. Qed.
Lemma all_rejects x tr2 : forall tr1 c s, Forall (absent x) tr1 -> find x (r_map s) = None -> shape (c_kind c) (map a_out (c_args c)) -> (forall es, c_kind c <> KAgg es) -> (forall n b k, c_kind c <> KMkperm n b k) ->
  In x (ins_of c) -> ~ In x (outs_of c) -> rec_all s (tr1 ++ Call c :: tr2) = None.
Proof.
  induction tr1 as [|v tr1 IH]; intros c s F E SH NA NM IX NX; cbn [app rec_all rec_ev].
  - assert (RJ : forall l s0 k, find x (r_map s0) = None -> (forall a, In a l -> a_out a = true -> a_p a <> x) -> (exists a, In a l /\ a_out a = false /\ a_p a = x) -> record_with false s0 k l = None).
    { intros l s0 k E0 N0 X0. unfold record_with. rewrite (params_rejects x l s0 N0 E0 X0). reflexivity. }
    pose proof (args_absent x c (c_args c) (fun a H => H) NX) as N0.
    assert (X0 : exists a, In a (c_args c) /\ a_out a = false /\ a_p a = x).
    { unfold ins_of in IX. apply in_map_iff in IX as (a & EX & Ha). apply filter_In in Ha as [Ha Oa]. exists a. split; [exact Ha|]. split; [now destruct (a_out a)|exact EX]. }
    assert (R : rec_call s c = None); [|now rewrite R]. unfold rec_call. destruct (c_kind c) eqn:EK; try (apply RJ; assumption); cbn [shape] in SH.
    + destruct (c_args c) as [|src [|dst [|a2 l]]] eqn:EA; cbn [map] in SH; try discriminate. destruct X0 as (a & Ha & Oa & EX).
      assert (a = src) by (destruct Ha as [->|[->|[]]]; [reflexivity|congruence]). subst a. rewrite EX, E. reflexivity.
    + exfalso. eapply NM. reflexivity.
    + exfalso. eapply NA. reflexivity.
    + destruct (c_args c) as [|src [|dst [|a2 l]]] eqn:EA; cbn [map] in SH; try discriminate. assert (ND : a_p dst <> x) by (apply N0; [right; now left|congruence]).
      pose proof (out_unknown s (a_p dst) Void x ltac:(congruence) E) as OU. destruct (out_param s (a_p dst) Void) as [s1 o]. cbn [fst] in OU. apply RJ; assumption.
  - apply Forall_cons_iff in F as [Fv F]. destruct v as [c0|y]; cbn [rec_ev].
    + destruct (rec_call s c0) as [s1|] eqn:E1; cbn [bind]; [|reflexivity]. apply IH; auto. eapply call_unknown; eassumption.
    + cbn [bind]. apply IH; auto. cbn [rec_free r_map]. now apply erase_unknown.
Qed.
Theorem record_rejects xs tr1 c tr2 ys x : Forall (absent x) tr1 -> shape (c_kind c) (map a_out (c_args c)) -> (forall es, c_kind c <> KAgg es) -> (forall n b k, c_kind c <> KMkperm n b k) ->
  ~ In x (map fst xs) -> In x (ins_of c) -> ~ In x (outs_of c) -> record xs (tr1 ++ Call c :: tr2) ys = None.
Proof.
  intros F SH NA NM NX IX NO. unfold record. rewrite (all_rejects x); auto.
  assert (G : forall l s, ~ In x (map fst l) -> find x (r_map s) = None -> find x (r_map (fold_left rec_input l s)) = None); [|now apply G].
  induction l as [|y l IH]; intros s NI E; cbn [fold_left]; [exact E|]. cbn [map In] in NI. apply IH; [tauto|]. unfold rec_input. pose proof (add_unknown s (fst y) x ltac:(intros X; apply NI; now left) E) as AU. destruct (add_variable s (fst y)) as [s1 i]. exact AU.
Qed.
