(** Frozen functions: a recording does not depend on addresses. *)
From Verif Require Import Base Rpl_Model Rpl_Spec Rpl_Rec.
Local Open Scope N_scope.

Section Place.
Variable at_ : N -> N.
Definition mvm (m : list (N * nat)) : list (N * nat) := map (fun p => (at_ (fst p), snd p)) m.
Definition mv (s : rst) : rst := {| r_map := mvm (r_map s); r_vars := r_vars s; r_ops := r_ops s; r_ins := r_ins s; r_dry := r_dry s |}.
Definition keys (s : rst) : list N := map fst (r_map s).
Definition inside (L : list N) (s : rst) : Prop := NoDup (keys s) /\ incl (keys s) L.

Lemma find_mv L x : forall m, apart at_ L -> incl (map fst m) L -> In x L -> find (at_ x) (mvm m) = find x m.
Proof.
  induction m as [|[q i] m IH]; intros A I H; cbn [mvm map find fst snd]; [reflexivity|]. fold (mvm m). cbn [map fst] in I. 
  rewrite IH; auto; [|intros y Hy; apply I; now right].
  destruct (N.eqb_spec q x) as [->|NE]; [now rewrite N.eqb_refl|]. destruct (N.eqb_spec (at_ q) (at_ x)) as [E|]; [|reflexivity]. exfalso. apply NE. apply A; auto. apply I. now left.
Qed.
Lemma erase_mv L x : forall m, apart at_ L -> incl (map fst m) L -> In x L -> erase (at_ x) (mvm m) = mvm (erase x m).
Proof.
  induction m as [|[q i] m IH]; intros A I H; cbn [mvm map erase fst snd]; [reflexivity|]. fold (mvm m). cbn [map fst] in I. 
  rewrite IH; auto; [|intros y Hy; apply I; now right].
  destruct (N.eqb_spec q x) as [->|NE]; [now rewrite N.eqb_refl|]. destruct (N.eqb_spec (at_ q) (at_ x)) as [E|]; [|reflexivity]. exfalso. apply NE. apply A; auto. apply I. now left.
Qed.
Lemma add_mv L s x : apart at_ L -> inside L s -> In x L -> add_variable (mv s) (at_ x) = (mv (fst (add_variable s x)), snd (add_variable s x)) /\ inside L (fst (add_variable s x)).
Proof.
  intros A [I1 I2] H. unfold add_variable. cbn [mv r_map]. rewrite (find_mv L) by assumption. destruct (find x (r_map s)) as [i|] eqn:E; cbn [fst snd]; [split; [reflexivity|split; assumption]|]. split; [reflexivity|].
  unfold inside, keys. cbn [r_map map fst]. split; [constructor; [apply find_none; exact E|exact I1]|]. intros y [<-|Hy]; [exact H|auto].
Qed.
Lemma out_mv L s x vt : apart at_ L -> inside L s -> In x L -> out_param (mv s) (at_ x) vt = (mv (fst (out_param s x vt)), snd (out_param s x vt)) /\ inside L (fst (out_param s x vt)).
Proof.
  intros A I H. unfold out_param. destruct (add_mv L s x A I H) as [E I']. rewrite E. destruct (add_variable s x) as [s1 i]. cbn [fst snd] in *. split; [reflexivity|]. exact I'.
Qed.
Lemma in_mv L lax s x vt : apart at_ L -> inside L s -> In x L ->
  in_param lax (mv s) (at_ x) vt = option_map (fun r => (mv (fst r), snd r)) (in_param lax s x vt) /\ (forall r, in_param lax s x vt = Some r -> inside L (fst r)).
Proof.
  intros A I H. unfold in_param. destruct lax.
  - destruct (add_mv L s x A I H) as [E I']. rewrite E. destruct (add_variable s x) as [s1 i]. cbn [fst snd negb andb] in *. split; [reflexivity|]. intros r X. injection X as <-. exact I'.
  - cbn [mv r_map]. rewrite (find_mv L) by (first [assumption|apply I]). destruct (find x (r_map s)) as [i|]; cbn [option_map]; [|split; [reflexivity|discriminate]]. change (get_var (mv s) i) with (get_var s i). destruct (negb false && v_un (get_var s i)); cbn [option_map]; (split; [reflexivity|]); [discriminate|]. intros r X. injection X as <-. exact I.
Qed.
Lemma params_mv L lax : forall l s, apart at_ L -> inside L s -> incl (map a_p l) L ->
  params lax (mv s) (map (move_arg at_) l) = option_map (fun r => (mv (fst r), snd r)) (params lax s l) /\ (forall r, params lax s l = Some r -> inside L (fst r)).
Proof.
  induction l as [|a l IH]; intros s A I H; cbn [params map]; [split; [reflexivity|]; intros r X; injection X as <-; exact I|].
  assert (Ha : In (a_p a) L) by (apply H; now left). assert (Hl : incl (map a_p l) L) by (intros y Hy; apply H; now right). cbn [move_arg a_out a_p a_vt]. change (move_arg at_) with (move_arg at_).
  assert (G : forall o, (forall r, o = Some r -> inside L (fst r)) ->
    (let? r := option_map (fun r => (mv (fst r), snd r)) o in let? rs := params lax (fst r) (map (move_arg at_) l) in Some (fst rs, snd r :: snd rs)) = option_map (fun r => (mv (fst r), snd r)) (let? r := o in let? rs := params lax (fst r) l in Some (fst rs, snd r :: snd rs)) /\
    (forall r, (let? r := o in let? rs := params lax (fst r) l in Some (fst rs, snd r :: snd rs)) = Some r -> inside L (fst r))).
  { intros [r|] HI; cbn [option_map bind]; [|split; [reflexivity|discriminate]]. destruct (IH (fst r) A (HI r eq_refl) Hl) as [E E']. cbn [fst snd]. rewrite E. destruct (params lax (fst r) l) as [rs|]; cbn [option_map bind fst snd]; (split; [reflexivity|]); [|discriminate]. intros r' X. injection X as <-. cbn [fst]. now apply E'. }
  destruct (a_out a).
  - destruct (out_mv L s (a_p a) (a_vt a) A I Ha) as [E I']. rewrite E. apply (G (Some (out_param s (a_p a) (a_vt a)))). intros r X. injection X as <-. exact I'.
  - destruct (in_mv L lax s (a_p a) (a_vt a) A I Ha) as [E I']. rewrite E. apply (G (in_param lax s (a_p a) (a_vt a))). exact I'.
Qed.

Definition mvc (c : call) : call := {| c_kind := c_kind c; c_args := map (move_arg at_) (c_args c) |}.
Lemma launch_mv c : launch_of (mvc c) = launch_of c.
Proof.
  unfold launch_of. cbn [mvc c_kind c_args]. destruct (c_kind c); try reflexivity. rewrite map_map. cbn [move_arg a_b]. f_equal.
  generalize 0%nat. induction (c_args c) as [|a l IH]; intros i; cbn [map fparams]; [reflexivity|]. now rewrite IH.
Qed.
Lemma record_mv L lax s c l : apart at_ L -> inside L s -> incl (map a_p l) L ->
  record_with lax (mv s) (mvc c) (map (move_arg at_) l) = option_map mv (record_with lax s c l) /\ (forall r, record_with lax s c l = Some r -> inside L r).
Proof.
  intros A I H. unfold record_with. destruct (params_mv L lax l s A I H) as [E E']. rewrite E. destruct (params lax s l) as [r|]; cbn [option_map bind fst snd]; [|split; [reflexivity|discriminate]].
  rewrite launch_mv. split; [reflexivity|]. intros r' X. injection X as <-. apply (E' r eq_refl).
Qed.
Lemma call_mv L s c : apart at_ L -> inside L s -> incl (map a_p (c_args c)) L ->
  rec_call (mv s) (mvc c) = option_map mv (rec_call s c) /\ (forall r, rec_call s c = Some r -> inside L r).
Proof.
  intros A I H. pose proof (fun lax => record_mv L lax s c (c_args c) A I H) as GEN. unfold rec_call.
  change (c_kind (mvc c)) with (c_kind c). change (c_args (mvc c)) with (map (move_arg at_) (c_args c)).
  destruct (c_kind c); try apply GEN.
  - destruct (c_args c) as [|src [|dst [|a2 l]]]; cbn [map]; try apply GEN.
    cbn [move_arg a_p a_b mv r_map]. rewrite (find_mv L) by (first [assumption|apply H; now left|apply I]). destruct (find (a_p src) (r_map s)) as [i|]; cbn [bind option_map]; [|split; [reflexivity|discriminate]].
    change (get_var (mv s) i) with (get_var s i).
    apply (record_mv L false s c [src; {| a_p := a_p dst; a_out := true; a_pf := false; a_vt := v_ty (get_var s i); a_b := a_b dst |}] A I). exact H.
  - destruct (c_args c) as [|src l]; cbn [map]; try apply GEN. cbn [move_arg a_p mv r_map]. rewrite (find_mv L) by (first [assumption|apply H; now left|apply I]). destruct (find (a_p src) (r_map s)); [apply GEN|]. split; [reflexivity|]. intros r X. injection X as <-. exact I.
  - destruct (c_args c) as [|src [|dst [|a2 l]]]; cbn [map]; try apply GEN. cbn [move_arg a_p].
    destruct (out_mv L s (a_p dst) Void A I) as [E I']; [apply H; right; now left|]. rewrite E. destruct (out_param s (a_p dst) Void) as [s1 o]. cbn [fst snd] in *.
    apply (record_mv L false (push s1 {| o_kind := KMemset 1 4 n; o_args := [o]; o_launch := no_launch |} false) c [src; dst] A); [exact I'|exact H].
Qed.
Lemma apart_incl L L' : incl L' L -> apart at_ L -> apart at_ L'.
Proof. intros H A x y Hx Hy. apply A; auto. Qed.
Lemma all_mv : forall tr L s ys, inside L s -> placed at_ L tr ys ->
  rec_all (mv s) (map (move_ev at_) tr) = option_map mv (rec_all s tr) /\ (forall r, rec_all s tr = Some r -> exists L', inside L' r /\ apart at_ (ys ++ L')).
Proof.
  induction tr as [|v tr IH]; intros L s ys I P; cbn [rec_all map placed] in *; [split; [reflexivity|]; intros r X; injection X as <-; eauto|].
  destruct v as [c|x]; cbn [rec_ev move_ev].
  - destruct P as [A P]. destruct (call_mv (map a_p (c_args c) ++ L) s c A) as [E E'].
    + destruct I as [I1 I2]. split; [exact I1|]. intros y Hy. apply in_or_app. right. auto.
    + apply incl_appl, incl_refl.
    + fold (mvc c). rewrite E. destruct (rec_call s c) as [s1|]; cbn [option_map bind]; [|split; [reflexivity|discriminate]]. eapply IH; [|exact P]. now apply E'.
  - destruct P as [A P]. cbn [bind]. 
    assert (E : rec_free (mv s) (at_ x) = mv (rec_free s x)).
    { unfold rec_free, mv. cbn [r_map r_vars r_ops r_ins r_dry]. rewrite (erase_mv (x :: L)); [reflexivity|exact A| |now left]. intros y Hy. right. now apply I. }
    rewrite E. eapply IH; [|exact P]. destruct I as [I1 I2]. split; [now apply erase_nodup|]. intros y Hy. unfold keys in Hy. cbn [rec_free r_map] in Hy. apply in_in_remove.
    + intros ->. assert (X : find x (erase x (r_map s)) = None) by (rewrite find_erase by exact I1; now rewrite N.eqb_refl). apply find_none in X. contradiction.
    + apply I2. eapply erase_incl. exact Hy.
Qed.
Lemma input_mv L s x : apart at_ L -> inside L s -> In (fst x) L -> rec_input (mv s) (move at_ x) = mv (rec_input s x) /\ inside L (rec_input s x).
Proof.
  intros A I H. unfold rec_input. cbn [move fst snd]. destruct (add_mv L s (fst x) A I H) as [E I']. rewrite E. destruct (add_variable s (fst x)) as [s1 i]. cbn [fst snd] in *. split; [reflexivity|exact I'].
Qed.
Lemma inputs_mv L : forall xs s, apart at_ L -> inside L s -> incl (map fst xs) L -> fold_left rec_input (map (move at_) xs) (mv s) = mv (fold_left rec_input xs s) /\ inside L (fold_left rec_input xs s).
Proof.
  induction xs as [|x xs IH]; intros s A I H; cbn [map fold_left]; [auto|]. destruct (input_mv L s x A I) as [E I']; [apply H; now left|]. rewrite E. apply IH; auto. intros y Hy. apply H. now right.
Qed.
Lemma placed_apart : forall tr L ys, placed at_ L tr ys -> apart at_ L.
Proof.
  destruct tr as [|[c|x] tr]; intros L ys P; cbn [placed] in P.
  - eapply apart_incl; [|exact P]. apply incl_appr, incl_refl.
  - destruct P as [A _]. eapply apart_incl; [|exact A]. apply incl_appr, incl_refl.
  - destruct P as [A _]. eapply apart_incl; [|exact A]. intros y Hy. now right.
Qed.
Theorem record_placed xs tr ys : placed at_ (map fst xs) tr (map fst ys) -> record (map (move at_) xs) (map (move_ev at_) tr) (map (move at_) ys) = record xs tr ys.
Proof.
  intros P. unfold record. destruct (inputs_mv (map fst xs) xs rst0 (placed_apart _ _ _ P)) as [E I].
  { split; [constructor|]. intros y []. } { apply incl_refl. }
  change rst0 with (mv rst0) at 1. rewrite E. destruct (all_mv tr _ _ (map fst ys) I P) as [E2 E3]. rewrite E2.
  destruct (rec_all (fold_left rec_input xs rst0) tr) as [s|]; cbn [option_map bind]; [|reflexivity].
  destruct (E3 s eq_refl) as (L' & I' & A'). cbn [mv r_vars r_ops r_ins r_dry].
  replace (flat_map (rec_output (mv s)) (map (move at_) ys)) with (flat_map (rec_output s) ys); [reflexivity|].
  clear - I' A'. assert (G : forall l, incl (map fst l) (map fst ys) -> flat_map (rec_output s) l = flat_map (rec_output (mv s)) (map (move at_) l)); [|apply G, incl_refl].
  induction l as [|y l IH]; intros H; cbn [flat_map map]; [reflexivity|]. rewrite <- IH by (intros z Hz; apply H; now right). f_equal. unfold rec_output. cbn [mv r_map move fst snd].
  rewrite (find_mv (map fst ys ++ L')); [reflexivity|exact A'| |].
  - intros z Hz. apply in_or_app. right. now apply I'.
  - apply in_or_app. left. apply H. now left.
Qed.
End Place.
