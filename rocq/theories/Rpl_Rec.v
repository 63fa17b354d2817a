(** Frozen functions: slots of a recording. *)
From Verif Require Import Base Rpl_Model Rpl_Spec.
Local Open Scope N_scope.

Lemma find_none p : forall m, find p m = None <-> ~ In p (map fst m).
Proof.
  induction m as [|[q i] m IH]; cbn [find map fst In]; [tauto|].
  destruct (q =? p) eqn:E; [split; [discriminate|intros H; exfalso; apply H; left; lia]|]. rewrite IH. split; [intros H [X|X]; [lia|auto]|tauto].
Qed.
Lemma find_erase p x : forall m, NoDup (map fst m) -> find x (erase p m) = if x =? p then None else find x m.
Proof.
  induction m as [|[q i] m IH]; cbn [find erase map fst]; intros ND; [destruct (x =? p); reflexivity|].
  apply NoDup_cons_iff in ND. destruct ND as [NI ND].
  destruct (q =? p) eqn:E.
  - apply N.eqb_eq in E. subst q. destruct (x =? p) eqn:E2.
    + apply N.eqb_eq in E2. subst x. now apply find_none.
    + replace (p =? x) with false by lia. reflexivity.
  - cbn [find]. destruct (q =? x) eqn:E2; [replace (x =? p) with false by lia; reflexivity|]. apply IH. exact ND.
Qed.
Lemma erase_incl p : forall m y, In y (map fst (erase p m)) -> In y (map fst m).
Proof.
  induction m as [|[q i] m IH]; cbn [erase map fst In]; intros y H; [assumption|].
  destruct (q =? p); [right; assumption|]. cbn [map fst In] in H. destruct H as [H|H]; auto.
Qed.
Lemma erase_nodup p : forall m, NoDup (map fst m) -> NoDup (map fst (erase p m)).
Proof.
  induction m as [|[q i] m IH]; cbn [erase map fst]; intros ND; [constructor|].
  apply NoDup_cons_iff in ND. destruct ND as [NI ND]. destruct (q =? p); [assumption|]. cbn [map fst]. constructor; auto. intros X. apply erase_incl in X. auto.
Qed.

(** The recorder knows exactly the names in [known], with the types [t]; the first slots are the inputs *)
Record minv (xs : list N) (s : rst) (known : N -> Prop) (t : tys) : Prop := {
  mi_nodup : NoDup (map fst (r_map s));
  mi_bound : forall x i, find x (r_map s) = Some i -> (i < length (r_vars s))%nat;
  mi_inj : forall x y i, find x (r_map s) = Some i -> find y (r_map s) = Some i -> x = y;
  mi_known : forall x, known x <-> exists i, find x (r_map s) = Some i;
  mi_ty : forall x i, find x (r_map s) = Some i -> v_ty (get_var s i) = t x;
  mi_void : forall x, ~ known x -> t x = Void;
  mi_init : Forall (fun v => v_un v = false) (r_vars s);
  mi_in : forall i, (i < length (r_vars s))%nat -> v_in (get_var s i) = if (i <? length xs)%nat then Some i else None;
  mi_xs : (length xs <= length (r_vars s))%nat;
  mi_inputs : forall x i, find x (r_map s) = Some i -> nth_error xs i = Some x \/ (length xs <= i)%nat /\ ~ In x xs
}.

Lemma minv_ext xs s k k' t t' : minv xs s k t -> (forall x, k x <-> k' x) -> (forall x, t x = t' x) -> minv xs s k' t'.
Proof.
  intros I K T. destruct I. constructor; auto.
  - intros x. rewrite <- K. apply mi_known0.
  - intros x i E. rewrite <- T. now apply mi_ty0.
  - intros x H. rewrite <- T. apply mi_void0. rewrite K. exact H.
Qed.

Lemma get_var_set s i v j : (i < length (r_vars s))%nat -> get_var (with_vars s (set_nth i v (r_vars s))) j = if (j =? i)%nat then v else get_var s j.
Proof.
  intros L. unfold get_var. cbn [with_vars r_vars].
  destruct (Nat.eqb_spec j i) as [->|E]; [now rewrite nth_set_nth_eq|]. rewrite nth_set_nth_neq by auto. reflexivity.
Qed.
Lemma Forall_set_nth {A} (P : A -> Prop) : forall l i x, Forall P l -> P x -> Forall P (set_nth i x l).
Proof. induction l as [|h l IH]; intros [|i] x F H; cbn [set_nth]; auto; apply Forall_cons_iff in F as [F1 F2]; constructor; auto. Qed.

Lemma get_var_app s l i : (i < length (r_vars s))%nat -> nth i (r_vars s ++ l) var0 = get_var s i.
Proof. intros L. unfold get_var. now rewrite app_nth1. Qed.

Definition grows (s s' : rst) : Prop :=
  (length (r_vars s) <= length (r_vars s'))%nat /\
  (forall x i, find x (r_map s) = Some i -> find x (r_map s') = Some i) /\
  (forall x i, find x (r_map s) = None -> find x (r_map s') = Some i -> (length (r_vars s) <= i)%nat).
Lemma grows_refl s : grows s s.
Proof. split; [lia|]. split; [auto|]. intros x i E1 E2. congruence. Qed.
Lemma grows_trans s1 s2 s3 : (forall x i, find x (r_map s2) = Some i -> (i < length (r_vars s2))%nat) -> grows s1 s2 -> grows s2 s3 -> grows s1 s3.
Proof.
  intros B [L1 [M1 N1]] [L2 [M2 N2]]. split; [lia|]. split; [auto|]. intros x i E1 E2.
  destruct (find x (r_map s2)) as [j|] eqn:E; [|specialize (N2 _ _ E E2); lia].
  pose proof (M2 _ _ E) as X. rewrite E2 in X. injection X as ->. apply (N1 _ _ E1 E).
Qed.

(** Writing a buffer *)
Lemma out_param_ok xs s known t p vt : minv xs s known t -> ~ In p xs ->
  exists s' i, out_param s p vt = (s', {| o_slot := i; o_out := true; o_vt := vt |}) /\ find p (r_map s') = Some i /\ grows s s' /\
  (forall x, x <> p -> find x (r_map s') = find x (r_map s)) /\
  r_ops s' = r_ops s /\ r_ins s' = r_ins s /\ r_dry s' = r_dry s /\
  minv xs s' (fun x => x = p \/ known x) (if vt =? Void then t else set_ty t p vt).
Proof.
  intros I NX. unfold out_param, add_variable. destruct (find p (r_map s)) as [i|] eqn:E.
  - pose proof (mi_bound _ _ _ _ I _ _ E) as B.
    eexists _, i. split; [reflexivity|]. cbn [with_vars r_map r_vars r_ops r_ins r_dry]. split; [exact E|]. split.
    { split; [cbn [with_vars r_vars]; rewrite set_nth_length; lia|]. split; [auto|]. cbn [with_vars r_map]. intros x j E1 E2. congruence. }
    do 4 (split; [auto|]).
    destruct I. constructor; cbn [with_vars r_map r_vars]; try (rewrite set_nth_length); auto.
    + intros x. rewrite <- mi_known0. split; [intros [->|H]; [apply mi_known0; eauto|exact H]|auto].
    + intros x j Ej. rewrite get_var_set by assumption. destruct (Nat.eqb_spec j i) as [->|NE].
      * pose proof (mi_inj0 _ _ _ Ej E) as ->. cbn [v_ty]. unfold set_ty. destruct (vt =? Void) eqn:EV; [auto|]. now rewrite N.eqb_refl.
      * rewrite mi_ty0 with (x := x) by assumption. destruct (vt =? Void); [reflexivity|]. unfold set_ty. replace (x =? p) with false; [reflexivity|].
        symmetry. apply N.eqb_neq. intros ->. congruence.
    + intros x H. assert (X : x <> p) by (intros ->; tauto). destruct (vt =? Void); [apply mi_void0; tauto|]. unfold set_ty. replace (x =? p) with false by lia. apply mi_void0. tauto.
    + apply Forall_set_nth; [assumption|reflexivity].
    + intros j Bj. rewrite get_var_set by assumption. destruct (Nat.eqb_spec j i) as [->|NE]; [cbn [v_in]|]; apply mi_in0; assumption.
  - set (i := length (r_vars s)).
    eexists _, i. split; [reflexivity|]. cbn [with_vars r_map r_vars r_ops r_ins r_dry]. split; [cbn [find]; now rewrite N.eqb_refl|].
    assert (FN : forall x, x <> p -> (if p =? x then Some i else find x (r_map s)) = find x (r_map s)) by (intros x H; replace (p =? x) with false by lia; reflexivity).
    split.
    { split; [cbn [with_vars r_vars]; rewrite set_nth_length, app_length; lia|]. cbn [with_vars r_map r_vars find]. split.
      - intros x j Ej. rewrite FN; [exact Ej|]. intros ->. congruence.
      - intros x j E1 E2. destruct (p =? x); [injection E2 as <-; unfold i; lia|congruence]. }
    split; [intros x H; cbn [find]; auto|]. do 3 (split; [auto|]).
    assert (GV : forall j v, (j < S i)%nat -> get_var (with_vars {| r_map := (p, i) :: r_map s; r_vars := r_vars s ++ [var0]; r_ops := r_ops s; r_ins := r_ins s; r_dry := r_dry s |} (set_nth i v (r_vars s ++ [var0]))) j = if (j =? i)%nat then v else get_var s j).
    { intros j v L. unfold get_var. cbn [with_vars r_vars]. destruct (Nat.eqb_spec j i) as [->|NE].
      - rewrite nth_set_nth_eq; [reflexivity|]. rewrite app_length. cbn. unfold i. lia.
      - rewrite nth_set_nth_neq by auto. rewrite app_nth1 by (unfold i in *; lia). reflexivity. }
    assert (LV : length (set_nth i {| v_un := false; v_in := v_in (get_var {| r_map := (p, i) :: r_map s; r_vars := r_vars s ++ [var0]; r_ops := r_ops s; r_ins := r_ins s; r_dry := r_dry s |} i);
         v_ty := if vt =? Void then v_ty (get_var {| r_map := (p, i) :: r_map s; r_vars := r_vars s ++ [var0]; r_ops := r_ops s; r_ins := r_ins s; r_dry := r_dry s |} i) else vt |} (r_vars s ++ [var0])) = S i).
    { rewrite set_nth_length, app_length. cbn. unfold i. lia. }
    assert (V0 : get_var {| r_map := (p, i) :: r_map s; r_vars := r_vars s ++ [var0]; r_ops := r_ops s; r_ins := r_ins s; r_dry := r_dry s |} i = var0).
    { unfold get_var. cbn [r_vars]. rewrite app_nth2 by (unfold i; lia). unfold i. now rewrite Nat.sub_diag. }
    rewrite V0 in *. cbn [v_in v_ty var0] in *.
    destruct I. constructor; cbn [with_vars r_map r_vars map fst]; rewrite ?LV.
    + constructor; [now apply find_none|assumption].
    + intros x j. cbn [find]. destruct (p =? x); [intros X; injection X as <-; lia|]. intros X. apply mi_bound0 in X. unfold i. lia.
    + intros x y j. cbn [find]. destruct (p =? x) eqn:E1, (p =? y) eqn:E2; intros X1 X2; [lia| | |now apply (mi_inj0 _ _ _ X1 X2)].
      * injection X1 as <-. apply mi_bound0 in X2. unfold i in X2. lia.
      * injection X2 as <-. apply mi_bound0 in X1. unfold i in X1. lia.
    + intros x. cbn [find]. destruct (p =? x) eqn:E1; [split; [eauto|intros _; left; lia]|]. rewrite <- mi_known0. split; [intros [->|H]; [rewrite N.eqb_refl in E1; discriminate|exact H]|auto].
    + intros x j. cbn [find]. destruct (p =? x) eqn:E1; intros X.
      * injection X as <-. apply N.eqb_eq in E1. subst x. rewrite GV by lia. rewrite Nat.eqb_refl. cbn [v_ty]. destruct (vt =? Void); [|unfold set_ty; now rewrite N.eqb_refl].
        symmetry. apply mi_void0. rewrite mi_known0. intros [j X]. congruence.
      * rewrite GV by (apply mi_bound0 in X; unfold i; lia). replace (j =? i)%nat with false by (apply mi_bound0 in X; unfold i; lia).
        rewrite (mi_ty0 _ _ X). destruct (vt =? Void); [reflexivity|]. unfold set_ty. replace (x =? p) with false by lia. reflexivity.
    + intros x H. assert (X : x <> p) by (intros ->; tauto). destruct (vt =? Void); [apply mi_void0; tauto|]. unfold set_ty. replace (x =? p) with false by lia. apply mi_void0. tauto.
    + assert (X : Forall (fun v => v_un v = false) (set_nth i {| v_un := false; v_in := None; v_ty := if vt =? Void then Void else vt |} (r_vars s ++ [var0]))).
      { clear -mi_init0. unfold i. generalize {| v_un := false; v_in := None; v_ty := if vt =? Void then Void else vt |}, (eq_refl : v_un {| v_un := false; v_in := None; v_ty := if vt =? Void then Void else vt |} = false).
        intros w W. clear -mi_init0 W. induction (r_vars s) as [|h l IH]; cbn [length app set_nth]; [constructor; auto|]. apply Forall_cons_iff in mi_init0 as [F1 F2]. constructor; auto. }
      exact X.
    + intros j Bj. rewrite GV by lia. destruct (Nat.eqb_spec j i) as [->|NE]; [|apply mi_in0; lia]. cbn [v_in]. destruct (Nat.ltb_spec i (length xs)); [unfold i in *; lia|reflexivity].
    + unfold i. lia.
    + intros x j. cbn [find]. destruct (p =? x) eqn:E1; [|apply mi_inputs0]. intros X. injection X as <-. right. apply N.eqb_eq in E1. subst x. split; [unfold i; lia|assumption].
Qed.

Lemma in_param_ok xs s known t lax p vt : minv xs s known t -> known p ->
  exists i, in_param lax s p vt = Some (s, {| o_slot := i; o_out := false; o_vt := if vt =? Void then t p else vt |}) /\ find p (r_map s) = Some i.
Proof.
  intros I H. pose proof H as H'. apply (mi_known _ _ _ _ I) in H' as [i E]. exists i. split; [|exact E].
  unfold in_param, add_variable. rewrite E. assert (U : v_un (get_var s i) = false).
  { pose proof (mi_init _ _ _ _ I) as F. rewrite Forall_forall in F. apply F. unfold get_var. apply nth_In. now apply (mi_bound _ _ _ _ I _ _ E). }
  destruct lax; cbn [option_map negb andb]; rewrite ?U, (mi_ty _ _ _ _ I _ _ E); reflexivity.
Qed.

(** Parameters of an operation *)
Definition link (s : rst) (t : tys) (a : arg) (o : oarg) : Prop :=
  o_out o = a_out a /\ o_vt o = (if a_out a then a_vt a else type_of t a) /\ find (a_p a) (r_map s) = Some (o_slot o).
Definition outs (l : list arg) : list N := map a_p (filter a_out l).
Lemma params_ok xs lax : forall l s known t, minv xs s known t ->
  (forall a, In a l -> a_out a = false -> known (a_p a)) -> (forall a, In a l -> a_out a = true -> ~ In (a_p a) xs) ->
  (forall a b, In a l -> In b l -> a_out a = true -> a_out b = false -> a_p a <> a_p b) ->
  exists s' os, params lax s l = Some (s', os) /\ minv xs s' (fun x => In x (outs l) \/ known x) (fold_left track1 l t) /\
    Forall2 (link s' t) l os /\ grows s s' /\ r_ops s' = r_ops s /\ r_ins s' = r_ins s /\ r_dry s' = r_dry s.
Proof.
  induction l as [|a l IH]; intros s known t I KI NX SEP; cbn [params fold_left].
  - exists s, []. split; [reflexivity|]. split; [eapply minv_ext; [exact I| |reflexivity]; cbn; tauto|]. split; [constructor|]. split; [apply grows_refl|auto].
  - destruct (a_out a) eqn:EO.
    + destruct (out_param_ok xs s known t (a_p a) (a_vt a) I (NX a (or_introl eq_refl) EO)) as (s1 & i & E1 & F1 & G1 & FR & Q1 & Q2 & Q3 & I1).
      rewrite E1. cbn [bind fst snd].
      edestruct (IH s1 _ _ I1) as (s2 & os & E2 & I2 & FL & G2 & P1 & P2 & P3).
      * intros b Hb Eb. right. apply KI; [now right|assumption].
      * intros b Hb. apply NX. now right.
      * intros b c Hb Hc. apply SEP; now right.
      * rewrite E2. cbn [bind fst snd]. eexists s2, _. split; [reflexivity|]. split.
        { eapply minv_ext; [exact I2| |].
          - intros x. unfold outs. cbn [filter]. rewrite EO. cbn [map In]. intuition auto.
          - intros x. unfold track1 at 3. rewrite EO. cbn [andb]. destruct (a_vt a =? Void); reflexivity. }
        split.
        { constructor; [|].
          - split; [now rewrite EO|]. rewrite EO. split; [reflexivity|]. cbn [o_slot]. apply G2. exact F1.
          - assert (NA : forall b, In b l -> a_out b = false -> a_p b <> a_p a) by (intros b Hb Eb X; apply (SEP a b (or_introl eq_refl) (or_intror Hb) EO Eb); auto).
            clear - FL NA. set (t1 := if a_vt a =? Void then t else set_ty t (a_p a) (a_vt a)) in *.
            assert (TE : forall b, In b l -> a_out b = false -> type_of t1 b = type_of t b).
            { intros b Hb Eb. unfold type_of. destruct (a_vt b =? Void); [|reflexivity]. unfold t1. destruct (a_vt a =? Void); [reflexivity|]. unfold set_ty. replace (a_p b =? a_p a) with false; [reflexivity|]. symmetry. apply N.eqb_neq. auto. }
            clearbody t1. clear NA. induction FL as [|b o l os L FL IHF]; [constructor|]. constructor; [|apply IHF; intros; apply TE; [now right|assumption]].
            destruct L as (L1 & L2 & L3). split; [exact L1|]. split; [|exact L3]. rewrite L2. destruct (a_out b) eqn:Eb; [reflexivity|]. apply TE; [now left|assumption]. }
        split; [eapply grows_trans; [|exact G1|exact G2]; apply (mi_bound _ _ _ _ I1)|]. split; [congruence|]. split; congruence.
    + destruct (in_param_ok xs s known t lax (a_p a) (a_vt a) I (KI a (or_introl eq_refl) EO)) as (i & E1 & F1).
      rewrite E1. cbn [bind fst snd].
      edestruct (IH s _ _ I) as (s2 & os & E2 & I2 & FL & G2 & P1 & P2 & P3).
      * intros b Hb Eb. apply KI; [now right|assumption].
      * intros b Hb. apply NX. now right.
      * intros b c Hb Hc. apply SEP; now right.
      * rewrite E2. cbn [bind fst snd]. eexists s2, _. split; [reflexivity|]. split.
        { eapply minv_ext; [exact I2| |].
          - intros x. unfold outs. cbn [filter]. rewrite EO. tauto.
          - intros x. unfold track1 at 3. rewrite EO. reflexivity. }
        split; [|auto]. constructor; [|exact FL]. split; [now rewrite EO|]. rewrite EO. split; [reflexivity|]. cbn [o_slot]. apply G2. exact F1.
Qed.
