From Verif Require Import Base Cpy_Model.
Local Open Scope N_scope.

Section Proofs.
Variables (live b8 : N -> bool) (via16 : bool).
Notation skip := (skip live). Notation temps := (temps live). Notation moves := (moves live). Notation marked := (marked live).
Notation irun := (irun b8 via16). Notation file := (file b8 via16).

Lemma mem_in x l : mem x l = true <-> In x l.
Proof. unfold mem. rewrite existsb_exists. split; [intros (y & H & E); apply N.eqb_eq in E; now subst|intros H; exists x; split; [assumption|apply N.eqb_refl]]. Qed.
Lemma irun_app is1 is2 : forall m, irun m (is1 ++ is2) = bind (irun m is1) (fun m => irun m is2).
Proof. induction is1 as [|i is1 IH]; intros m; cbn [app Cpy_Model.irun]; [reflexivity|]. destruct (istep b8 via16 m i); cbn [bind]; [apply IH|reflexivity]. Qed.

(** First phase: temporaries of all marked outputs, registers unchanged *)
Lemma temps_spec marks : forall pairs tmps is tmps', temps marks pairs tmps = (is, tmps') ->
  (forall x, In x tmps' <-> In x tmps \/ exists i, In (i, x) pairs /\ skip (i, x) = false /\ mem x marks = true) /\
  (forall r t, (forall x, In x tmps -> t (file x) x = Some (r x)) -> exists t', irun (r, t) is = Some (r, t') /\ forall x, In x tmps' -> t' (file x) x = Some (r x)).
Proof.
  induction pairs as [|[i o] pairs IH]; intros tmps is tmps' H; cbn [Cpy_Model.temps] in H.
  - injection H as <- <-. split; [intros x; split; [now left|intros [H|(i & [] & _)]; assumption]|]. intros r t Ht. exists t. split; [reflexivity|assumption].
  - destruct (skip (i, o) || negb (mem o marks && negb (mem o tmps))) eqn:E.
    + destruct (IH _ _ _ H) as [A B]. split; [|assumption]. intros x. rewrite A. split.
      * intros [Hx|(j & Hj & Hs)]; [now left|right; exists j; split; [now right|assumption]].
      * intros [Hx|(j & [Hj|Hj] & Hs & Hm)]; [now left| |right; exists j; repeat split; assumption]. injection Hj as -> ->. rewrite Hs, Hm in E. cbn [orb andb] in E. rewrite Bool.negb_involutive in E. left. now apply mem_in.
    + destruct (temps marks pairs (o :: tmps)) as [is0 tm0] eqn:Et. injection H as <- <-. destruct (IH _ _ _ Et) as [A B].
      apply Bool.orb_false_iff in E as [E1 E2]. apply Bool.negb_false_iff in E2. apply Bool.andb_true_iff in E2 as [E2 E3]. split.
      * intros x. rewrite A. cbn [In]. split.
        { intros [[<-|Hx]|(j & Hj & Hs)]; [right; exists i; repeat split; [now left|assumption..]|now left|right; exists j; split; [now right|assumption]]. }
        { intros [Hx|(j & [Hj|Hj] & Hs & Hm)]; [left; now right|injection Hj as -> ->; left; now left|right; exists j; repeat split; assumption]. }
      * intros r t Ht. destruct (B r (set2 t (file o) o (r o))) as (t' & R & T').
        { intros x Hx. unfold set2. destruct (x =? o) eqn:Ex; [apply N.eqb_eq in Ex; subst x; rewrite Bool.eqb_reflx; reflexivity|]. rewrite Bool.andb_false_r. apply Ht. destruct Hx as [<-|Hx]; [rewrite N.eqb_refl in Ex; discriminate|assumption]. }
        exists t'. split; [|assumption]. cbn [Cpy_Model.irun istep bind]. exact R.
Qed.

(** Second phase.  [r0]: registers before; outputs without temporaries are never written *)
Lemma moves_spec (r0 : N -> N) tmps : forall pairs, (forall p, In p pairs -> b8 (fst p) = b8 (snd p)) ->
  forall r t, (forall x, In x tmps -> t (file x) x = Some (r0 x)) ->
  (forall i o, In (i, o) pairs -> skip (i, o) = false -> mem o tmps = false -> r o = r0 o /\ forall p, In p pairs -> skip p = false -> fst p <> o) ->
  exists r' t', irun (r, t) (moves tmps pairs) = Some (r', t') /\
    (forall x, (forall p, In p pairs -> skip p = false -> fst p <> x) -> r' x = r x) /\
    (forall i o, In (i, o) pairs -> skip (i, o) = false -> exists o', In (i, o') pairs /\ skip (i, o') = false /\ r' i = r0 o').
Proof.
  induction pairs as [|[i o] pairs IH]; intros Hb r t Ht Ho.
  - exists r, t. split; [reflexivity|]. split; [reflexivity|intros i o []].
  - assert (Hb' : forall p, In p pairs -> b8 (fst p) = b8 (snd p)) by (intros p Hp; apply Hb; now right).
    cbn [Cpy_Model.moves]. destruct (skip (i, o)) eqn:Es.
    + destruct (IH Hb' r t Ht) as (r' & t' & R & U & W).
      { intros a b Hin Hs Hm. destruct (Ho a b (or_intror Hin) Hs Hm) as [X Y]. split; [assumption|]. intros p Hp. apply Y. now right. }
      exists r', t'. split; [exact R|]. split; [intros x Hx; apply U; intros p Hp; apply Hx; now right|].
      intros a b [Hin|Hin] Hs; [injection Hin as -> ->; congruence|]. destruct (W a b Hin Hs) as (o' & X & Y). exists o'. split; [now right|assumption].
    + (* value moved *)
      assert (V : exists t1, istep b8 via16 (r, t) (if mem o tmps then IMovTmp i o else IMov i o) = Some (set r i (r0 o), t1) /\ forall x, In x tmps -> t1 (file x) x = Some (r0 x)).
      { pose proof (Hb (i, o) (or_introl eq_refl)) as Hio. cbn [fst snd] in Hio. destruct (mem o tmps) eqn:Em.
        - exists t. split; [|assumption]. cbn [istep]. replace (file i) with (file o) by (unfold Cpy_Model.file; now rewrite Hio). rewrite (Ht o (proj1 (mem_in _ _) Em)). reflexivity.
        - destruct (Ho i o (or_introl eq_refl) Es Em) as [X _]. cbn [istep]. rewrite X. eexists. split; [reflexivity|]. intros x Hx. destruct (file i); [|now apply Ht]. unfold set2. destruct (x =? o) eqn:Ex.
          + apply N.eqb_eq in Ex. subst x. apply mem_in in Hx. congruence.
          + rewrite Bool.andb_false_r. now apply Ht. }
      destruct V as (t1 & S1 & T1). destruct (IH Hb' (set r i (r0 o)) t1 T1) as (r' & t' & R & U & W).
      { intros a b Hin Hs Hm. destruct (Ho a b (or_intror Hin) Hs Hm) as [X Y]. split; [|intros p Hp; apply Y; now right]. unfold set. destruct (b =? i) eqn:Eb; [|assumption]. apply N.eqb_eq in Eb. exfalso. exact (Y (i, o) (or_introl eq_refl) Es (eq_sym Eb)). }
      exists r', t'. split; [cbn [Cpy_Model.irun]; rewrite S1; exact R|]. split.
      * intros x Hx. rewrite U by (intros p Hp; apply Hx; now right). unfold set. destruct (x =? i) eqn:Ex; [|reflexivity]. apply N.eqb_eq in Ex. exfalso. exact (Hx (i, o) (or_introl eq_refl) Es (eq_sym Ex)).
      * intros a b Hin Hs. destruct (existsb (fun p => (fst p =? a) && negb (skip p)) pairs) eqn:Ea.
        { apply existsb_exists in Ea as ([a' b'] & Hp & E). cbn [fst] in E. apply Bool.andb_true_iff in E as [E1 E2]. apply N.eqb_eq in E1. subst a'. apply Bool.negb_true_iff in E2. destruct (W a b' Hp E2) as (o' & X & Y). exists o'. split; [now right|assumption]. }
        { destruct Hin as [Hin|Hin].
          - injection Hin as -> ->. exists b. split; [now left|]. split; [assumption|]. rewrite U.
            + unfold set. now rewrite N.eqb_refl.
            + intros p Hp Hsp E. rewrite <- Bool.not_true_iff_false in Ea. apply Ea. apply existsb_exists. exists p. split; [assumption|]. rewrite E, N.eqb_refl, Hsp. reflexivity.
          - exfalso. rewrite <- Bool.not_true_iff_false in Ea. apply Ea. apply existsb_exists. exists (a, b). split; [assumption|]. cbn [fst]. rewrite N.eqb_refl, Hs. reflexivity. }
Qed.

Lemma render_ok pairs : (forall p, In p pairs -> b8 (fst p) = b8 (snd p)) ->
  (forall i o o', In (i, o) pairs -> In (i, o') pairs -> o = o') -> forall r t,
  exists r' t', irun (r, t) (render live pairs) = Some (r', t') /\
    (forall i o, In (i, o) pairs -> live i = true -> live o = true -> r' i = r o) /\
    (forall x, (forall o, In (x, o) pairs -> live x = false \/ live o = false) -> r' x = r x).
Proof.
  intros Hb Hf r t. unfold render. destruct (temps (marked pairs) pairs []) as [is tmps] eqn:E. destruct (temps_spec _ _ _ _ _ E) as [A B].
  destruct (B r t ltac:(intros x [])) as (t1 & R1 & T1). destruct (moves_spec r tmps pairs Hb r t1 T1) as (r' & t' & R2 & U & W).
  { intros i o Hin Hs Hm. split; [reflexivity|]. intros p Hp Hsp Ep. rewrite <- Bool.not_true_iff_false, mem_in in Hm. apply Hm, A. right. exists i. repeat split; try assumption. apply mem_in. unfold Cpy_Model.marked. apply in_map_iff. exists p. split; [assumption|]. apply filter_In. now rewrite Hsp. }
  exists r', t'. split; [rewrite irun_app, R1; cbn [bind]; exact R2|]. split.
  - intros i o Hin Li Lo. destruct (skip (i, o)) eqn:Es.
    + unfold Cpy_Model.skip in Es. rewrite Li, Lo in Es. cbn [negb orb] in Es. rewrite !Bool.orb_false_r in Es. apply N.eqb_eq in Es. subst o. apply U. intros [a b] Hp Hsp Ea. cbn [fst] in Ea. subst a. rewrite (Hf _ _ _ Hp Hin) in Hsp. unfold Cpy_Model.skip in Hsp. rewrite N.eqb_refl in Hsp. discriminate Hsp.
    + destruct (W i o Hin Es) as (o' & X & _ & ->). now rewrite (Hf _ _ _ X Hin).
  - intros x Hx. apply U. intros [a b] Hp Hs Ea. cbn [fst] in Ea. subst a. unfold Cpy_Model.skip in Hs. destruct (Hx b Hp) as [L|L]; rewrite L in Hs; cbn [negb] in Hs; rewrite ?Bool.orb_true_r in Hs; discriminate Hs.
Qed.

(** Every temporary is declared once *)
Definition declared (is : list instr) : list N := flat_map (fun i => match i with ITmp o => [o] | _ => [] end) is.
Lemma temps_once marks : forall pairs tmps is tmps', temps marks pairs tmps = (is, tmps') -> NoDup (declared is) /\ forall x, In x (declared is) -> ~ In x tmps.
Proof.
  induction pairs as [|[i o] pairs IH]; intros tmps is tmps' H; cbn [Cpy_Model.temps] in H.
  - injection H as <- <-. split; [constructor|intros x []].
  - destruct (skip (i, o) || negb (mem o marks && negb (mem o tmps))) eqn:E; [exact (IH _ _ _ H)|].
    destruct (temps marks pairs (o :: tmps)) as [is0 tm0] eqn:Et. injection H as <- <-. destruct (IH _ _ _ Et) as [A B]. apply Bool.orb_false_iff in E as [_ E]. apply Bool.negb_false_iff in E. apply Bool.andb_true_iff in E as [_ E]. apply Bool.negb_true_iff in E.
    cbn [declared flat_map app]. fold (declared is0). split.
    + constructor; [|assumption]. intros X. exact (B _ X (or_introl eq_refl)).
    + intros x [<-|Hx]; [intros X; apply mem_in in X; congruence|]. intros X. exact (B _ Hx (or_intror X)).
Qed.
Lemma render_once pairs : NoDup (declared (render live pairs)).
Proof.
  unfold render. destruct (temps (marked pairs) pairs []) as [is tmps] eqn:E. destruct (temps_once _ _ _ _ _ E) as [A _]. unfold declared. rewrite flat_map_app. fold (declared is).
  replace (flat_map _ (moves tmps pairs)) with (@nil N); [now rewrite app_nil_r|]. clear. induction pairs as [|[i o] pairs IH]; cbn [Cpy_Model.moves flat_map]; [reflexivity|]. destruct (skip (i, o)); [assumption|]. cbn [flat_map]. rewrite <- IH. destruct (mem o tmps); reflexivity.
Qed.
End Proofs.
