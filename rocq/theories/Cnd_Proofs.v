From Verif Require Import Base Cnd_Model Cnd_Spec.
Local Open Scope N_scope.

Lemma existsb_lane w c k : k < w -> c k = true -> existsb c (lanes w) = true.
Proof.
  intros B E. apply existsb_exists. exists k. split; [|assumption].
  apply in_map_iff. exists (N.to_nat k). split; [apply N2Nat.id|]. apply in_seq. lia.
Qed.

Lemma llvm_ok w ct cf tv fv : exists ran r, llvm w ct cf tv fv 8 = Some (ran, r) /\
  (forall k i, k < w -> chosen (ct k) (cf k) (tv i k) (fv i k) (r i k)) /\
  (ran = (if existsb ct (lanes w) then [true] else []) ++ (if existsb cf (lanes w) then [false] else [])).
Proof.
  unfold llvm. cbn [run step s_at goto s_prev s_ran s_t s_f].
  destruct (existsb ct (lanes w)) eqn:ET; cbn [run step s_at goto s_prev s_ran s_t s_f];
  destruct (existsb cf (lanes w)) eqn:EF; cbn [run step s_at goto s_prev s_ran s_t s_f];
  (eexists _, _; split; [reflexivity|]; split; [|reflexivity];
   intros k i B; unfold chosen, selected; cbn [s_t s_f label_eqb]; split; [intros E|intros E E']; rewrite E; cbn;
   try reflexivity;
   try (rewrite (existsb_lane w ct k B E) in ET; discriminate);
   try (rewrite (existsb_lane w cf k B E') in EF; discriminate)).
Qed.

Lemma moves_ok branch act n r i : (i < n)%nat -> act i = true ->
  moves branch act n r (COut i) = (if branch then r (CT i) else r (CF i)).
Proof.
  intros B A. unfold moves.
  assert (G : forall l r, NoDup l -> In i l ->
    fold_left (fun r i => if act i then mov (COut i) (if branch then CT i else CF i) r else r) l r (COut i) = (if branch then r (CT i) else r (CF i))).
  { induction l as [|a l IH]; intros r0 ND HI; [destruct HI|]. inversion ND; subst. cbn [fold_left].
    destruct (Nat.eq_dec a i) as [->|NE].
    - rewrite A. clear IH HI.
      assert (G2 : forall l r, ~ In i l -> fold_left (fun r i => if act i then mov (COut i) (if branch then CT i else CF i) r else r) l r (COut i) = r (COut i)).
      { clear. induction l as [|b l IH]; intros r NI; [reflexivity|]. cbn [fold_left]. rewrite IH by (intros H; apply NI; now right).
        destruct (act b); [|reflexivity]. unfold mov. cbn [creg_eqb].
        destruct (Nat.eqb_spec i b); [subst; exfalso; apply NI; now left|reflexivity]. }
      rewrite G2 by assumption. unfold mov. cbn [creg_eqb]. rewrite Nat.eqb_refl. now destruct branch.
    - destruct HI as [E|HI]; [contradiction|]. rewrite IH by assumption.
      destruct (act a); [|reflexivity]. unfold mov. cbn [creg_eqb]. now destruct branch. }
  apply G; [apply seq_NoDup|apply in_seq; lia].
Qed.

Lemma thread_ok ct tv fv act n i k : (i < n)%nat -> act i = true ->
  fst (thread ct tv fv act n k) = ct k /\
  snd (thread ct tv fv act n k) (COut i) = Some (if ct k then tv i k else fv i k).
Proof.
  intros B A. unfold thread. destruct (ct k) eqn:E; cbn [fst snd]; (split; [reflexivity|]); now rewrite moves_ok.
Qed.

(** ** Construction *)
Definition entry_ok (st : list cvar) (size : N) (p : nat * nat) (r : ret) : Prop :=
  let '(t, f) := p in
  t <> O /\ f <> O /\
  exists vt vf, cget st t = Some vt /\ cget st f = Some vf /\
    ((r = RSame f /\ (t = f \/ c_dirty vf = true \/ same_lit vf vt = true)) \/
     (r = ROut (c_ty vt) size t f /\ t <> f /\ c_dirty vf = false /\ same_lit vf vt = false /\ compatible [size; c_size vt; c_size vf])).

Lemma size_check a b c : let lm := N.max (N.max a b) c in
  (negb (a =? lm) && negb (a =? 1)) || (negb (b =? lm) && negb (b =? 1)) || (negb (c =? lm) && negb (c =? 1)) = false <->
  compatible [a; b; c].
Proof.
  cbn zeta. split.
  - intros H. apply orb_false_iff in H. destruct H as [H H3]. apply orb_false_iff in H. destruct H as [H1 H2].
    exists (N.max (N.max a b) c). split.
    + cbn. destruct (N.max_spec (N.max a b) c) as [[_ ->]|[_ ->]]; [auto|]. destruct (N.max_spec a b) as [[_ ->]|[_ ->]]; auto.
    + intros n [<-|[<-|[<-|[]]]]; (split; [lia|]); [revert H1|revert H2|revert H3];
      (match goal with |- context [?x =? N.max (N.max a b) c] => destruct (N.eqb_spec x (N.max (N.max a b) c)); [auto|]; destruct (N.eqb_spec x 1); [auto|discriminate] end).
  - intros (m & HI & HA).
    destruct (HA a (or_introl eq_refl)) as [L1 A1]. destruct (HA b (or_intror (or_introl eq_refl))) as [L2 A2].
    destruct (HA c (or_intror (or_intror (or_introl eq_refl)))) as [L3 A3].
    assert (M : N.max (N.max a b) c = m) by (destruct HI as [<-|[<-|[<-|[]]]]; lia).
    rewrite M.
    assert (F : forall x, x = m \/ x = 1 -> negb (x =? m) && negb (x =? 1) = false).
    { intros x [->| ->]; [now rewrite N.eqb_refl|apply andb_false_r]. }
    now rewrite !F.
Qed.

Lemma cond_outs_ok st size : forall rv acc outs, cond_outs st size rv acc = CEnd outs ->
  exists rs, outs = acc ++ rs /\ Forall2 (entry_ok st size) rv rs.
Proof.
  induction rv as [|[t f] rv IH]; intros acc outs H; cbn [cond_outs] in H.
  - injection H as <-. exists []. split; [now rewrite app_nil_r|constructor].
  - destruct (Nat.eqb_spec t 0) as [|Nt]; [discriminate|]. destruct (Nat.eqb_spec f 0) as [|Nf]; [discriminate|]. cbn [orb] in H.
    destruct (cget st t) as [vt|] eqn:Et; [|discriminate]. destruct (cget st f) as [vf|] eqn:Ef; [|discriminate].
    destruct (Nat.eqb t f || c_dirty vf || same_lit vf vt) eqn:ES.
    + apply IH in H. destruct H as (rs & -> & F). exists (RSame f :: rs). split; [now rewrite <- app_assoc|].
      constructor; [|assumption]. split; [assumption|]. split; [assumption|]. exists vt, vf. split; [assumption|]. split; [assumption|].
      left. split; [reflexivity|]. apply orb_true_iff in ES. destruct ES as [ES|ES]; [apply orb_true_iff in ES; destruct ES as [ES|ES]|]; auto.
      left. now apply Nat.eqb_eq.
    + match type of H with context [if ?c then _ else _] => destruct c eqn:EC; [discriminate|] end.
      apply size_check in EC.
      apply IH in H. destruct H as (rs & -> & F). exists (ROut (c_ty vt) size t f :: rs). split; [now rewrite <- app_assoc|].
      constructor; [|assumption]. split; [assumption|]. split; [assumption|]. exists vt, vf. split; [assumption|]. split; [assumption|].
      apply orb_false_iff in ES. destruct ES as [ES E3]. apply orb_false_iff in ES. destruct ES as [E1 E2].
      right. repeat (split; [first [reflexivity|assumption|now apply Nat.eqb_neq]|]). assumption.
Qed.

Lemma cond_outs_total st size : forall rv acc,
  Forall (fun p => fst p <> O /\ snd p <> O /\ exists vt vf, cget st (fst p) = Some vt /\ cget st (snd p) = Some vf /\
    (fst p = snd p \/ c_dirty vf = true \/ same_lit vf vt = true \/ compatible [size; c_size vt; c_size vf])) rv ->
  exists outs, cond_outs st size rv acc = CEnd outs.
Proof.
  induction rv as [|[t f] rv IH]; intros acc H; [now exists acc|].
  inversion H as [|? ? (Nt & Nf & vt & vf & Et & Ef & D) HR]; subst. cbn [fst snd] in *. cbn [cond_outs].
  replace (Nat.eqb t 0) with false by (symmetry; now apply Nat.eqb_neq).
  replace (Nat.eqb f 0) with false by (symmetry; now apply Nat.eqb_neq). cbn [orb].
  rewrite Et, Ef. destruct (Nat.eqb_spec t f) as [->|NE]; [apply IH; assumption|].
  destruct (c_dirty vf) eqn:ED; [apply IH; assumption|]. destruct (same_lit vf vt) eqn:EL; [apply IH; assumption|]. cbn [orb].
  destruct D as [D|[D|[D|D]]]; try congruence. apply size_check in D. cbn zeta in D. rewrite D. apply IH. assumption.
Qed.

Lemma cond_end_ok st size ts fs outs : cond_end st size ts fs = CEnd outs ->
  length ts = length fs /\ Forall2 (entry_ok st size) (combine ts fs) outs.
Proof.
  unfold cond_end. destruct (Nat.eqb_spec (length ts) (length fs)) as [E|]; [|discriminate]. cbn [negb]. intros H.
  apply cond_outs_ok in H. destruct H as (rs & -> & F). now split.
Qed.

Lemma nth_combine {A B} (l : list A) (m : list B) i a b : nth_error l i = Some a -> nth_error m i = Some b -> nth_error (combine l m) i = Some (a, b).
Proof. revert m i. induction l as [|x l IH]; intros [|y m] [|i]; cbn; try discriminate; [intros [= ->] [= ->]; reflexivity|apply IH]. Qed.
Lemma Forall2_nth {A B} (P : A -> B -> Prop) l m : Forall2 P l m -> forall i a, nth_error l i = Some a -> exists b, nth_error m i = Some b /\ P a b.
Proof. induction 1; intros [|i] z; cbn; try discriminate; [intros [= <-]; eauto|apply IHForall2]. Qed.

Lemma entry_of st size ts fs outs i t f : cond_end st size ts fs = CEnd outs ->
  nth_error ts i = Some t -> nth_error fs i = Some f -> exists r, nth_error outs i = Some r /\ entry_ok st size (t, f) r.
Proof.
  intros H Ht Hf. apply cond_end_ok in H. destruct H as [_ H]. exact (Forall2_nth _ _ _ H i _ (nth_combine _ _ _ _ _ Ht Hf)).
Qed.

Lemma cget_In st h v : cget st h = Some v -> In v st.
Proof. destruct h; [discriminate|]. apply nth_error_In. Qed.

Lemma same_value st t f vt vf k : literals st -> cget st t = Some vt -> cget st f = Some vf ->
  t = f \/ same_lit vf vt = true -> c_val vt k = c_val vf k.
Proof.
  intros L Et Ef [->|S]; [congruence|]. unfold same_lit in S.
  destruct (c_lit vf) as [x|] eqn:E1; [|discriminate]. destruct (c_lit vt) as [y|] eqn:E2; [|discriminate].
  apply N.eqb_eq in S. rewrite (L vt y), (L vf x); eauto using cget_In.
Qed.

Lemma llvm_values st size ts fs outs w ct cf i t f vt vf k : literals st ->
  cond_end st size ts fs = CEnd outs -> nth_error ts i = Some t -> nth_error fs i = Some f ->
  cget st t = Some vt -> cget st f = Some vf -> c_dirty vf = false -> k < w ->
  chosen (ct k) (cf k) (c_val vt k) (c_val vf k) (value_llvm st outs w ct cf i k).
Proof.
  intros L H Ht Hf Et Ef D B. destruct (entry_of _ _ _ _ _ _ _ _ H Ht Hf) as (r & Er & _ & _ & vt' & vf' & Et' & Ef' & C).
  rewrite Et in Et'. injection Et' as <-. rewrite Ef in Ef'. injection Ef' as <-.
  unfold value_llvm. rewrite Er. destruct C as [[-> C]|(-> & _)].
  - rewrite Ef. unfold chosen. rewrite (same_value st t f vt vf k L Et Ef); [auto|]. destruct C as [C|[C|C]]; [auto|congruence|auto].
  - destruct (llvm_ok w ct cf (tval_of st outs) (fval_of st outs)) as (ran & res & E & V & _). rewrite E. cbn [bind snd].
    specialize (V k i B). unfold tval_of, fval_of in V. rewrite Er in V. unfold val in V. rewrite Et, Ef in V. exact V.
Qed.

Lemma thread_values st size ts fs outs act ct i t f vt vf k : literals st ->
  cond_end st size ts fs = CEnd outs -> nth_error ts i = Some t -> nth_error fs i = Some f ->
  cget st t = Some vt -> cget st f = Some vf -> c_dirty vf = false -> act i = true ->
  value_thread st outs ct act i k = Some (if ct k then c_val vt k else c_val vf k).
Proof.
  intros L H Ht Hf Et Ef D A. destruct (entry_of _ _ _ _ _ _ _ _ H Ht Hf) as (r & Er & _ & _ & vt' & vf' & Et' & Ef' & C).
  rewrite Et in Et'. injection Et' as <-. rewrite Ef in Ef'. injection Ef' as <-.
  unfold value_thread. rewrite Er. destruct C as [[-> C]|(-> & _)].
  - rewrite Ef. rewrite (same_value st t f vt vf k L Et Ef) by (destruct C as [C|[C|C]]; [auto|congruence|auto]). now destruct (ct k).
  - destruct (thread_ok ct (tval_of st outs) (fval_of st outs) act (length outs) i k) as [_ E]; [apply nth_error_Some; congruence|assumption|].
    rewrite E. unfold tval_of, fval_of. rewrite Er. unfold val. now rewrite Et, Ef.
Qed.

Lemma shapes st size ts fs outs i t f vt vf :
  cond_end st size ts fs = CEnd outs -> nth_error ts i = Some t -> nth_error fs i = Some f ->
  cget st t = Some vt -> cget st f = Some vf -> c_dirty vf = false -> c_ty vt = c_ty vf ->
  exists r, nth_error outs i = Some r /\ ret_type st r = c_ty vt /\
    (agree t f vt vf -> ret_size st r = c_size vf) /\
    (~ agree t f vt vf -> ret_size st r = size /\ (size <> 1 \/ c_size vt = 1 /\ c_size vf = 1 ->
       assembles st r = true /\ c_size vt <= size /\ c_size vf <= size)).
Proof.
  intros H Ht Hf Et Ef D T. destruct (entry_of _ _ _ _ _ _ _ _ H Ht Hf) as (r & Er & _ & _ & vt' & vf' & Et' & Ef' & C).
  rewrite Et in Et'. injection Et' as <-. rewrite Ef in Ef'. injection Ef' as <-. exists r. split; [assumption|].
  assert (SL : same_lit vf vt = true <-> exists x, c_lit vt = Some x /\ c_lit vf = Some x).
  { unfold same_lit. destruct (c_lit vf) as [x|], (c_lit vt) as [y|]; split; try discriminate; try (now intros (? & [= <-] & ?)); try (now intros (? & ? & [= <-])).
    - intros E. apply N.eqb_eq in E. subst. eauto.
    - intros (z & [= <-] & [= <-]). apply N.eqb_refl.
    }
  destruct C as [[-> C]|(-> & NE & _ & NL & CP)].
  - cbn [ret_type ret_size]. rewrite Ef. split; [now symmetry|]. split; [reflexivity|]. intros NA. exfalso. apply NA.
    destruct C as [C|[C|C]]; [now left|congruence|right; now apply SL].
  - cbn [ret_type ret_size]. split; [reflexivity|]. split.
    + intros [A|A]; [contradiction|]. apply SL in A. congruence.
    + intros _. split; [reflexivity|]. intros SZ. destruct CP as (m & HI & HA).
      destruct (HA size (or_introl eq_refl)) as [L1 A1]. destruct (HA (c_size vt) (or_intror (or_introl eq_refl))) as [L2 A2].
      destruct (HA (c_size vf) (or_intror (or_intror (or_introl eq_refl)))) as [L3 A3].
      assert (size = m \/ size = 1 /\ m = 1) as SM by (cbn in HI; lia).
      cbn [assembles]. rewrite Et, Ef. cbn [fits].
      assert (E1 : (c_size vt =? 1) || (c_size vt =? size) = true).
      { apply orb_true_iff. rewrite !N.eqb_eq. lia. }
      assert (E2 : (c_size vf =? 1) || (c_size vf =? size) = true).
      { apply orb_true_iff. rewrite !N.eqb_eq. lia. }
      rewrite E1, E2. split; [reflexivity|]. lia.
Qed.

(** ** Side effects *)
Lemma traverse_all size l g : traverse_se size l = (g, false) -> g = map fst l.
Proof.
  revert g. induction l as [|[i n] l IH]; intros g; cbn [traverse_se].
  - now intros [= <-].
  - destruct (negb (size =? n) && negb (n =? 1) && negb (size =? 1)); [discriminate|].
    destruct (traverse_se size l) as [g' r'] eqn:E. intros [= <- ->]. cbn. now rewrite (IH g').
Qed.
Lemma effects_ok size se_t se_f g left_ : cond_effects size se_t se_f = (g, left_, false) -> g = map fst (se_t ++ se_f) /\ left_ = [].
Proof.
  unfold cond_effects. destruct (traverse_se size se_t) as [a ra] eqn:Ea. destruct ra; [discriminate|].
  destruct (traverse_se size se_f) as [b rb] eqn:Eb. destruct rb; [discriminate|]. intros [= <- <-].
  apply traverse_all in Ea. apply traverse_all in Eb. subst. now rewrite map_app.
Qed.
Lemma effects_accept size se_t se_f : (forall i n, In (i, n) (se_t ++ se_f) -> compatible [size; n]) ->
  cond_effects size se_t se_f = (map fst (se_t ++ se_f), [], false).
Proof.
  intros H. assert (G : forall l, (forall i n, In (i, n) l -> compatible [size; n]) -> traverse_se size l = (map fst l, false)).
  { induction l as [|[i n] l IH]; intros HL; [reflexivity|]. cbn [traverse_se].
    destruct (HL i n (or_introl eq_refl)) as (m & HI & HA).
    destruct (HA size (or_introl eq_refl)) as [_ A1]. destruct (HA n (or_intror (or_introl eq_refl))) as [_ A2].
    assert (E : negb (size =? n) && negb (n =? 1) && negb (size =? 1) = false).
    { destruct (N.eqb_spec size n); [reflexivity|]. destruct (N.eqb_spec n 1); [reflexivity|]. destruct (N.eqb_spec size 1); [reflexivity|]. lia. }
    rewrite E, IH; [reflexivity|]. intros j m' HJ. apply (HL j). now right. }
  unfold cond_effects. rewrite !G; [now rewrite map_app| |]; intros i n HI; apply (H i); apply in_or_app; auto.
Qed.

Lemma effect_lanes_ok w ct cf tv fv ran r : llvm w ct cf tv fv 8 = Some (ran, r) ->
  effect_lanes w ct cf ran true = filter ct (lanes w) /\ effect_lanes w ct cf ran false = filter cf (lanes w).
Proof.
  assert (Z : forall c, existsb c (lanes w) = false -> filter c (lanes w) = []).
  { intros c. induction (lanes w) as [|k l IH]; [reflexivity|]. cbn. destruct (c k); [discriminate|]. exact IH. }
  intros H. destruct (llvm_ok w ct cf tv fv) as (ran' & r' & E & _ & R). rewrite E in H. injection H as <- <-.
  unfold effect_lanes. rewrite R.
  destruct (existsb ct (lanes w)) eqn:ET, (existsb cf (lanes w)) eqn:EF; (split; cbn; try reflexivity; symmetry; apply Z; assumption).
Qed.

Lemma accepts st size ts fs :
  (exists outs, cond_end st size ts fs = CEnd outs) <->
  length ts = length fs /\ forall i t f, nth_error ts i = Some t -> nth_error fs i = Some f ->
    exists vt vf, cget st t = Some vt /\ cget st f = Some vf /\
      (agree t f vt vf \/ c_dirty vf = true \/ compatible [size; c_size vt; c_size vf]).
Proof.
  split.
  - intros [outs H]. split; [now apply cond_end_ok in H|]. intros i t f Ht Hf.
    destruct (entry_of _ _ _ _ _ _ _ _ H Ht Hf) as (r & _ & _ & _ & vt & vf & Et & Ef & C). exists vt, vf. split; [assumption|]. split; [assumption|].
    destruct C as [[_ [C|[C|C]]]|(_ & _ & _ & _ & C)]; auto; [left; now left|].
    left. right. unfold same_lit in C. destruct (c_lit vf) as [x|]; [|discriminate]. destruct (c_lit vt) as [y|]; [|discriminate].
    apply N.eqb_eq in C. subst. eauto.
  - intros [EL H]. unfold cond_end. rewrite EL, Nat.eqb_refl. cbn [negb]. apply cond_outs_total.
    apply Forall_forall. intros [t f] HI. apply In_nth_error in HI. destruct HI as [i Hi]. cbn [fst snd].
    assert (G : forall (l m : list nat) i, nth_error (combine l m) i = Some (t, f) -> nth_error l i = Some t /\ nth_error m i = Some f).
    { clear. induction l as [|a l IH]; intros [|b m] [|i]; cbn; try discriminate; [intros [= -> ->]; auto|apply IH]. }
    apply G in Hi. destruct Hi as [Ht Hf]. destruct (H i t f Ht Hf) as (vt & vf & Et & Ef & C).
    split; [now destruct t|]. split; [now destruct f|]. exists vt, vf. split; [assumption|]. split; [assumption|].
    destruct C as [[C|(x & C1 & C2)]|[C|C]]; auto. right. right. left. unfold same_lit. rewrite C1, C2. apply N.eqb_refl.
Qed.

Lemma thread_branch ct tv fv act n k : fst (thread ct tv fv act n k) = ct k.
Proof. unfold thread. now destruct (ct k). Qed.

Lemma llvm_blocks : valid emit = true /\ forall w ct cf tv fv,
  exists ran r, llvm w ct cf tv fv 8 = Some (ran, r) /\
    (In true ran <-> exists k, In k (lanes w) /\ ct k = true) /\ (In false ran <-> exists k, In k (lanes w) /\ cf k = true) /\ NoDup ran.
Proof.
  split; [reflexivity|]. intros w ct cf tv fv. destruct (llvm_ok w ct cf tv fv) as (ran & r & E & _ & ->).
  exists ((if existsb ct (lanes w) then [true] else []) ++ (if existsb cf (lanes w) then [false] else [])), r. split; [assumption|].
  rewrite <- !existsb_exists.
  destruct (existsb ct (lanes w)), (existsb cf (lanes w)); cbn; (split; [split; intros; intuition discriminate|]);
    (split; [split; intros; intuition discriminate|]); repeat constructor; cbn; intuition discriminate.
Qed.

Lemma effects_kept size se_t se_f g l r : cond_effects size se_t se_f = (g, l, r) -> incl (map fst (se_t ++ se_f)) (g ++ l).
Proof.
  assert (G : forall l a, traverse_se size l = (a, false) -> a = map fst l).
  { clear. induction l as [|[i n] l IH]; intros a; cbn [traverse_se]. - now injection 1 as <-.
    - destruct (_ && _ && _); [discriminate|]. destruct (traverse_se size l) as [b rb]. injection 1 as <- ->.
      cbn. f_equal. now apply IH. }
  unfold cond_effects. destruct (traverse_se size se_t) as [a ra] eqn:Ea. destruct ra.
  - injection 1 as <- <- <-. rewrite map_app. intros i H. apply in_or_app. now right.
  - apply G in Ea. subst a. destruct (traverse_se size se_f) as [b rb] eqn:Eb. destruct rb.
    + injection 1 as <- <- <-. rewrite map_app. intros i H. apply in_app_or in H. destruct H as [H|H]; rewrite !in_app_iff; auto.
    + injection 1 as <- <- <-. apply G in Eb. subst b. rewrite map_app. intros i H. rewrite !in_app_iff in *. tauto.
Qed.
