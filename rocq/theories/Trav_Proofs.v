From Verif Require Import Base Sched_Model Trav_Model Trav_Spec.
Local Open Scope nat_scope.

(** ** Stamps *)
Lemma stamp_0 : forall gen, stamp gen 0 = (2 * gen + 1)%N.
Proof. intros gen. unfold stamp. cbn [Nat.eqb]. destruct gen; reflexivity. Qed.
Lemma stamp_S : forall gen d, stamp gen (S d) = (2 * gen)%N.
Proof. intros gen d. unfold stamp. cbn [Nat.eqb]. rewrite N.lor_0_r. destruct gen; reflexivity. Qed.
Lemma stamp_lor : forall gen d, N.lor (stamp gen d) 1 = (2 * gen + 1)%N.
Proof. intros gen [|d]; unfold stamp; cbn [Nat.eqb]; destruct gen; reflexivity. Qed.

Definition seen (gen : N) (f : nat -> N) (p : nat * nat) : Prop :=
  f (fst p) = (2 * gen + 1)%N \/ (snd p <> 0 /\ f (fst p) = (2 * gen)%N).
Lemma seen_test : forall gen f i d,
  ((f i =? stamp gen d)%N || (negb (d =? 0) && (f i =? N.lor (stamp gen d) 1)%N))%bool = true <-> seen gen f (i, d).
Proof.
  intros gen f i d. rewrite stamp_lor. unfold seen. cbn [fst snd]. rewrite orb_true_iff, andb_true_iff, !N.eqb_eq, negb_true_iff, Nat.eqb_neq.
  destruct d as [|d]; [rewrite stamp_0|rewrite stamp_S]; intuition lia.
Qed.
Definition covers (p q : nat * nat) : Prop := fst p = fst q /\ (snd q = 0 -> snd p = 0).
Lemma seen_mark : forall gen s i d, ~ seen gen (scratch s) (i, d) ->
  forall q, seen gen (scratch (mark s i (stamp gen d))) q <-> seen gen (scratch s) q \/ covers (i, d) q.
Proof.
  intros gen s i d NS [j e]. unfold seen, covers in *. cbn [fst snd scratch mark] in *. unfold fset.
  destruct (Nat.eqb_spec j i) as [->|NE].
  - destruct d as [|d]; [rewrite stamp_0|rewrite stamp_S].
    + split; [intros _; right; auto|]. intros _. left. reflexivity.
    + destruct e as [|e].
      * split; [intros [H|[H _]]; [exfalso; clear - H; lia|congruence]|]. intros [[H|[H _]]|[_ H]]; [|congruence|specialize (H eq_refl); discriminate].
        exfalso. apply NS. left. exact H.
      * split; [intros _; right; split; [reflexivity|discriminate]|]. intros _. right. split; [discriminate|reflexivity].
  - split; [intros H; left; exact H|]. intros [H|[H _]]; [exact H|congruence].
Qed.

Section G.
Variable g : list node.
Variable gen : N.
Variable size : N.
Notation has := (has g).
Notation operand := (operand g).
Notation feedback := (feedback g).
Notation seen_s s := (seen gen (scratch s)).

Definition liv (i : nat) : Prop := forall v, has i v -> live v.

Lemma acts_spec : forall i v d l, has i v -> live v -> n_kind v <> CallInput -> prelude v d = Some l ->
  (forall j e, In (Visit j e) (l ++ deps v d) <-> operand (i, d) (j, e)) /\
  (forall j e, In (Defer j e) (l ++ deps v d) <-> feedback (i, d) (j, e)).
Proof.
  intros i v d l H L NC P.
  assert (DV : forall j e, In (Visit j e) (deps v d) <-> e = d /\ In j (n_dep v)).
  { intros j e. unfold deps. rewrite in_map_iff. split; [intros (x & E & I); injection E as -> ->; auto|intros [-> I]; exists j; auto]. }
  assert (DD : forall j e, ~ In (Defer j e) (deps v d)).
  { intros j e. unfold deps. rewrite in_map_iff. intros (x & E & _). discriminate. }
  assert (MV : forall l' k j e, In (Visit j e) (map (fun i => Visit i k) l') <-> e = k /\ In j l').
  { intros l' k j e. rewrite in_map_iff. split; [intros (x & E & I); injection E as -> ->; auto|intros [-> I]; exists j; auto]. }
  assert (MD : forall l' k j e, ~ In (Defer j e) (map (fun i => Visit i k) l')).
  { intros l' k j e. rewrite in_map_iff. intros (x & E & _). discriminate. }
  split; intros j e; rewrite in_app_iff.
  - rewrite DV. unfold prelude in P. split.
    + intros [I|[-> I]]; [|eapply op_dep; eauto].
      destruct (n_kind v) eqn:K; try discriminate; try (injection P as <-; contradiction); try congruence.
      * injection P as <-. destruct I as [E|[]]. injection E as <- <-. eapply op_array; eauto.
      * destruct data as [[o n]|]; [|discriminate]. injection P as <-. destruct I as [E|[E|[]]]; [|discriminate]. injection E as <- <-. eapply op_phi; eauto.
      * destruct data as [[[io oi] ii]|]; [|discriminate]. injection P as <-. destruct I as [E|[E|[E|[]]]]; injection E as <- <-; eapply op_out; eauto; cbn; auto.
      * injection P as <-. apply in_app_iff in I. destruct I as [I|I].
        -- destruct optimize; [contradiction|]. apply in_app_iff in I. rewrite !MV in I. destruct I as [[-> I]|[-> I]]; [eapply op_call_in; eauto|eapply op_call_body; eauto].
        -- rewrite MV in I. destruct I as [-> I]. eapply op_call_effect; eauto.
      * injection P as <-. rewrite MV in I. destruct I as [-> I]. eapply op_call_out; eauto.
      * injection P as <-. rewrite MV in I. destruct I as [-> I]. eapply op_list; eauto.
    + intros O. inversion O; subst;
        match goal with A : Trav_Spec.has g i ?w |- _ => assert (w = v) by (unfold Trav_Spec.has in *; congruence); subst w end; try (right; split; [reflexivity|assumption]); left;
        try match goal with K : n_kind v = _ |- _ => rewrite K in P; try (injection P as <-) end.
      * left; reflexivity.
      * left; reflexivity.
      * match goal with I : In j _ |- _ => destruct I as [<-|[<-|[<-|[]]]]; cbn; auto end.
      * exfalso; auto.
      * apply in_app_iff. left. apply in_app_iff. left. apply MV. auto.
      * apply in_app_iff. left. apply in_app_iff. right. apply MV. auto.
      * apply in_app_iff. right. apply MV. auto.
      * apply MV. auto.
      * apply MV. auto.
  - unfold prelude in P. split.
    + intros [I|I]; [|exfalso; exact (DD _ _ I)].
      destruct (n_kind v) eqn:K; try discriminate; try (injection P as <-; contradiction); try (injection P as <-; exfalso; exact (MD _ _ _ _ I)); try congruence.
      * injection P as <-. destruct I as [E|[]]. discriminate.
      * destruct data as [[o n]|]; [|discriminate]. injection P as <-. destruct I as [E|[E|[]]]; [discriminate|]. injection E as <- <-. eapply fb_phi; eauto.
      * destruct data as [[[io oi] ii]|]; [|discriminate]. injection P as <-. destruct I as [E|[E|[E|[]]]]; discriminate.
      * injection P as <-. exfalso. apply in_app_iff in I. destruct I as [I|I]; [|exact (MD _ _ _ _ I)].
        destruct optimize; [contradiction|]. apply in_app_iff in I. destruct I as [I|I]; exact (MD _ _ _ _ I).
    + intros O. inversion O; subst.
        match goal with A : Trav_Spec.has g i ?w |- _ => assert (w = v) by (unfold Trav_Spec.has in *; congruence); subst w end. left.
        match goal with K : n_kind v = _ |- _ => rewrite K in P; injection P as <- end. right. left. reflexivity.
Qed.

(** ** What a visit adds: points [W], deferred points [ls], entries [new] *)
Definition entry_ok (x : sv) : Prop := sv_size x = size /\ exists v, has (N.to_nat (sv_index x)) v /\ sv_scope x = n_scope v.
Record ext (s s' : st) (W ls : list (nat * nat)) (new : list sv) : Prop := mkExt {
  ext_seen : forall q, seen_s s' q <-> seen_s s q \/ exists p, In p W /\ covers p q;
  ext_fresh : forall p, In p W -> ~ seen_s s p;
  ext_op : forall p q, In p W -> operand p q -> seen_s s' q;
  ext_later : later s' = later s ++ ls;
  ext_fb : forall p q, In p W -> feedback p q -> In q ls;
  ext_sched : sched s' = sched s ++ new;
  ext_nodup : NoDup (vars new);
  ext_new : forall i, In i (vars new) <-> In (i, 0) W /\ liv i;
  ext_entry : Forall entry_ok new }.

Lemma ext_refl : forall s, ext s s [] [] [].
Proof.
  intros s. constructor; try (intros; contradiction); try (symmetry; apply app_nil_r); try constructor; intros; try (cbn in *; tauto).
  - destruct H as [H|(p & [] & _)]; exact H.
Qed.
Lemma covers_self : forall p, covers p p.
Proof. intros p. split; auto. Qed.
Lemma ext_in_seen : forall s s' W ls new p, ext s s' W ls new -> In p W -> seen_s s' p.
Proof. intros. apply (ext_seen _ _ _ _ _ H). right. exists p. split; [assumption|apply covers_self]. Qed.
Lemma ext_mono : forall s s' W ls new q, ext s s' W ls new -> seen_s s q -> seen_s s' q.
Proof. intros. apply (ext_seen _ _ _ _ _ H). left. assumption. Qed.
Lemma vars_app : forall a b, vars (a ++ b) = vars a ++ vars b.
Proof. intros. apply map_app. Qed.
Lemma NoDup_app_intro : forall {A} (a b : list A), NoDup a -> NoDup b -> (forall x, In x a -> ~ In x b) -> NoDup (a ++ b).
Proof.
  intros A a. induction a as [|x a IH]; intros b NA NB D; [exact NB|]. inversion NA; subst. cbn. constructor.
  - rewrite in_app_iff. intros [I|I]; [contradiction|]. exact (D x (or_introl eq_refl) I).
  - apply IH; [assumption|assumption|]. intros y I. apply D. right. exact I.
Qed.
Lemma ext_trans : forall s s1 s2 W1 W2 l1 l2 n1 n2, ext s s1 W1 l1 n1 -> ext s1 s2 W2 l2 n2 -> ext s s2 (W1 ++ W2) (l1 ++ l2) (n1 ++ n2).
Proof.
  intros s s1 s2 W1 W2 l1 l2 n1 n2 A B. constructor.
  - intros q. rewrite (ext_seen _ _ _ _ _ B), (ext_seen _ _ _ _ _ A). split.
    + intros [[H|(p & I & C)]|(p & I & C)]; [left; exact H|right; exists p; rewrite in_app_iff; auto|right; exists p; rewrite in_app_iff; auto].
    + intros [H|(p & I & C)]; [auto|]. apply in_app_iff in I. destruct I; [left; right; exists p; auto|right; exists p; auto].
  - intros p I. apply in_app_iff in I. destruct I as [I|I]; [exact (ext_fresh _ _ _ _ _ A p I)|].
    intros H. apply (ext_fresh _ _ _ _ _ B p I). exact (ext_mono _ _ _ _ _ _ A H).
  - intros p q I O. apply in_app_iff in I. destruct I as [I|I]; [exact (ext_mono _ _ _ _ _ _ B (ext_op _ _ _ _ _ A p q I O))|exact (ext_op _ _ _ _ _ B p q I O)].
  - rewrite (ext_later _ _ _ _ _ B), (ext_later _ _ _ _ _ A), app_assoc. reflexivity.
  - intros p q I O. apply in_app_iff in I. rewrite in_app_iff. destruct I as [I|I]; [left; exact (ext_fb _ _ _ _ _ A p q I O)|right; exact (ext_fb _ _ _ _ _ B p q I O)].
  - rewrite (ext_sched _ _ _ _ _ B), (ext_sched _ _ _ _ _ A), app_assoc. reflexivity.
  - rewrite vars_app. apply NoDup_app_intro; [exact (ext_nodup _ _ _ _ _ A)|exact (ext_nodup _ _ _ _ _ B)|].
    intros i I J. apply (ext_new _ _ _ _ _ A) in I. apply (ext_new _ _ _ _ _ B) in J. destruct I as [I _], J as [J _].
    apply (ext_fresh _ _ _ _ _ B _ J). exact (ext_in_seen _ _ _ _ _ _ A I).
  - intros i. rewrite vars_app, !in_app_iff, (ext_new _ _ _ _ _ A), (ext_new _ _ _ _ _ B). tauto.
  - apply Forall_app. split; [exact (ext_entry _ _ _ _ _ A)|exact (ext_entry _ _ _ _ _ B)].
Qed.

(** points reached from [p] through operands only *)
Inductive below (p : nat * nat) : nat * nat -> Prop :=
| below_refl : below p p
| below_step q r : operand p q -> below q r -> below p r.

(** order of new entries; [base]: earlier entries *)
Definition ordered (base new : list sv) : Prop :=
  forall a x b k, new = a ++ x :: b -> operand (N.to_nat (sv_index x), 0) (k, 0) -> liv k -> In k (vars (base ++ a)).
Lemma ordered_nil : forall base, ordered base [].
Proof. intros base a x b k E. destruct a; discriminate. Qed.
Lemma ordered_app : forall base n1 n2, ordered base n1 -> ordered (base ++ n1) n2 -> ordered base (n1 ++ n2).
Proof.
  intros base n1 n2 A B a x b k E O L. destruct (Nat.lt_ge_cases (length a) (length n1)) as [LT|GE].
  - assert (exists b', n1 = a ++ x :: b') as [b' ->].
    { assert (F : firstn (length n1) (n1 ++ n2) = n1) by (rewrite firstn_app, Nat.sub_diag, firstn_all; apply app_nil_r).
      rewrite E, firstn_app in F. rewrite firstn_all2 in F by lia. destruct (length n1 - length a) as [|k'] eqn:D; [lia|]. cbn in F. exists (firstn k' b). symmetry. exact F. }
    exact (A a x b' k eq_refl O L).
  - assert (exists a', a = n1 ++ a') as [a' ->].
    { assert (F : firstn (length n1) (n1 ++ n2) = n1) by (rewrite firstn_app, Nat.sub_diag, firstn_all; apply app_nil_r).
      rewrite E, firstn_app in F. replace (length n1 - length a) with 0 in F by lia. cbn in F. rewrite app_nil_r in F.
      exists (skipn (length n1) a). rewrite <- F at 1. symmetry. apply firstn_skipn. }
    rewrite <- app_assoc in E. apply app_inv_head in E. rewrite app_assoc. exact (B a' x b k E O L).
Qed.
(** all points of rank at most [r] that were visited at depth 0 are scheduled; [nb]: entries
    of earlier groups *)
Variable nb : nat.
Definition mine (s : st) : list sv := skipn nb (sched s).
Definition settled (rank : nat -> nat) (s : st) (r : nat) : Prop :=
  nb <= length (sched s) /\ forall j, seen_s s (j, 0) -> rank j <= r -> liv j -> In j (vars (mine s)).

Lemma mine_ext : forall s s' W ls new, ext s s' W ls new -> nb <= length (sched s) -> mine s' = mine s ++ new.
Proof.
  intros s s' W ls new E L. unfold mine. rewrite (ext_sched _ _ _ _ _ E), skipn_app. replace (nb - length (sched s)) with 0 by lia. reflexivity.
Qed.
Lemma settled_ext : forall rank s s' W ls new r, ext s s' W ls new -> settled rank s r -> settled rank s' r.
Proof.
  intros rank s s' W ls new r E [NB S]. split; [rewrite (ext_sched _ _ _ _ _ E), app_length; lia|].
  intros j H R L. rewrite (mine_ext _ _ _ _ _ E NB), vars_app, in_app_iff.
  apply (ext_seen _ _ _ _ _ E) in H. destruct H as [H|([k e] & I & [C1 C2])]; [left; exact (S j H R L)|].
  right. cbn in C1, C2. subst k. rewrite (C2 eq_refl) in I. apply (ext_new _ _ _ _ _ E). split; assumption.
Qed.
Lemma settled_le : forall rank s r r', r' <= r -> settled rank s r -> settled rank s r'.
Proof. intros rank s r r' L [NB S]. split; [exact NB|]. intros j H R. apply S; [exact H|lia]. Qed.

Section R.
Variable rank : nat -> nat.
Hypothesis RANK : forall p q, operand p q -> rank (fst q) < rank (fst p).
Hypothesis POS : forall i, 0 < rank i.

Definition visit_ok (visit : nat -> nat -> st -> res) : Prop := forall i d s s', visit i d s = Done s' ->
  exists W ls new, ext s s' W ls new /\ seen_s s' (i, d) /\ (forall p, In p W -> below (i, d) p) /\
    (forall q, In q ls -> exists p, In p W /\ feedback p q) /\
    (settled rank s (rank i) -> ordered (mine s) new).

Lemma run_actions_ok : forall visit, visit_ok visit -> forall p acts s s', run_actions visit acts s = Done s' ->
  (forall j e, In (Visit j e) acts -> operand p (j, e)) ->
  exists W ls new, ext s s' W (ls) new /\
    (forall j e, In (Visit j e) acts -> seen_s s' (j, e)) /\ (forall j e, In (Defer j e) acts -> In (j, e) ls) /\
    (forall q, In q W -> exists j e, In (Visit j e) acts /\ below (j, e) q) /\
    (forall q, In q ls -> (exists p, In p W /\ feedback p q) \/ In (Defer (fst q) (snd q)) acts) /\
    (settled rank s (rank (fst p) - 1) -> ordered (mine s) new).
Proof.
  intros visit V p acts. induction acts as [|[j e|j e] acts IH]; intros s s' H OP.
  - injection H as <-. exists [], [], []. split; [apply ext_refl|]. repeat split; try (intros; contradiction). intros _. apply ordered_nil.
  - cbn in H. destruct (visit j e s) as [s1| | |] eqn:E; try discriminate.
    destruct (V _ _ _ _ E) as (W1 & l1 & n1 & X1 & S1 & B1 & F1 & O1).
    destruct (IH _ _ H ltac:(intros; apply OP; right; assumption)) as (W2 & l2 & n2 & X2 & S2 & D2 & B2 & F2 & O2).
    exists (W1 ++ W2), (l1 ++ l2), (n1 ++ n2). split; [exact (ext_trans _ _ _ _ _ _ _ _ _ X1 X2)|]. split; [|split; [|split; [|split]]].
    + intros j' e' [I|I]; [injection I as <- <-; exact (ext_mono _ _ _ _ _ _ X2 S1)|exact (S2 _ _ I)].
    + intros j' e' [I|I]; [discriminate|]. apply in_app_iff. right. exact (D2 _ _ I).
    + intros q I. apply in_app_iff in I. destruct I as [I|I].
      * exists j, e. split; [left; reflexivity|exact (B1 _ I)].
      * destruct (B2 _ I) as (j' & e' & I' & BB). exists j', e'. split; [right; exact I'|exact BB].
    + intros q I. apply in_app_iff in I. destruct I as [I|I].
      * destruct (F1 _ I) as (p' & I' & FB). left. exists p'. rewrite in_app_iff. auto.
      * destruct (F2 _ I) as [(p' & I' & FB)|I']; [left; exists p'; rewrite in_app_iff; auto|right; right; exact I'].
    + intros ST. assert (RK : rank j < rank (fst p)) by (apply (RANK p (j, e)), OP; left; reflexivity).
      apply ordered_app; [apply O1; apply (settled_le _ _ _ _ (ltac:(lia) : rank j <= rank (fst p) - 1) ST)|].
      rewrite <- (mine_ext _ _ _ _ _ X1 (proj1 ST)). apply O2. exact (settled_ext _ _ _ _ _ _ _ X1 ST).
  - cbn in H. destruct (IH _ _ H ltac:(intros; apply OP; right; assumption)) as (W2 & l2 & n2 & X2 & S2 & D2 & B2 & F2 & O2).
    exists W2, ((j, e) :: l2), n2. split; [|split; [|split; [|split; [|split]]]].
    + destruct X2 as [a b c d0 f0 f1 f2 f3 f4]. constructor; try assumption.
      * rewrite d0. cbn. rewrite <- app_assoc. reflexivity.
      * intros p0 q I FB. right. exact (f0 _ _ I FB).
    + intros j' e' [I|I]; [discriminate|exact (S2 _ _ I)].
    + intros j' e' [I|I]; [injection I as <- <-; left; reflexivity|right; exact (D2 _ _ I)].
    + intros q I. destruct (B2 _ I) as (j' & e' & I' & BB). exists j', e'. split; [right; exact I'|exact BB].
    + intros q [<-|I]; [right; left; reflexivity|]. destruct (F2 _ I) as [HH|I']; [left; exact HH|right; right; exact I'].
    + exact O2.
Qed.

(** visiting a node *)
Lemma ext_inner : forall s i d s1 W ls new, ~ seen_s s (i, d) -> d <> 0 ->
  ext (mark s i (stamp gen d)) s1 W ls new -> (forall q, operand (i, d) q -> seen_s s1 q) -> (forall q, feedback (i, d) q -> In q ls) ->
  ext s s1 ((i, d) :: W) ls new.
Proof.
  intros s i d s1 W ls new NS D X OP FB. constructor.
  - intros q. rewrite (ext_seen _ _ _ _ _ X), (seen_mark gen s i d NS). split.
    + intros [[H|H]|(p & I & C)]; [auto|right; exists (i, d); split; [left; reflexivity|exact H]|right; exists p; split; [right; exact I|exact C]].
    + intros [H|(p & [<-|I] & C)]; [auto|auto|right; exists p; auto].
  - intros p [<-|I]; [exact NS|]. intros H. apply (ext_fresh _ _ _ _ _ X p I). apply (seen_mark gen s i d NS). left. exact H.
  - intros p q [<-|I] O; [exact (OP q O)|exact (ext_op _ _ _ _ _ X p q I O)].
  - exact (ext_later _ _ _ _ _ X).
  - intros p q [<-|I] O; [exact (FB q O)|exact (ext_fb _ _ _ _ _ X p q I O)].
  - exact (ext_sched _ _ _ _ _ X).
  - exact (ext_nodup _ _ _ _ _ X).
  - intros k. rewrite (ext_new _ _ _ _ _ X). split; intros [I L]; (split; [|exact L]); [right; exact I|]. destruct I as [E|I]; [injection E as _ E; congruence|exact I].
  - exact (ext_entry _ _ _ _ _ X).
Qed.
Lemma ext_outer : forall s i v s1 W ls new, ~ seen_s s (i, 0) -> has i v -> live v ->
  ext (mark s i (stamp gen 0)) s1 W ls new -> (forall q, operand (i, 0) q -> seen_s s1 q) -> (forall q, feedback (i, 0) q -> In q ls) ->
  ext s (push s1 size v i) ((i, 0) :: W) ls (new ++ [mkSv size (n_scope v) (N.of_nat i)]).
Proof.
  intros s i v s1 W ls new NS HV LV X OP FB. constructor.
  - intros q. cbn [scratch push]. rewrite (ext_seen _ _ _ _ _ X), (seen_mark gen s i 0 NS). split.
    + intros [[H|H]|(p & I & C)]; [auto|right; exists (i, 0); split; [left; reflexivity|exact H]|right; exists p; split; [right; exact I|exact C]].
    + intros [H|(p & [<-|I] & C)]; [auto|auto|right; exists p; auto].
  - intros p [<-|I]; [exact NS|]. intros H. apply (ext_fresh _ _ _ _ _ X p I). apply (seen_mark gen s i 0 NS). left. exact H.
  - intros p q [<-|I] O; [exact (OP q O)|exact (ext_op _ _ _ _ _ X p q I O)].
  - exact (ext_later _ _ _ _ _ X).
  - intros p q [<-|I] O; [exact (FB q O)|exact (ext_fb _ _ _ _ _ X p q I O)].
  - cbn [sched push]. rewrite (ext_sched _ _ _ _ _ X). cbn [sched mark]. rewrite app_assoc. reflexivity.
  - rewrite vars_app. apply NoDup_app_intro; [exact (ext_nodup _ _ _ _ _ X)|cbn; constructor; [intros []|constructor]|].
    intros k I [<-|[]]. cbn in I. rewrite Nat2N.id in I. apply (ext_new _ _ _ _ _ X) in I. destruct I as [I _].
    apply (ext_fresh _ _ _ _ _ X _ I). apply (seen_mark gen s i 0 NS). right. apply covers_self.
  - intros k. rewrite vars_app, in_app_iff, (ext_new _ _ _ _ _ X). cbn. rewrite Nat2N.id. split.
    + intros [[I L]|[<-|[]]]; [auto|]. split; [left; reflexivity|]. intros w HW. unfold Trav_Spec.has in *. congruence.
    + intros [[E|I] L]; [injection E as <-; right; left; reflexivity|auto].
  - apply Forall_app. split; [exact (ext_entry _ _ _ _ _ X)|]. constructor; [|constructor]. split; [reflexivity|]. exists v. cbn. rewrite Nat2N.id. auto.
Qed.

Lemma settled_mark : forall s i d, ~ seen_s s (i, d) -> settled rank s (rank i) -> settled rank (mark s i (stamp gen d)) (rank i - 1).
Proof.
  intros s i d NS [NB S]. split; [exact NB|]. intros j H R L. apply (seen_mark gen s i d NS) in H. destruct H as [H|[C _]].
  - apply S; [exact H|lia|exact L].
  - cbn in C. subst j. specialize (POS i). lia.
Qed.

Lemma traverse_ok : forall fuel, visit_ok (traverse g fuel gen size).
Proof.
  induction fuel as [|fuel IH]; intros i d s s' H; [discriminate|]. cbn [traverse] in H.
  destruct (nth_error g i) as [v|] eqn:HV; [|discriminate].
  destruct ((scratch s i =? stamp gen d)%N || _) eqn:SE.
  { injection H as <-. exists [], [], []. split; [apply ext_refl|]. split; [apply seen_test; exact SE|]. repeat split; try (intros; contradiction). intros _. apply ordered_nil. }
  assert (NS : ~ seen_s s (i, d)) by (rewrite <- seen_test; rewrite SE; discriminate). clear SE.
  assert (K3 : n_kind v = Scatter true \/ n_kind v = CallInput \/ (live v /\ n_kind v <> CallInput)).
  { unfold live. destruct (n_kind v); try (right; right; split; discriminate); [|right; left; reflexivity]. destruct elide; [left; reflexivity|right; right; split; discriminate]. }
  destruct K3 as [K|[K|[LV NC]]].
  - rewrite K in H. injection H as <-. exists [(i, d)], [], [].
    assert (NO : forall q, ~ operand (i, d) q).
    { intros q O. inversion O; subst; match goal with A : Trav_Spec.has g i ?w |- _ => assert (w = v) by (unfold Trav_Spec.has in *; congruence); subst w end; try congruence. }
    assert (NF : forall q, ~ feedback (i, d) q).
    { intros q O. inversion O; subst; match goal with A : Trav_Spec.has g i ?w |- _ => assert (w = v) by (unfold Trav_Spec.has in *; congruence); subst w end; congruence. }
    split; [|split; [|split; [|split]]].
    + constructor.
      * intros q. rewrite (seen_mark gen s i d NS). split; [intros [A|A]; [auto|right; exists (i, d); split; [left; reflexivity|exact A]]|intros [A|(p & [<-|[]] & A)]; auto].
      * intros p [<-|[]]. exact NS.
      * intros p q [<-|[]] O. exfalso. exact (NO q O).
      * symmetry. apply app_nil_r.
      * intros p q [<-|[]] O. exfalso. exact (NF q O).
      * symmetry. apply app_nil_r.
      * constructor.
      * intros k. cbn. split; [tauto|]. intros [[E|[]] L]. injection E as <- _. exact (L v HV K).
      * constructor.
    + apply (seen_mark gen s i d NS). right. apply covers_self.
    + intros p [<-|[]]. constructor.
    + intros q [].
    + intros _. apply ordered_nil.
  - rewrite K in H. destruct d as [|d].
    + injection H as <-. exists [(i, 0)], [], [mkSv size (n_scope v) (N.of_nat i)].
      assert (LV : live v) by (unfold live; congruence).
      assert (NO : forall q, ~ operand (i, 0) q).
      { intros q O. inversion O; subst; match goal with A : Trav_Spec.has g i ?w |- _ => assert (w = v) by (unfold Trav_Spec.has in *; congruence); subst w end; congruence. }
      assert (NF : forall q, ~ feedback (i, 0) q).
      { intros q O. inversion O; subst; match goal with A : Trav_Spec.has g i ?w |- _ => assert (w = v) by (unfold Trav_Spec.has in *; congruence); subst w end; congruence. }
      split; [|split; [|split; [|split]]].
      * apply (ext_outer s i v (mark s i (stamp gen 0)) [] [] [] NS HV LV (ext_refl _)); intros q O; exfalso; [exact (NO q O)|exact (NF q O)].
      * cbn [scratch push]. apply (seen_mark gen s i 0 NS). right. apply covers_self.
      * intros p [<-|[]]. constructor.
      * intros q [].
      * intros _ a x b k E O L. assert (a = [] /\ x = mkSv size (n_scope v) (N.of_nat i)) as [-> ->] by (destruct a as [|? [|]]; inversion E; auto).
        cbn in O. rewrite Nat2N.id in O. exfalso. exact (NO _ O).
    + destruct (n_dep v) as [|j rest] eqn:DV; [discriminate|].
      assert (OJ : forall q, operand (i, S d) q <-> q = (j, d)).
      { intros q. split.
        - intros O. inversion O; subst; match goal with A : Trav_Spec.has g i ?w |- _ => assert (w = v) by (unfold Trav_Spec.has in *; congruence); subst w end; congruence.
        - intros ->. eapply op_input; eauto. }
      assert (NF : forall q, ~ feedback (i, S d) q).
      { intros q O. inversion O; subst; match goal with A : Trav_Spec.has g i ?w |- _ => assert (w = v) by (unfold Trav_Spec.has in *; congruence); subst w end; congruence. }
      destruct (IH _ _ _ _ H) as (W & ls & new & X & SJ & B & F & O).
      exists ((i, S d) :: W), ls, new. split; [|split; [|split; [|split]]].
      * apply ext_inner; [exact NS|discriminate|exact X| |].
        -- intros q Q. apply OJ in Q. subst q. exact SJ.
        -- intros q Q. exfalso. exact (NF q Q).
      * apply (ext_mono _ _ _ _ _ _ X). apply (seen_mark gen s i (S d) NS). right. apply covers_self.
      * intros p [<-|I]; [constructor|]. eapply below_step; [apply OJ; reflexivity|exact (B p I)].
      * intros q I. destruct (F q I) as (p & I' & FB). exists p. split; [right; exact I'|exact FB].
      * intros ST. apply O. assert (rank j < rank i) by (apply (RANK (i, S d) (j, d)), OJ; reflexivity).
        apply (settled_le rank _ (rank i - 1)); [lia|]. apply settled_mark; assumption.
  - assert (H' : match prelude v d with
                 | None => Raised (mark s i (stamp gen d))
                 | Some l => match run_actions (traverse g fuel gen size) (l ++ deps v d) (mark s i (stamp gen d)) with
                             | Done s => if n_consumed v then Raised s else if d =? 0 then Done (push s size v i) else Done s
                             | x => x end end = Done s').
    { unfold live in LV. destruct (n_kind v) as [|[]| | | | | | |]; try exact H; contradiction. }
    clear H. destruct (prelude v d) as [l|] eqn:P; [|discriminate].
    destruct (run_actions _ _ _) as [s1| | |] eqn:RA; try discriminate.
    destruct (acts_spec i v d l HV LV NC P) as [AV AD].
    destruct (run_actions_ok _ IH (i, d) _ _ _ RA ltac:(intros; apply AV; assumption)) as (W & ls & new & X & SV & DV & B & F & O).
    destruct (n_consumed v); [discriminate|].
    assert (OPS : forall q, operand (i, d) q -> seen_s s1 q) by (intros [j e] Q; apply SV, AV, Q).
    assert (FBS : forall q, feedback (i, d) q -> In q ls) by (intros [j e] Q; apply DV, AD, Q).
    assert (SELF : seen_s s1 (i, d)) by (apply (ext_mono _ _ _ _ _ _ X), (seen_mark gen s i d NS); right; apply covers_self).
    assert (BEL : forall p, In p ((i, d) :: W) -> below (i, d) p).
    { intros p [<-|I]; [constructor|]. destruct (B p I) as (j & e & I' & BB). eapply below_step; [apply AV; exact I'|exact BB]. }
    assert (FEED : forall q, In q ls -> exists p, In p ((i, d) :: W) /\ feedback p q).
    { intros q I. destruct (F q I) as [(p & I' & FB)|I']; [exists p; split; [right; exact I'|exact FB]|].
      exists (i, d). split; [left; reflexivity|]. destruct q as [j e]. apply AD. exact I'. }
    destruct (Nat.eqb_spec d 0) as [->|ND]; injection H' as <-.
    + exists ((i, 0) :: W), ls, (new ++ [mkSv size (n_scope v) (N.of_nat i)]). split; [apply ext_outer; assumption|]. split; [exact SELF|]. split; [exact BEL|]. split; [exact FEED|].
      intros ST. pose proof (settled_mark s i 0 NS ST) as SM. apply ordered_app; [exact (O SM)|].
      intros a x b k E OP L. assert (a = [] /\ x = mkSv size (n_scope v) (N.of_nat i)) as [-> ->] by (destruct a as [|? [|]]; inversion E; auto).
      cbn [sv_index] in OP. rewrite Nat2N.id in OP. rewrite app_nil_r. rewrite <- (mine_ext _ _ _ _ _ X (proj1 SM) : mine s1 = mine s ++ new).
      apply (proj2 (settled_ext rank _ _ _ _ _ _ X SM) k); [apply OPS; exact OP| |exact L]. pose proof (RANK _ _ OP) as RK. cbn in RK. lia.
    + exists ((i, d) :: W), ls, new. split; [apply ext_inner; assumption|]. split; [exact SELF|]. split; [exact BEL|]. split; [exact FEED|].
      intros ST. apply O. apply settled_mark; assumption.
Qed.
End R.
End G.
