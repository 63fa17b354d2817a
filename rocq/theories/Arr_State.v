(** The state machine: what the final state of an array says. *)

From Verif Require Import Base Arr_Model Arr_Spec Arr_Proofs.

Lemma fupd_eq : forall A i (x : A) f, fupd i x f i = x.
Proof. intros. unfold fupd. rewrite Nat.eqb_refl. reflexivity. Qed.

Lemma fupd_neq : forall A i j (x : A) f, i <> j -> fupd i x f j = f j.
Proof.
  intros. unfold fupd. destruct (j =? i)%nat eqn:E; [|reflexivity].
  apply Nat.eqb_eq in E. congruence.
Qed.

Lemma buffer_write : forall t w len a s m o v, wf t ->
  nth_error t w = Some (NWrite len a s m o v) -> array_buffer t w = Some s.
Proof.
  intros t w len a s m o v W E. unfold array_buffer.
  assert (L := nth_lt _ _ _ E). destruct (wf_wr t W _ _ _ _ _ _ _ E) as (_ & b & B & _).
  destruct (length t) as [|n]; [lia|]. cbn [buffer_go]. rewrite E, B. reflexivity.
Qed.

Lemma buffer_self : forall t a n, nth_error t a = Some n ->
  match n with NArray _ _ | NEvald _ => True | _ => False end ->
  array_buffer t a = Some a.
Proof.
  intros t a n E H. unfold array_buffer. cbn [buffer_go]. rewrite E.
  destruct n; try contradiction; reflexivity.
Qed.

Lemma buffer_init : forall t i len a v l, nth_error t i = Some (NInit len a v) ->
  nth_error t a = Some (NArray l None) -> array_buffer t i = Some a.
Proof.
  intros t i len a v l E B. unfold array_buffer.
  assert (L := nth_lt _ _ _ E).
  destruct (length t) as [|n]; [lia|]. cbn [buffer_go]. rewrite E, B. reflexivity.
Qed.

Section States.
Variable t : table.
Variable outs : nat -> bool.
Hypothesis W : wf t.

Definition user (a : nat) : Prop :=
  exists m, nth_error t a = Some m /\ ~ storage_node m.

Definition acc (i a : nat) : Prop := exists n, nth_error t i = Some n /\ accesses n a.
Definition chg (i a : nat) : Prop := exists n, nth_error t i = Some n /\ changes n a.

Lemma chg_acc : forall i a, chg i a -> acc i a.
Proof.
  intros i a (n & E & H). exists n. split; [exact E|]. destruct n; cbn in *; auto; contradiction.
Qed.

Lemma acc_lt : forall i a, acc i a -> (a < i)%nat.
Proof.
  intros i a (n & E & H). eapply (wf_ops t W); eauto. apply accesses_operand. exact H.
Qed.

Lemma acc_user : forall i a, acc i a -> user a.
Proof.
  intros i a (n & E & H). destruct (wf_acc t W _ _ _ E H) as (m & M & _ & N). exists m. auto.
Qed.

Lemma set_parent_user : forall p s st st' a, set_parent t p s st = Some st' -> user a ->
  st' a = if (a =? p)%nat then s else st a.
Proof.
  intros p s st st' a H (m & M & N). unfold set_parent in H.
  assert (HH : forall b, b <> a -> fupd b s (fupd p s st) a = if (a =? p)%nat then s else st a).
  { intros b B. rewrite fupd_neq by exact B. reflexivity. }
  destruct s; [discriminate| | | ];
    (destruct (nth_error t p) as [n|] eqn:E; [|injection H as <-; reflexivity];
     destruct n as [| | | | | |len x sg mm o v|]; try (injection H as <-; reflexivity);
     rewrite (buffer_write _ _ _ _ _ _ _ _ W E) in H; injection H as <-; apply HH;
     intros ->; destruct (wf_wr t W _ _ _ _ _ _ _ E) as (_ & b & B & _);
     rewrite B in M; injection M as <-; apply N; exact I).
Qed.

Lemma set_parent_valid : forall p s st st', set_parent t p s st = Some st' -> s <> Invalid.
Proof. intros p s st st' H ->. discriminate. Qed.

Lemma process_other : forall i st st' a, process_op t outs i st = Some st' -> user a ->
  i <> a -> ~ acc i a -> st' a = st a.
Proof.
  intros i st st' a H U N NA. unfold process_op in H.
  destruct (nth_error t i) as [n|] eqn:E; [|injection H as <-; reflexivity].
  assert (PA : forall p, accesses n p -> p <> a).
  { intros p P ->. apply NA. exists n. auto. }
  destruct n as [| | | | |len p v|len p s m o v|p m o]; try (injection H as <-; reflexivity).
  - injection H as <-. apply fupd_neq. exact N.
  - rewrite (set_parent_user _ _ _ _ a H U).
    destruct (a =? p)%nat eqn:Q; [apply Nat.eqb_eq in Q; specialize (PA p eq_refl); congruence|].
    apply fupd_neq. exact N.
  - rewrite (set_parent_user _ _ _ _ a H U).
    destruct (a =? p)%nat eqn:Q; [apply Nat.eqb_eq in Q; specialize (PA p eq_refl); congruence|].
    apply fupd_neq. exact N.
  - rewrite (set_parent_user _ _ _ _ a H U).
    destruct (a =? p)%nat eqn:Q; [apply Nat.eqb_eq in Q; specialize (PA p eq_refl); congruence|].
    reflexivity.
Qed.

Lemma process_chg : forall i st st' a, process_op t outs i st = Some st' ->
  chg i a -> st' a = on_write (outs i) (st a) /\ st' a <> Invalid.
Proof.
  intros i st st' a H C. assert (U := acc_user _ _ (chg_acc _ _ C)).
  assert (L := acc_lt _ _ (chg_acc _ _ C)).
  destruct C as (n & E & C). unfold process_op in H. rewrite E in H.
  destruct n as [| | | | |len p v|len p s m o v|p m o]; try contradiction; cbn in C; subst p;
  (rewrite fupd_neq in H by lia; rewrite (set_parent_user _ _ _ _ a H U), Nat.eqb_refl;
   split; [reflexivity|]; eapply set_parent_valid; eauto).
Qed.

Lemma process_read : forall i st st' a, process_op t outs i st = Some st' ->
  acc i a -> ~ chg i a -> st' a = on_read (st a) /\ st' a <> Invalid.
Proof.
  intros i st st' a H C NC. assert (U := acc_user _ _ C). 
  destruct C as (n & E & C). unfold process_op in H. rewrite E in H.
  destruct n as [| | | | |len p v|len p s m o v|p m o]; try contradiction; cbn in C; subst p;
  try (exfalso; apply NC; eexists; split; [exact E|reflexivity]).
  rewrite (set_parent_user _ _ _ _ a H U), Nat.eqb_refl.
  split; [reflexivity|]. eapply set_parent_valid; eauto.
Qed.

Lemma process_self : forall i st st' n, process_op t outs i st = Some st' ->
  nth_error t i = Some n -> ~ storage_node n -> (0 < alen n)%nat ->
  (forall d, n <> NEvald d) -> st' i = Clean.
Proof.
  intros i st st' n H E N L NE. assert (U : user i) by (exists n; auto).
  unfold process_op in H. rewrite E in H.
  assert (PA : forall p, accesses n p -> (p < i)%nat).
  { intros p P. apply acc_lt. exists n. auto. }
  destruct n as [| | |len p|d|len p v|len p s m o v|p m o]; try (cbn in L; lia).
  - injection H as <-. apply fupd_eq.
  - exfalso. eapply NE; eauto.
  - specialize (PA p eq_refl). rewrite (set_parent_user _ _ _ _ i H U).
    destruct (i =? p)%nat eqn:Q; [apply Nat.eqb_eq in Q; lia|]. apply fupd_eq.
  - specialize (PA p eq_refl). rewrite (set_parent_user _ _ _ _ i H U).
    destruct (i =? p)%nat eqn:Q; [apply Nat.eqb_eq in Q; lia|]. apply fupd_eq.
Qed.

Lemma chg_dec : forall i a, {chg i a} + {~ chg i a}.
Proof.
  intros i a. unfold chg. destruct (nth_error t i) as [n|].
  - assert (D : {changes n a} + {~ changes n a}).
    { destruct n; cbn; auto; apply Nat.eq_dec. }
    destruct D as [D|D]; [left; eauto|right]. intros (x & X & Y). congruence.
  - right. intros (x & X & Y). discriminate.
Qed.

Lemma acc_dec : forall i a, {acc i a} + {~ acc i a}.
Proof.
  intros i a. unfold acc. destruct (nth_error t i) as [n|].
  - assert (D : {accesses n a} + {~ accesses n a}).
    { destruct n; cbn; auto; apply Nat.eq_dec. }
    destruct D as [D|D]; [left; eauto|right]. intros (x & X & Y). congruence.
  - right. intros (x & X & Y). discriminate.
Qed.

Definition dirty (s : astate) : Prop := s = Modified \/ s = Conflicted.

(** One later step. *)
Lemma process_later : forall i st st' a, process_op t outs i st = Some st' -> user a ->
  i <> a ->
  (dirty (st a) -> dirty (st' a)) /\ (st a = Conflicted -> st' a = Conflicted) /\
  (st a <> Invalid -> st' a <> Invalid) /\
  (dirty (st a) -> acc i a -> st' a = Conflicted).
Proof.
  intros i st st' a H U N.
  destruct (acc_dec i a) as [A|A].
  - destruct (chg_dec i a) as [C|C].
    + destruct (process_chg _ _ _ _ H C) as [E V]. unfold on_write, dirty in *.
      repeat split.
      * intros D. rewrite E. destruct (outs i); [auto|]. destruct D as [-> | ->]; auto.
      * intros D. rewrite E, D. destruct (outs i); reflexivity.
      * auto.
      * intros D _. rewrite E. destruct (outs i); [auto|]. destruct D as [-> | ->]; auto.
    + destruct (process_read _ _ _ _ H A C) as [E V]. unfold on_read, dirty in *.
      repeat split.
      * intros D. rewrite E. destruct D as [-> | ->]; auto.
      * intros D. rewrite E, D. reflexivity.
      * auto.
      * intros D _. rewrite E. destruct D as [-> | ->]; auto.
  - rewrite (process_other _ _ _ _ H U N A). repeat split; auto. intros. contradiction.
Qed.

Lemma process_all_app : forall l1 l2 st st', process_all t outs (l1 ++ l2) st = Some st' ->
  exists st1, process_all t outs l1 st = Some st1 /\ process_all t outs l2 st1 = Some st'.
Proof.
  induction l1 as [|i l1 IH]; intros l2 st st' H; cbn [app process_all] in *.
  - exists st. auto.
  - destruct (process_op t outs i st) as [s1|]; [|discriminate]. apply IH. exact H.
Qed.

Lemma later_all : forall l st st' a, process_all t outs l st = Some st' -> user a ->
  ~ In a l ->
  (st a = Conflicted -> st' a = Conflicted) /\
  (dirty (st a) -> forall j, In j l -> acc j a -> st' a = Conflicted).
Proof.
  induction l as [|i l IH]; intros st st' a H U N; cbn [process_all] in H.
  - injection H as <-. split; [auto|]. intros _ j [].
  - destruct (process_op t outs i st) as [s1|] eqn:E; [|discriminate].
    assert (Na : i <> a) by (intros ->; apply N; left; reflexivity).
    assert (Nl : ~ In a l) by (intros X; apply N; right; exact X).
    destruct (process_later _ _ _ _ E U Na) as (L1 & L2 & _ & L4).
    destruct (IH _ _ _ H U Nl) as (I1 & I2). split; [auto|].
    intros D j [<-|J] A; [auto|]. eapply I2; eauto.
Qed.

(** An array that is changed and accessed later ends up as conflicted. *)
Lemma conflict_found : forall l1 w l2 st st' a j,
  process_all t outs (l1 ++ w :: l2) st = Some st' -> ~ In a (w :: l2) ->
  chg w a -> In j l2 -> acc j a -> st' a = Conflicted.
Proof.
  intros l1 w l2 st st' a j H N C J A.
  apply process_all_app in H. destruct H as (s1 & _ & H). cbn [process_all] in H.
  destruct (process_op t outs w s1) as [s2|] eqn:E; [|discriminate].
  assert (U := acc_user _ _ A).
  assert (Nl : ~ In a l2) by (intros X; apply N; right; exact X).
  destruct (process_chg _ _ _ _ E C) as [E2 V].
  destruct (later_all _ _ _ _ H U Nl) as (_ & I2).
  apply (I2) with (j := j); auto. unfold dirty, on_write in *.
  rewrite E2. rewrite E2 in V. destruct (outs w); [auto|]. destruct (s1 a); auto; congruence.
Qed.

(** So does an array whose modified version is an output. *)
Lemma conflict_output : forall l1 w l2 st st' a,
  process_all t outs (l1 ++ w :: l2) st = Some st' -> ~ In a (w :: l2) ->
  chg w a -> outs w = true -> st' a = Conflicted.
Proof.
  intros l1 w l2 st st' a H N C O.
  apply process_all_app in H. destruct H as (s1 & _ & H). cbn [process_all] in H.
  destruct (process_op t outs w s1) as [s2|] eqn:E; [|discriminate].
  assert (U := acc_user _ _ (chg_acc _ _ C)).
  assert (Nl : ~ In a l2) by (intros X; apply N; right; exact X).
  destruct (process_chg _ _ _ _ E C) as [E2 V].
  destruct (later_all _ _ _ _ H U Nl) as (I1 & _).
  apply I1. rewrite E2. unfold on_write. rewrite O. reflexivity.
Qed.

(** ** The storage of a write has the state of the write *)

Lemma storage_not_user : forall w len a s m o v,
  nth_error t w = Some (NWrite len a s m o v) -> ~ user s.
Proof.
  intros w len a s m o v E (x & X & N).
  destruct (wf_wr t W _ _ _ _ _ _ _ E) as (_ & b & B & _).
  rewrite B in X. injection X as <-. apply N. exact I.
Qed.

Lemma set_parent_storage : forall p q st st' w len a s m o v,
  nth_error t w = Some (NWrite len a s m o v) -> user p ->
  set_parent t p q st = Some st' ->
  st' s = (if (p =? w)%nat then q else st s).
Proof.
  intros p q st st' w len a s m o v E (x & X & N) H.
  assert (PS : p <> s).
  { intros ->. eapply storage_not_user; eauto. exists x. auto. }
  unfold set_parent in H. rewrite X in H.
  destruct (p =? w)%nat eqn:Q.
  - apply Nat.eqb_eq in Q. subst w. rewrite X in E. injection E as ->.
    rewrite (buffer_write _ _ _ _ _ _ _ _ W X) in H.
    destruct q; try discriminate; injection H as <-; apply fupd_eq.
  - apply Nat.eqb_neq in Q.
    assert (G : fupd p q st s = st s) by (apply fupd_neq; exact PS).
    destruct x as [| | | | | |len' a' s' m' o' v'|];
      try (destruct q; try discriminate; injection H as <-; exact G).
    assert (S2 : s' <> s).
    { intros ->. apply Q. exact (wf_one t W _ _ _ _ _ _ _ _ _ _ _ _ _ X E). }
    rewrite (buffer_write _ _ _ _ _ _ _ _ W X) in H.
    destruct q; try discriminate; injection H as <-;
      rewrite fupd_neq by exact S2; exact G.
Qed.

Lemma process_storage : forall i st st' w len a s m o v,
  nth_error t w = Some (NWrite len a s m o v) -> i <> s ->
  process_op t outs i st = Some st' ->
  (~ acc i w -> st' s = st s) /\ (acc i w -> st' s = st' w).
Proof.
  intros i st st' w len a s m o v E NS H.
  assert (UW : user w) by (exists (NWrite len a s m o v); split; [exact E|cbn; auto]).
  unfold process_op in H.
  destruct (nth_error t i) as [n|] eqn:EI.
  2:{ injection H as <-. split; [auto|]. intros (x & X & _). congruence. }
  assert (A0 : (forall p, ~ accesses n p) -> ~ acc i w).
  { intros Z (x & X & Y). rewrite EI in X. injection X as <-. eapply Z; eauto. }
  assert (PU : forall p, accesses n p -> user p).
  { intros p P. eapply acc_user. exists n. eauto. }
  assert (AW : acc i w <-> accesses n w).
  { split; [intros (x & X & Y); congruence|intros Y; exists n; auto]. }
  destruct n as [| | | | |len' p v'|len' p s' m' o' v'|p m' o'];
    try (injection H as <-; split; [auto|]; intros Y; apply A0 in Y; [contradiction|cbn; auto]).
  - injection H as <-. split; [intros _; apply fupd_neq; exact NS|].
    intros Y. apply A0 in Y; [contradiction|cbn; auto].
  - specialize (PU p eq_refl). cbn in AW.
    assert (HS := set_parent_storage _ _ _ _ _ _ _ _ _ _ _ E PU H).
    assert (HW := set_parent_user _ _ _ _ w H UW).
    rewrite HS, HW. rewrite (Nat.eqb_sym w p). split.
    + intros Y. destruct (p =? w)%nat eqn:Q; [apply Nat.eqb_eq in Q; exfalso; apply Y; apply AW; exact Q|].
      apply fupd_neq. exact NS.
    + intros Y. apply AW in Y. apply Nat.eqb_eq in Y. rewrite Y. reflexivity.
  - specialize (PU p eq_refl). cbn in AW.
    assert (HS := set_parent_storage _ _ _ _ _ _ _ _ _ _ _ E PU H).
    assert (HW := set_parent_user _ _ _ _ w H UW).
    rewrite HS, HW. rewrite (Nat.eqb_sym w p). split.
    + intros Y. destruct (p =? w)%nat eqn:Q; [apply Nat.eqb_eq in Q; exfalso; apply Y; apply AW; exact Q|].
      apply fupd_neq. exact NS.
    + intros Y. apply AW in Y. apply Nat.eqb_eq in Y. rewrite Y. reflexivity.
  - specialize (PU p eq_refl). cbn in AW.
    assert (HS := set_parent_storage _ _ _ _ _ _ _ _ _ _ _ E PU H).
    assert (HW := set_parent_user _ _ _ _ w H UW).
    rewrite HS, HW. rewrite (Nat.eqb_sym w p). split.
    + intros Y. destruct (p =? w)%nat eqn:Q; [apply Nat.eqb_eq in Q; exfalso; apply Y; apply AW; exact Q|].
      reflexivity.
    + intros Y. apply AW in Y. apply Nat.eqb_eq in Y. rewrite Y. reflexivity.
Qed.

Lemma storage_after : forall l st st' w len a s m o v,
  nth_error t w = Some (NWrite len a s m o v) -> ~ In s l -> ~ In w l ->
  process_all t outs l st = Some st' -> st s = st w -> st' s = st' w.
Proof.
  induction l as [|i l IH]; intros st st' w len a s m o v E NS NW H Q; cbn [process_all] in H.
  - injection H as <-. exact Q.
  - destruct (process_op t outs i st) as [s1|] eqn:P; [|discriminate].
    assert (i <> s) by (intros ->; apply NS; left; reflexivity).
    assert (i <> w) by (intros ->; apply NW; left; reflexivity).
    eapply IH; [exact E| | |exact H|].
    + intros X. apply NS. right. exact X.
    + intros X. apply NW. right. exact X.
    + destruct (process_storage _ _ _ _ _ _ _ _ _ _ E H0 P) as [S1 S2].
      destruct (acc_dec i w) as [A|A]; [auto|].
      rewrite S1 by exact A. rewrite Q. symmetry.
      apply (process_other _ _ _ _ P); auto.
      exists (NWrite len a s m o v). split; [exact E|cbn; auto].
Qed.

Lemma storage_before : forall l st st' w len a s m o v,
  nth_error t w = Some (NWrite len a s m o v) -> ~ In s l ->
  (forall i, In i l -> ~ acc i w) ->
  process_all t outs l st = Some st' -> st' s = st s.
Proof.
  induction l as [|i l IH]; intros st st' w len a s m o v E NS NA H; cbn [process_all] in H.
  - injection H as <-. reflexivity.
  - destruct (process_op t outs i st) as [s1|] eqn:P; [|discriminate].
    assert (i <> s) by (intros ->; apply NS; left; reflexivity).
    rewrite (IH s1 st' w len a s m o v E); auto.
    + destruct (process_storage _ _ _ _ _ _ _ _ _ _ E H0 P) as [S1 _].
      apply S1. apply NA. left. reflexivity.
    + intros X. apply NS. right. exact X.
    + intros j J. apply NA. right. exact J.
Qed.

(** ** The whole schedule *)

Variable order : list nat.
Hypothesis SCH : schedule t order.

Lemma order_before : forall l1 i l2 j, order = l1 ++ i :: l2 -> acc i j -> In j l1.
Proof.
  intros l1 i l2 j E (n & N & A). destruct SCH as (_ & D & _).
  eapply D; eauto. apply accesses_operand. exact A.
Qed.

Lemma nodup_split : forall (A : Type) l1 (i : A) l2, NoDup (l1 ++ i :: l2) ->
  ~ In i l1 /\ ~ In i l2 /\ (forall x, In x l1 -> ~ In x l2).
Proof.
  intros A l1 i l2 H. assert (H2 := H). apply NoDup_remove_2 in H2.
  split; [|split].
  - intros X. apply H2. apply in_or_app. auto.
  - intros X. apply H2. apply in_or_app. auto.
  - apply NoDup_remove_1 in H. clear H2. intros x X1 X2.
    induction l1 as [|y l1 IH]; [contradiction|]. cbn in H. inversion H; subst.
    destruct X1 as [->|X1]; [apply H2; apply in_or_app; auto|]. auto.
Qed.

Lemma state_storage : forall st st' w len a s m o v,
  process_all t outs order st = Some st' -> In w order ->
  nth_error t w = Some (NWrite len a s m o v) -> st' s = st' w.
Proof.
  intros st st' w len a s m o v H IW E.
  destruct (in_split _ _ IW) as (l12 & l3 & EO).
  destruct SCH as (ND & D & _).
  assert (IS : In s l12) by (apply (D l12 w l3 _ s EO E); cbn; auto).
  destruct (in_split _ _ IS) as (l1 & l2 & E12). subst l12.
  assert (ND' := ND). rewrite EO in ND'.
  destruct (nodup_split _ _ _ _ ND') as (N1 & N2 & N3).
  assert (ND'' := ND'). rewrite <- app_assoc in ND''. cbn [app] in ND''.
  destruct (nodup_split _ _ _ _ ND'') as (M1 & M2 & M3).
  assert (H' := H). rewrite EO in H'. rewrite <- app_assoc in H'. cbn [app] in H'.
  apply process_all_app in H'. destruct H' as (s1 & _ & H1). cbn [process_all] in H1.
  destruct (process_op t outs s s1) as [s2|] eqn:PS; [|discriminate].
  apply process_all_app in H1. destruct H1 as (s3 & H2 & H3). cbn [process_all] in H3.
  destruct (process_op t outs w s3) as [s4|] eqn:PW; [|discriminate].
  destruct (wf_wr t W _ _ _ _ _ _ _ E) as (_ & b & B & _).
  assert (SC : s2 s = Clean).
  { unfold process_op in PS. rewrite B in PS. injection PS as <-. apply fupd_eq. }
  assert (S3 : s3 s = Clean).
  { rewrite <- SC. eapply storage_before; [exact E| | |exact H2].
    - intros X. apply M2. apply in_or_app. auto.
    - intros i I A. destruct (in_split _ _ I) as (x & y & XY).
      assert (In w (l1 ++ s :: x)).
      { apply (order_before (l1 ++ s :: x) i (y ++ w :: l3)); [|exact A].
        rewrite EO, XY. rewrite <- !app_assoc. cbn. rewrite <- app_assoc. reflexivity. }
      apply N1. rewrite XY. apply in_app_or in H0. apply in_or_app.
      destruct H0 as [H0|[H0|H0]]; auto.
      + right. left. exact H0.
      + right. right. apply in_or_app. auto. }
  assert (WS : w <> s).
  { intros ->. apply M2. apply in_or_app. right. left. reflexivity. }
  assert (S4 : s4 s = s4 w).
  { assert (s4 w = Clean).
    { apply (process_self _ _ _ _ PW E); cbn; auto.
      - assert (acc w a) by (eexists; split; [exact E|reflexivity]).
        destruct H0 as (x & X & Y). rewrite E in X. injection X as <-.
        destruct (wf_acc t W _ _ _ E Y) as (q & Q1 & Q2 & _).
        destruct (wf_wr t W _ _ _ _ _ _ _ E) as (L & _). unfold len_of in L. rewrite Q1 in L. lia.
      - intros d; discriminate. }
    destruct (process_storage _ _ _ _ _ _ _ _ _ _ E WS PW) as [S1 _].
    rewrite S1, S3, H0; [reflexivity|]. intros A. apply acc_lt in A. lia. }
  eapply storage_after; [exact E| | |exact H3|exact S4].
  - intros X. apply M2. apply in_or_app. right. right. exact X.
  - exact N2.
Qed.

(** The state machine does not raise. *)
Lemma process_defined_from : forall l2 l1 st, order = l1 ++ l2 ->
  (forall a m, nth_error t a = Some m -> (0 < alen m)%nat -> ~ storage_node m ->
     In a l1 \/ (exists d, m = NEvald d) -> In a order -> st a <> Invalid) ->
  exists st', process_all t outs l2 st = Some st'.
Proof.
  induction l2 as [|i l2 IH]; intros l1 st EO HV; cbn [process_all].
  - eauto.
  - assert (SP : forall a s s0, acc i a -> s <> Invalid -> exists st', set_parent t a s s0 = Some st').
    { intros a s s0 A V. destruct (acc_user _ _ A) as (x & X & _).
      unfold set_parent. rewrite X.
      destruct s; [congruence| | | ];
        (destruct x; try (eexists; reflexivity);
         rewrite (buffer_write _ _ _ _ _ _ _ _ W X); eexists; reflexivity). }
    assert (VA : forall a, acc i a -> st a <> Invalid).
    { intros a A. assert (IA := order_before _ _ _ _ EO A).
      destruct A as (n & N & A). destruct (wf_acc t W _ _ _ N A) as (q & Q1 & Q2 & Q3).
      apply (HV a q); auto. rewrite EO. apply in_or_app. auto. }
    assert (OW : forall o s, s <> Invalid -> on_write o s <> Invalid).
    { intros o s V. unfold on_write. destruct o; [discriminate|]. destruct s; congruence. }
    assert (OR : forall s, s <> Invalid -> on_read s <> Invalid).
    { intros s V. unfold on_read. destruct s; congruence. }
    assert (P : exists s1, process_op t outs i st = Some s1).
    { unfold process_op. destruct (nth_error t i) as [n|] eqn:E; [|eauto].
      assert (AI : forall p, accesses n p -> acc i p) by (intros p P; exists n; auto).
      destruct n as [| | | | |len p v|len p s m o v|p m o]; eauto.
      - specialize (AI p eq_refl). apply SP; [exact AI|].
        rewrite fupd_neq by (apply acc_lt in AI; lia). auto.
      - specialize (AI p eq_refl). apply SP; [exact AI|].
        rewrite fupd_neq by (apply acc_lt in AI; lia). auto.
      - specialize (AI p eq_refl). apply SP; [exact AI|]. auto. }
    destruct P as (s1 & P). rewrite P.
    apply (IH (l1 ++ [i])); [rewrite <- app_assoc; exact EO|].
    intros a m E L N C IO.
    destruct (Nat.eq_dec i a) as [->|NE].
    + assert (DE : {d | m = NEvald d} + {forall d, m <> NEvald d}).
      { destruct m; try (right; intros; discriminate). left. eauto. }
      destruct DE as [(d & ->)|DE].
      * assert (s1 a = st a).
        { unfold process_op in P. rewrite E in P. injection P as <-. reflexivity. }
        rewrite H. apply (HV a (NEvald d)); auto. right. eauto.
      * rewrite (process_self _ _ _ _ P E N L DE). discriminate.
    + destruct (process_later i st s1 a P) as (_ & _ & V & _); auto.
      * exists m. auto.
      * apply V. apply (HV a m); auto. destruct C as [C|C]; [left|right; exact C].
        apply in_app_or in C. destruct C as [C|[C|[]]]; [exact C|congruence].
Qed.

Lemma process_defined : forall st0,
  (forall i d, In i order -> nth_error t i = Some (NEvald d) -> st0 i <> Invalid) ->
  exists st', process_all t outs order st0 = Some st'.
Proof.
  intros st0 H. apply (process_defined_from order []); [reflexivity|].
  intros a m E L N [C|(d & ->)] IO; [contradiction|]. eapply H; eauto.
Qed.

End States.
