(** Tables built by the interface, and the values of variables. *)

From Verif Require Import Base Arr_Model Arr_Spec.

Definition storage_node (n : node) : Prop :=
  match n with NArray _ (Some _) => True | _ => False end.

Definition array_node (n : node) : Prop :=
  match n with NArray _ _ | NEvald _ | NInit _ _ _ | NWrite _ _ _ _ _ _ => True | _ => False end.

Record wf (t : table) : Prop := {
  wf_ops : forall i n j, nth_error t i = Some n -> In j (operands n) -> (j < i)%nat;
  wf_acc : forall i n a, nth_error t i = Some n -> accesses n a ->
    exists m, nth_error t a = Some m /\ (0 < alen m)%nat /\ ~ storage_node m;
  wf_wr : forall i len a s m o v, nth_error t i = Some (NWrite len a s m o v) ->
    len = len_of t a /\
    exists b, nth_error t s = Some (NArray len (Some b)) /\ array_buffer t a = Some b;
  wf_one : forall i j len a s m o v len' a' m' o' v',
    nth_error t i = Some (NWrite len a s m o v) ->
    nth_error t j = Some (NWrite len' a' s m' o' v') -> i = j;
  wf_init : forall i len a v, nth_error t i = Some (NInit len a v) -> len = len_of t a;
  wf_pos : forall i n, nth_error t i = Some n -> array_node n -> (0 < alen n)%nat }.

Lemma wf_nil : wf [].
Proof.
  constructor; intros; destruct i; discriminate.
Qed.

Lemma buffer_mono : forall fu t i b x fu', buffer_go fu t i = Some b ->
  (fu <= fu')%nat -> buffer_go fu' (t ++ x) i = Some b.
Proof.
  induction fu as [|fu IH]; intros t i b x fu' H L; [discriminate|].
  destruct fu' as [|fu']; [lia|]. cbn [buffer_go] in *.
  destruct (nth_error t i) as [n|] eqn:E; [|discriminate].
  rewrite nth_error_app1 by (apply nth_error_Some; congruence). rewrite E.
  destruct n; try discriminate; auto.
  - apply IH with (x := x); [exact H|lia].
  - apply IH with (x := x); [exact H|lia].
Qed.

Lemma array_buffer_app : forall t i b x, array_buffer t i = Some b ->
  array_buffer (t ++ x) i = Some b.
Proof.
  intros t i b x H. unfold array_buffer in *.
  apply buffer_mono with (x := x) (fu' := S (length (t ++ x))) in H; [exact H|].
  rewrite app_length. lia.
Qed.

Lemma len_of_app : forall t x a, (a < length t)%nat -> len_of (t ++ x) a = len_of t a.
Proof. intros t x a H. unfold len_of. rewrite nth_error_app1 by exact H. reflexivity. Qed.

Lemma len_of_pos : forall t a, (0 < len_of t a)%nat -> (a < length t)%nat.
Proof.
  intros t a H. unfold len_of in H. destruct (nth_error t a) eqn:E; [|lia].
  apply nth_error_Some. congruence.
Qed.

Lemma user_len_pos : forall t a, (0 < user_len t a)%nat ->
  exists m, nth_error t a = Some m /\ (0 < alen m)%nat /\ ~ storage_node m /\
    len_of t a = alen m.
Proof.
  intros t a H. unfold user_len in H. unfold len_of.
  destruct (nth_error t a) as [m|]; [|lia].
  exists m. split; [reflexivity|].
  destruct m as [| | |l p| | | | ]; cbn in H; try lia; try (cbn; auto with lia; fail).
  - destruct p; [lia|]. cbn. auto.
  - cbn. auto.
  - cbn. auto.
  - cbn. auto.
Qed.

Lemma accesses_operand : forall n a, accesses n a -> In a (operands n).
Proof. intros n a H. destruct n; cbn in *; auto; try contradiction. Qed.

(** Adding one variable. *)
Lemma nth_error_snoc : forall (t : table) n i m,
  nth_error (t ++ [n]) i = Some m ->
  (nth_error t i = Some m) \/ (i = length t /\ m = n).
Proof.
  intros t n i m H. destruct (Nat.lt_ge_cases i (length t)) as [L|L].
  - rewrite nth_error_app1 in H by exact L. auto.
  - rewrite nth_error_app2 in H by exact L.
    destruct (i - length t)%nat eqn:E.
    + cbn in H. injection H as <-. right. split; [lia|reflexivity].
    + cbn in H. destruct n0; discriminate.
Qed.

Lemma nth_lt : forall (t : table) i m, nth_error t i = Some m -> (i < length t)%nat.
Proof. intros. apply nth_error_Some. congruence. Qed.

Lemma wf_snoc : forall t n, wf t ->
  (forall j, In j (operands n) -> (j < length t)%nat) ->
  (forall a, accesses n a -> exists m, nth_error t a = Some m /\ (0 < alen m)%nat /\ ~ storage_node m) ->
  (forall len a s m o v, n = NWrite len a s m o v ->
    len = len_of t a /\
    (exists b, nth_error t s = Some (NArray len (Some b)) /\ array_buffer t a = Some b) /\
    (forall j len' a' m' o' v', nth_error t j <> Some (NWrite len' a' s m' o' v'))) ->
  (forall len a v, n = NInit len a v -> len = len_of t a) ->
  (array_node n -> (0 < alen n)%nat) ->
  wf (t ++ [n]).
Proof.
  intros t n W H1 H2 H3 H4 H5.
  assert (SU : forall i m, nth_error t i = Some m -> nth_error (t ++ [n]) i = Some m).
  { intros i m E. rewrite nth_error_app1; [exact E|]. eapply nth_lt; eauto. }
  constructor.
  - intros i m j E J. apply nth_error_snoc in E. destruct E as [E|[-> ->]].
    + eapply (wf_ops t W); eauto.
    + auto.
  - intros i m a E A. apply nth_error_snoc in E. destruct E as [E|[-> ->]].
    + destruct (wf_acc t W _ _ _ E A) as (x & X1 & X2). exists x. split; [auto|exact X2].
    + destruct (H2 a A) as (x & X1 & X2). exists x. split; [auto|exact X2].
  - intros i len a s m o v E. apply nth_error_snoc in E. destruct E as [E|[-> E]].
    + destruct (wf_wr t W _ _ _ _ _ _ _ E) as (L & b & B1 & B2).
      assert (a < length t)%nat.
      { destruct (wf_acc t W i _ a E eq_refl) as (x & X & _). eapply nth_lt; eauto. }
      rewrite len_of_app by assumption. split; [exact L|].
      exists b. split; [auto|]. apply array_buffer_app. exact B2.
    + destruct (H3 _ _ _ _ _ _ (eq_sym E)) as (L & (b & B1 & B2) & _).
      assert (a < length t)%nat.
      { apply H1. rewrite <- E. cbn. auto. }
      rewrite len_of_app by assumption. split; [exact L|].
      exists b. split; [auto|]. apply array_buffer_app. exact B2.
  - intros i j len a s m o v len' a' m' o' v' E1 E2.
    apply nth_error_snoc in E1. apply nth_error_snoc in E2.
    destruct E1 as [E1|[-> E1]]; destruct E2 as [E2|[-> E2]].
    + eapply (wf_one t W); eauto.
    + destruct (H3 _ _ _ _ _ _ (eq_sym E2)) as (_ & _ & U). exfalso. eapply U; eauto.
    + destruct (H3 _ _ _ _ _ _ (eq_sym E1)) as (_ & _ & U). exfalso. eapply U; eauto.
    + reflexivity.
  - intros i len a v E. apply nth_error_snoc in E. destruct E as [E|[-> E]].
    + assert (a < length t)%nat.
      { destruct (wf_acc t W i _ a E eq_refl) as (x & X & _). eapply nth_lt; eauto. }
      rewrite len_of_app by assumption. eapply (wf_init t W); eauto.
    + assert (a < length t)%nat.
      { apply H1. rewrite <- E. cbn. auto. }
      rewrite len_of_app by assumption. eapply H4; eauto.
  - intros i m E A. apply nth_error_snoc in E. destruct E as [E|[-> ->]]; [|auto].
    eapply (wf_pos t W); eauto.
Qed.

Ltac snoc0 W := apply wf_snoc; [exact W|cbn; intros; try contradiction|
  cbn; intros; try contradiction| intros; try discriminate|intros; try discriminate|cbn; intros; try contradiction].

(** Evaluating an array that nothing was derived from. *)
Lemma buffer_set : forall fu t i d a b,
  (forall j n, nth_error t j = Some n -> ~ changes n i) ->
  (exists m, nth_error t i = Some m /\ ~ storage_node m) ->
  (forall j len a' s m o v, nth_error t j = Some (NWrite len a' s m o v) ->
     exists b', nth_error t s = Some (NArray len (Some b'))) ->
  a <> i ->
  buffer_go fu t a = Some b -> buffer_go fu (set_nth i (NEvald d) t) a = Some b.
Proof.
  induction fu as [|fu IH]; intros t i d a b HC HI HS NE H; [discriminate|].
  cbn [buffer_go] in *. rewrite nth_error_set_nth_neq by auto.
  destruct (nth_error t a) as [n|] eqn:E; [|discriminate].
  destruct n as [| | | | |len tg v|len tg s m o v|]; try discriminate; auto.
  - apply IH; auto. intros ->. apply (HC _ _ E). reflexivity.
  - apply IH; auto. intros ->. destruct HI as (x & X1 & X2).
    destruct (HS _ _ _ _ _ _ _ E) as (b' & B). rewrite B in X1. injection X1 as <-.
    apply X2. exact I.
Qed.

Lemma wf_set : forall t i d m, wf t -> nth_error t i = Some m -> (0 < alen m)%nat ->
  ~ storage_node m -> length d = alen m ->
  (forall j n, nth_error t j = Some n -> ~ changes n i) ->
  wf (set_nth i (NEvald d) t).
Proof.
  intros t i d m W E L NS LD HC.
  assert (LI := nth_lt _ _ _ E).
  assert (GET : forall j n, nth_error (set_nth i (NEvald d) t) j = Some n ->
    (j = i /\ n = NEvald d) \/ (j <> i /\ nth_error t j = Some n)).
  { intros j n H. destruct (Nat.eq_dec j i) as [->|N].
    - rewrite nth_error_set_nth_eq in H by exact LI. left. split; congruence.
    - rewrite nth_error_set_nth_neq in H by auto. right. auto. }
  assert (KEEP : forall j n, nth_error t j = Some n -> j <> i ->
    nth_error (set_nth i (NEvald d) t) j = Some n).
  { intros j n H N. rewrite nth_error_set_nth_neq by auto. exact H. }
  assert (LEN : forall a, len_of (set_nth i (NEvald d) t) a = len_of t a).
  { intros a. unfold len_of. destruct (Nat.eq_dec a i) as [->|N].
    - rewrite nth_error_set_nth_eq by exact LI. rewrite E. exact LD.
    - rewrite nth_error_set_nth_neq by auto. reflexivity. }
  assert (ST : forall j len a s mm o v, nth_error t j = Some (NWrite len a s mm o v) -> s <> i).
  { intros j len a s mm o v H ->. destruct (wf_wr t W _ _ _ _ _ _ _ H) as (_ & b & B & _).
    rewrite B in E. injection E as <-. apply NS. exact I. }
  constructor.
  - intros j n x H X. apply GET in H. destruct H as [[-> ->]|[N H]]; [cbn in X; contradiction|].
    eapply (wf_ops t W); eauto.
  - intros j n a H A. apply GET in H. destruct H as [[-> ->]|[N H]]; [cbn in A; contradiction|].
    destruct (wf_acc t W _ _ _ H A) as (x & X1 & X2 & X3).
    destruct (Nat.eq_dec a i) as [->|Na].
    + exists (NEvald d). rewrite nth_error_set_nth_eq by exact LI.
      cbn. split; [reflexivity|]. split; [lia|auto].
    + exists x. auto.
  - intros j len a s mm o v H. apply GET in H. destruct H as [[-> HH]|[N H]]; [discriminate|].
    destruct (wf_wr t W _ _ _ _ _ _ _ H) as (L1 & b & B1 & B2).
    rewrite LEN. split; [exact L1|]. exists b. split.
    + apply KEEP; [exact B1|]. eapply ST; eauto.
    + unfold array_buffer in *. rewrite set_nth_length.
      apply buffer_set; auto.
      * exists m. auto.
      * intros j' len' a' s' m' o' v' H'.
        destruct (wf_wr t W _ _ _ _ _ _ _ H') as (_ & b' & B' & _). eauto.
      * intros ->. apply (HC _ _ H). reflexivity.
  - intros j1 j2 len a s mm o v len' a' m' o' v' H1 H2.
    apply GET in H1. apply GET in H2.
    destruct H1 as [[_ ?]|[_ H1]]; [discriminate|].
    destruct H2 as [[_ ?]|[_ H2]]; [discriminate|].
    eapply (wf_one t W); eauto.
  - intros j len a v H. apply GET in H. destruct H as [[-> HH]|[N H]]; [discriminate|].
    rewrite LEN. eapply (wf_init t W); eauto.
  - intros j n H A. apply GET in H. destruct H as [[-> ->]|[N H]]; [cbn; lia|].
    eapply (wf_pos t W); eauto.
Qed.

Lemma wf_api : forall t c t' r, wf t -> api t c = Some (t', r) ->
  (forall i d, c = CEval i d -> forall j n, nth_error t j = Some n -> ~ changes n i) ->
  wf t'.
Proof.
  intros t c t' r W H HC.
  destruct c as [z|args f|len|d|a v|a o v m|sym a o m|i d]; cbn [api] in H.
  - injection H as <- <-. snoc0 W.
  - destruct (forallb _ args) eqn:F; [|discriminate]. injection H as <- <-. snoc0 W.
    rewrite forallb_forall in F. specialize (F j H). apply Nat.ltb_lt. exact F.
  - destruct (0 <? len)%nat eqn:F; [|discriminate]. injection H as <- <-. snoc0 W.
    apply Nat.ltb_lt. exact F.
  - destruct (0 <? length d)%nat eqn:F; [|discriminate]. injection H as <- <-. snoc0 W.
    apply Nat.ltb_lt. exact F.
  - destruct (_ && _)%bool eqn:C in H; [|discriminate]. injection H as <- <-.
    apply andb_prop in C. destruct C as [C C3]. apply andb_prop in C. destruct C as [C1 C2].
    apply Nat.ltb_lt in C1. apply Nat.ltb_lt in C2.
    destruct (user_len_pos _ _ C1) as (x & X1 & X2 & X3 & X4).
    apply wf_snoc; [exact W| | | | |cbn; lia].
    + cbn. intros j [<-|[<-|[]]]; [eapply nth_lt; eauto|exact C2].
    + cbn. intros a' <-. eauto.
    + intros; discriminate.
    + intros len a' v' HH. injection HH as <- <- <-. reflexivity.
  - destruct (_ && _)%bool eqn:C in H; [|discriminate].
    apply andb_prop in C. destruct C as [C C5]. apply andb_prop in C. destruct C as [C C4].
    apply andb_prop in C. destruct C as [C C3]. apply andb_prop in C. destruct C as [C1 C2].
    apply Nat.ltb_lt in C1. apply Nat.ltb_lt in C2. apply Nat.ltb_lt in C3. apply Nat.ltb_lt in C4.
    destruct (is_false t m); [injection H as <- <-; exact W|].
    destruct (array_buffer t a) as [b|] eqn:B; [|discriminate].
    injection H as <- <-.
    destruct (user_len_pos _ _ C1) as (x & X1 & X2 & X3 & X4).
    assert (LA := nth_lt _ _ _ X1).
    assert (LB : (b < length t)%nat).
    { unfold array_buffer in B. clear -B. revert B. generalize (S (length t)). intros fu.
      revert a. induction fu as [|fu IH]; intros a B; [discriminate|].
      cbn [buffer_go] in B. destruct (nth_error t a) as [n|] eqn:E; [|discriminate].
      destruct n; try discriminate; try (injection B as <-; eapply nth_lt; eauto); eauto. }
    replace (t ++ [NArray (len_of t a) (Some b); NWrite (len_of t a) a (length t) m o v])
      with ((t ++ [NArray (len_of t a) (Some b)]) ++ [NWrite (len_of t a) a (length t) m o v])
      by (rewrite <- app_assoc; reflexivity).
    apply wf_snoc.
    + apply wf_snoc; [exact W| | | | |]; cbn; intros; try contradiction; try discriminate; [|lia].
      destruct H as [<-|[]]. exact LB.
    + rewrite app_length. cbn. intros j J.
      destruct J as [<-|[<-|[<-|[<-|[<-|[]]]]]]; lia.
    + cbn. intros a' <-. exists x. rewrite nth_error_app1 by exact LA. auto.
    + intros len a' s' m' o' v' HH. injection HH as <- <- <- <- <- <-.
      split; [symmetry; apply len_of_app; exact LA|]. split.
      * exists b. split.
        -- rewrite nth_error_app2 by lia. rewrite Nat.sub_diag. reflexivity.
        -- apply array_buffer_app. exact B.
      * intros j len' a'' m'' o'' v'' HH. apply nth_error_snoc in HH.
        destruct HH as [HH|[_ HH]]; [|discriminate].
        assert (J := nth_lt _ _ _ HH).
        assert (length t < j)%nat by (eapply (wf_ops t W); [exact HH|cbn; auto]). lia.
    + intros; discriminate.
    + cbn. lia.
  - destruct (_ && _)%bool eqn:C in H; [|discriminate].
    apply andb_prop in C. destruct C as [C C3]. apply andb_prop in C. destruct C as [C1 C2].
    apply Nat.ltb_lt in C1. apply Nat.ltb_lt in C2. apply Nat.ltb_lt in C3.
    destruct (user_len_pos _ _ C1) as (x & X1 & X2 & X3 & X4).
    assert (WR : wf (t ++ [NRead a m o])).
    { apply wf_snoc; [exact W| | | | |cbn; contradiction].
      - cbn. intros j [<-|[<-|[<-|[]]]]; auto. eapply nth_lt; eauto.
      - cbn. intros a' <-. eauto.
      - intros; discriminate.
      - intros; discriminate. }
    destruct (is_false t m); [injection H as <- <-; snoc0 W|].
    rewrite X1 in H.
    destruct sym; destruct x; injection H as <- <-; try exact WR; try exact W; snoc0 W.
  - destruct (_ && _)%bool eqn:C in H; [|discriminate]. injection H as <- <-.
    apply andb_prop in C. destruct C as [C1 C2].
    apply Nat.ltb_lt in C1. apply Nat.eqb_eq in C2.
    destruct (user_len_pos _ _ C1) as (x & X1 & X2 & X3 & X4).
    apply wf_set with (m := x); auto; [congruence|]. apply (HC i d eq_refl).
Qed.

Lemma wf_api_all : forall l t t', wf t -> api_all t l = Some t' -> eval_use t l -> wf t'.
Proof.
  induction l as [|c l IH]; intros t t' W H U; cbn [api_all eval_use] in *.
  - injection H as <-. exact W.
  - destruct (api t c) as [[t1 r]|] eqn:E; [|discriminate]. destruct U as [U1 U2].
    apply (IH t1); auto. apply (wf_api t c t1 r W E). intros i d ->. exact U1.
Qed.

(** ** Values *)

Lemma values_snoc : forall t n, values (t ++ [n]) = values t ++ [node_val (values t) n].
Proof. intros t n. unfold values. rewrite fold_left_app. reflexivity. Qed.

Lemma values_length : forall t, length (values t) = length t.
Proof.
  induction t as [|n t IH] using rev_ind; [reflexivity|].
  rewrite values_snoc, !app_length, IH. reflexivity.
Qed.

Lemma num_app : forall d x i, (i < length d)%nat -> num (d ++ x) i = num d i.
Proof. intros. unfold num. rewrite nth_error_app1 by assumption. reflexivity. Qed.

Lemma nums_app : forall d x l, (forall i, In i l -> (i < length d)%nat) ->
  nums (d ++ x) l = nums d l.
Proof.
  induction l as [|i l IH]; intros H; [reflexivity|]. cbn [nums].
  rewrite num_app by (apply H; left; reflexivity).
  rewrite IH by (intros; apply H; right; assumption). reflexivity.
Qed.

Lemma node_val_app : forall d x n, (forall i, In i (operands n) -> (i < length d)%nat) ->
  node_val (d ++ x) n = node_val d n.
Proof.
  intros d x n H. destruct n; cbn [node_val operands] in *; try reflexivity.
  - rewrite nums_app by exact H. reflexivity.
  - rewrite nth_error_app1 by (apply H; cbn; auto 10).
    rewrite num_app by (apply H; cbn; auto 10). reflexivity.
  - rewrite nth_error_app1 by (apply H; cbn; auto 10).
    rewrite !num_app by (apply H; cbn; auto 10). reflexivity.
  - rewrite nth_error_app1 by (apply H; cbn; auto 10).
    rewrite !num_app by (apply H; cbn; auto 10). reflexivity.
Qed.

Definition ops_lt (t : table) : Prop :=
  forall i n j, nth_error t i = Some n -> In j (operands n) -> (j < i)%nat.

Lemma ops_lt_front : forall t n, ops_lt (t ++ [n]) -> ops_lt t.
Proof.
  intros t n H i m j E J. apply (H i m j); [|exact J].
  rewrite nth_error_app1; [exact E|]. eapply nth_lt; eauto.
Qed.

Lemma values_nth : forall t i n, ops_lt t -> nth_error t i = Some n ->
  nth_error (values t) i = Some (node_val (values t) n).
Proof.
  induction t as [|x t IH] using rev_ind; intros i n O E.
  - destruct i; discriminate.
  - rewrite values_snoc. assert (E' := E). apply nth_error_snoc in E'.
    destruct E' as [E'|[-> ->]].
    + assert (L := nth_lt _ _ _ E').
      rewrite nth_error_app1 by (rewrite values_length; exact L).
      rewrite (IH i n (ops_lt_front _ _ O) E').
      rewrite node_val_app; [reflexivity|].
      intros j J. specialize (O i n j E J). rewrite values_length. lia.
    + rewrite nth_error_app2 by (rewrite values_length; lia).
      rewrite values_length, Nat.sub_diag. cbn [nth_error].
      rewrite node_val_app; [reflexivity|].
      intros j J. specialize (O _ _ j E J). rewrite values_length. exact O.
Qed.

Lemma val_of_node : forall t i n, ops_lt t -> nth_error t i = Some n ->
  val_of t i = node_val (values t) n /\ nth_error (values t) i = Some (val_of t i).
Proof.
  intros t i n O E. assert (H := values_nth t i n O E).
  assert (val_of t i = node_val (values t) n).
  { unfold val_of. apply nth_error_nth. exact H. }
  split; [exact H0|]. rewrite H0. exact H.
Qed.

Lemma val_of_app : forall t x i, (i < length t)%nat -> val_of (t ++ x) i = val_of t i.
Proof.
  intros t x. induction x as [|n x IH] using rev_ind; intros i L.
  - rewrite app_nil_r. reflexivity.
  - rewrite app_assoc. unfold val_of in *. rewrite values_snoc.
    rewrite app_nth1; [apply IH; exact L|]. rewrite values_length, app_length. lia.
Qed.
