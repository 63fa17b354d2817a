(** The mask stack: proofs *)
From Verif Require Import Base Msk_Model Msk_Spec.

(** * Values *)
Lemma means_app vs l : exists t, means vs l = vs ++ t /\ length t = length l.
Proof.
  revert vs; induction l as [|v l IH]; intros vs; cbn [means].
  - exists []. now rewrite app_nil_r.
  - destruct (IH (vs ++ [mean vs v])) as (t & E & L). exists (mean vs v :: t). rewrite E, <- app_assoc. cbn. auto.
Qed.
Lemma means_nth l : forall vs i v d, nth_error l i = Some v ->
  nth (length vs + i) (means vs l) d = mean (firstn (length vs + i) (means vs l)) v.
Proof.
  induction l as [|w l IH]; intros vs i v d H; [destruct i; discriminate|]. cbn [means].
  destruct i as [|i]; cbn [nth_error] in H.
  - injection H as ->. destruct (means_app (vs ++ [mean vs v]) l) as (t & -> & _). rewrite Nat.add_0_r.
    rewrite <- app_assoc. cbn [app]. rewrite app_nth2, Nat.sub_diag by lia. cbn [nth].
    rewrite firstn_app, Nat.sub_diag, firstn_all. cbn [firstn]. now rewrite app_nil_r.
  - specialize (IH (vs ++ [mean vs w]) i v d H). rewrite app_length in IH. cbn [length] in IH.
    replace (length vs + S i) with (length vs + 1 + i) by lia. exact IH.
Qed.
Lemma nth_firstn {A} (l : list A) a n d : a < n -> nth a (firstn n l) d = nth a l d.
Proof.
  revert a n; induction l as [|x l IH]; intros a n H; [now rewrite firstn_nil|].
  destruct n as [|n]; [lia|]. cbn [firstn]. destruct a as [|a]; [reflexivity|]. cbn [nth]. apply IH. lia.
Qed.
Definition below (i : nat) (k : kind) : Prop :=
  match k with KAnd a b => a < i /\ b < i | KRes a => a < i | _ => True end.
Lemma val_eq s i v n l : get s i = Some v -> below i (x_kind v) ->
  val s i n l = match x_kind v with
                | KLit b => b
                | KDef => Nat.ltb l n
                | KExp f g => if Nat.ltb l n then f (if Nat.eqb (x_size v) 1 then 0 else l) else g l
                | KMem d p => if Nat.eqb (x_size v) 1 then d 0 else if Nat.ltb l (x_size v) then d l else p l
                | KAnd a b => val s a n l && val s b n l
                | KRes a => val s a n l
                end.
Proof.
  intros G B. unfold val. rewrite (means_nth (vars s) [] i v _ G). cbn [length plus]. unfold mean.
  destruct (x_kind v); auto; cbn [below] in B; rewrite !nth_firstn by lia; reflexivity.
Qed.

(** * Invariant *)
Section Proofs.
Variables (be : backend) (cp : bool).

Definition WF (ms : list mask) (i : nat) (v : var) (m : mask) : Prop :=
  m_size m = x_size v /\ x_size v <> 0 /\
  match x_kind v with
  | KLit b => (forall l, m_act m l = b) /\ m_off m = negb b /\ m_lit m = true /\ m_mem m = false
  | KDef => be = LLVM /\ (forall l, m_act m l = true) /\ m_lit m = false /\ m_mem m = false
  | KExp f g => (forall l, m_act m l = f l) /\ m_off m = false /\ m_lit m = false /\ m_mem m = false
  | KMem d p => (forall l, l < x_size v -> m_act m l = d l) /\ m_lit m = false /\ m_mem m = true /\
      (be = LLVM -> m_off m = true -> x_size v <> 1 /\ forall l, x_size v <= l -> p l = false)
  | KAnd a b => exists ma mb, a < i /\ b < i /\ nth_error ms a = Some ma /\ nth_error ms b = Some mb /\
      (m_size ma = 1 \/ m_size ma = m_size m) /\ (m_size mb = 1 \/ m_size mb = m_size m) /\
      (forall n l, m_size m = 1 \/ m_size m = n -> l < n -> lane m l = lane ma l && lane mb l) /\
      (be = LLVM -> m_off m = true -> m_off ma = true \/ m_off mb = true) /\ m_lit m = false /\ m_mem m = false
  | KRes a => exists ma, a < i /\ nth_error ms a = Some ma /\ m_size ma = 1 /\ (forall l, lane m l = lane ma l) /\
      (be = LLVM -> m_off m = true -> m_off ma = true) /\ m_lit m = false /\ m_mem m = false
  end.
Record Inv (s : state) (ms : list mask) : Prop := {
  i_len : length ms = length (vars s);
  i_wf : forall i v m, get s i = Some v -> nth_error ms i = Some m -> WF ms i v m
}.

Lemma WF_below ms i v m : WF ms i v m -> below i (x_kind v).
Proof.
  intros (_ & _ & H). destruct (x_kind v); cbn [below]; auto.
  - destruct H as (? & ? & ? & ? & _). auto.
  - destruct H as (? & ? & _). auto.
Qed.
Lemma get_ms s ms i v : Inv s ms -> get s i = Some v -> exists m, nth_error ms i = Some m /\ WF ms i v m.
Proof.
  intros H G. destruct (nth_error ms i) as [m|] eqn:E; [exists m; split; [reflexivity|eapply i_wf; eauto]|].
  apply nth_error_None in E. rewrite (i_len _ _ H) in E. apply nth_error_None in E. unfold get in G. congruence.
Qed.
Lemma ms_get s ms i m : Inv s ms -> nth_error ms i = Some m -> exists v, get s i = Some v /\ WF ms i v m.
Proof.
  intros H E. destruct (get s i) as [v|] eqn:G; [exists v; split; [reflexivity|eapply i_wf; eauto]|].
  apply nth_error_None in G. rewrite <- (i_len _ _ H) in G. apply nth_error_None in G. congruence.
Qed.

Lemma shown s ms : Inv s ms -> forall i m n, nth_error ms i = Some m -> m_size m = 1 \/ m_size m = n ->
  (forall l, l < n -> val s i n l = lane m l) /\ (be = LLVM -> m_off m = true -> forall l, n <= l -> val s i n l = false).
Proof.
  intros H i. induction i as [i IH] using lt_wf_ind. intros m n E SZ.
  destruct (ms_get _ _ _ _ H E) as (v & G & W). pose proof (WF_below _ _ _ _ W) as B.
  assert (V : forall l, val s i n l = _) by (intros l; exact (val_eq s i v n l G B)).
  destruct W as (S1 & S0 & W). unfold lane. destruct (x_kind v) as [b| |f g|d p|a b|a].
  - destruct W as (W1 & W2 & _). split; [intros l _; now rewrite V, W1|]. intros _ O l _. rewrite V. rewrite W2 in O. destruct b; [discriminate O|reflexivity].
  - destruct W as (_ & W1 & _). split; intros; rewrite V.
    + rewrite W1. now apply Nat.ltb_lt.
    + now apply Nat.ltb_ge.
  - destruct W as (W1 & W2 & _). split; [|congruence]. intros l L. rewrite V, W1, S1.
    now rewrite (proj2 (Nat.ltb_lt l n) L).
  - destruct W as (W1 & _ & _ & W2). split.
    + intros l L. rewrite V. rewrite S1 in *. destruct (Nat.eqb_spec (x_size v) 1) as [Q|Q].
      * rewrite W1 by lia. reflexivity.
      * assert (x_size v = n) by lia. rewrite (proj2 (Nat.ltb_lt l (x_size v))) by lia. rewrite W1 by lia. reflexivity.
    + intros EB O l L. destruct (W2 EB O) as [Q P]. rewrite V. rewrite (proj2 (Nat.eqb_neq _ _) Q).
      rewrite S1 in SZ. rewrite (proj2 (Nat.ltb_ge l (x_size v))) by lia. apply P. lia.
  - destruct W as (ma & mb & La & Lb & Ea & Eb & Sa & Sb & LN & OF & _).
    destruct (IH a La ma n Ea ltac:(lia)) as [A1 A2]. destruct (IH b Lb mb n Eb ltac:(lia)) as [B1 B2]. split.
    + intros l L. rewrite V, A1, B1 by exact L. symmetry. exact (LN n l SZ L).
    + intros EB O l L. rewrite V. destruct (OF EB O) as [X|X]; [rewrite A2 by auto; reflexivity|rewrite B2 by auto; apply andb_false_r].
  - destruct W as (ma & La & Ea & Sa & LN & OF & _). destruct (IH a La ma n Ea (or_introl Sa)) as [A1 A2]. split.
    + intros l L. rewrite V, A1 by exact L. symmetry. apply LN.
    + intros EB O l L. rewrite V. apply A2; auto.
Qed.

Definition extends (ms ms' : list mask) : Prop := exists t, ms' = ms ++ t.
Lemma extends_refl ms : extends ms ms.
Proof. exists []. now rewrite app_nil_r. Qed.
Lemma extends_trans a b c : extends a b -> extends b c -> extends a c.
Proof. intros [t ->] [u ->]. exists (t ++ u). now rewrite app_assoc. Qed.
Lemma extends_nth ms ms' i m : extends ms ms' -> nth_error ms i = Some m -> nth_error ms' i = Some m.
Proof. intros [t ->] E. rewrite nth_error_app1; [exact E|]. apply nth_error_Some. congruence. Qed.
Lemma WF_ext ms t i v m : WF ms i v m -> WF (ms ++ t) i v m.
Proof.
  intros (S1 & S0 & W). split; [exact S1|]. split; [exact S0|].
  assert (X : forall a ma, nth_error ms a = Some ma -> nth_error (ms ++ t) a = Some ma)
    by (intros a ma; apply extends_nth; now exists t).
  destruct (x_kind v); auto.
  - destruct W as (ma & mb & La & Lb & Ea & Eb & R). exists ma, mb. auto 10.
  - destruct W as (ma & La & Ea & R). exists ma. auto.
Qed.

Lemma Inv_new s ms n k m : Inv s ms -> WF ms (length (vars s)) {| x_size := n; x_kind := k |} m ->
  Inv (fst (new s n k)) (ms ++ [m]) /\ nth_error (ms ++ [m]) (snd (new s n k)) = Some m /\ extends ms (ms ++ [m]) /\
  stack (fst (new s n k)) = stack s.
Proof.
  intros H W. unfold new. cbn [fst snd stack]. rewrite <- (i_len _ _ H) in *.
  split; [|split; [rewrite nth_error_app2, Nat.sub_diag by lia; reflexivity|split; [now exists [m]|reflexivity]]].
  split; cbn [vars]; [rewrite !app_length; cbn; now rewrite (i_len _ _ H)|].
  intros i v m' G E. unfold get in G. cbn [vars] in G.
  destruct (Nat.lt_trichotomy i (length ms)) as [L|[->|L]].
  - rewrite nth_error_app1 in E by lia. rewrite nth_error_app1 in G by (rewrite <- (i_len _ _ H); lia).
    apply WF_ext. eapply i_wf; eauto.
  - rewrite (i_len _ _ H) in G at 1. rewrite nth_error_app2, Nat.sub_diag in G by lia. rewrite nth_error_app2, Nat.sub_diag in E by lia.
    cbn in G, E. injection G as <-. injection E as <-. apply WF_ext. exact W.
  - assert (Z : nth_error (ms ++ [m]) i = None) by (apply nth_error_None; rewrite app_length; cbn; lia). congruence.
Qed.

Definition result (s : state) (ms : list mask) (o : option (state * nat)) (P : mask -> Prop) : Prop :=
  exists s' k ms' r, o = Some (s', k) /\ Inv s' ms' /\ extends ms ms' /\ stack s' = stack s /\ nth_error ms' k = Some r /\ P r.

Lemma new_result s ms n k m (P : mask -> Prop) : Inv s ms -> WF ms (length (vars s)) {| x_size := n; x_kind := k |} m -> P m ->
  result s ms (Some (new s n k)) P.
Proof.
  intros H W Pm. destruct (Inv_new s ms n k m H W) as (A & B & C & D).
  exists (fst (new s n k)), (snd (new s n k)), (ms ++ [m]), m. split; [now destruct (new s n k)|]. auto.
Qed.

Definition lit_mask (n : nat) (b : bool) : mask :=
  {| m_size := n; m_act := fun _ => b; m_off := negb b; m_mem := false; m_lit := true |}.
Lemma WF_lit ms i n b : n <> 0 -> WF ms i {| x_size := n; x_kind := KLit b |} (lit_mask n b).
Proof. intros N1. split; [reflexivity|]. split; [exact N1|]. cbn. auto. Qed.
Lemma lane_const m b l : (forall l, m_act m l = b) -> lane m l = b.
Proof. intros H. apply H. Qed.

Lemma resize_ok s ms i v m n sole : Inv s ms -> get s i = Some v -> nth_error ms i = Some m -> n <> 0 ->
  m_size m = 1 \/ m_size m = n -> (sole = true -> m_size m = n) ->
  result s ms (resize s i v n sole) (fun r => m_size r = n /\ (forall l, lane r l = lane m l) /\ (be = LLVM -> m_off m = true -> m_off r = true)).
Proof.
  intros H G E N0 SZ SO. destruct (i_wf _ _ H _ _ _ G E) as (S1 & S0 & W). unfold resize.
  destruct (Nat.eqb_spec (x_size v) n) as [Q|Q].
  - exists s, i, ms, m. split; [reflexivity|]. split; [exact H|]. split; [apply extends_refl|]. split; [reflexivity|].
    split; [exact E|]. split; [congruence|]. auto.
  - assert (S11 : x_size v = 1) by lia. rewrite S11. cbn [Nat.eqb negb andb].
    assert (sole = false) as -> by (destruct sole; [specialize (SO eq_refl); lia|reflexivity]). rewrite andb_false_r.
    assert (RES : (forall b, x_kind v <> KLit b) -> result s ms (Some (new s n (KRes i)))
      (fun r => m_size r = n /\ (forall l, lane r l = lane m l) /\ (be = LLVM -> m_off m = true -> m_off r = true))).
    { intros NL. apply new_result with (m := {| m_size := n; m_act := fun _ => m_act m 0; m_off := m_off m; m_mem := false; m_lit := false |}).
      - exact H.
      - split; [reflexivity|]. split; [exact N0|]. cbn [x_kind]. exists m. split; [|split; [exact E|split; [lia|split; [|auto]]]].
        + rewrite <- (i_len _ _ H). apply nth_error_Some. congruence.
        + intros l. unfold lane. cbn [m_act m_size]. now rewrite S1, S11.
      - split; [reflexivity|]. split; [|auto]. intros l. unfold lane. cbn [m_act m_size]. now rewrite S1, S11. }
    destruct (x_kind v) as [b| | | | | ] eqn:K; try (apply RES; discriminate).
    destruct W as (W1 & W2 & _). apply new_result with (m := lit_mask n b); [exact H|now apply WF_lit|].
    split; [reflexivity|]. split; [intros l; rewrite (lane_const m b) by exact W1; reflexivity|]. intros _ O. cbn. congruence.
Qed.

Lemma lit_is_true b v : lit_is b v = true -> x_kind v = KLit b.
Proof. unfold lit_is. destruct (x_kind v) as [c| | | | | ]; try discriminate. destruct b, c; cbn; congruence. Qed.

Lemma and_ok s ms i j mi mj sole : Inv s ms -> nth_error ms i = Some mi -> nth_error ms j = Some mj ->
  let n := Nat.max (m_size mi) (m_size mj) in
  m_size mi = 1 \/ m_size mi = n -> m_size mj = 1 \/ m_size mj = n -> (sole = true -> m_size mj = n) ->
  result s ms (var_and cp s i j sole) (fun r => m_size r = n /\
    (forall N l, n = 1 \/ n = N -> l < N -> lane r l = lane mi l && lane mj l) /\
    (be = LLVM -> m_off mi = true \/ m_off mj = true -> m_off r = true)).
Proof.
  intros H Ei Ej n Si Sj SO.
  destruct (ms_get _ _ _ _ H Ei) as (v & Gi & Wi). destruct (ms_get _ _ _ _ H Ej) as (w & Gj & Wj).
  unfold var_and. rewrite Gi, Gj. destruct Wi as (Qi & Zi & Wi), Wj as (Qj & Zj & Wj).
  rewrite <- Qi, <- Qj. fold n.
  assert (N0 : n <> 0) by (unfold n; lia).
  replace (negb _) with false; cycle 1.
  { symmetry. apply negb_false_iff. apply andb_true_iff. rewrite !orb_true_iff, !Nat.eqb_eq. split; [destruct Si|destruct Sj]; auto. }
  assert (LT : forall q, nth_error ms i = Some q -> i < length (vars s)) by (intros q E; rewrite <- (i_len _ _ H); apply nth_error_Some; congruence).
  destruct (cp && is_lit v && is_lit w) eqn:C1.
  { apply andb_true_iff in C1 as [C1 C2]. apply andb_true_iff in C1 as [_ C1]. unfold is_lit in C1, C2. unfold lit_is.
    destruct (x_kind v) as [b| | | | | ]; try discriminate. destruct (x_kind w) as [b'| | | | | ]; try discriminate.
    destruct Wi as (I1 & I2 & _), Wj as (J1 & J2 & _).
    apply new_result with (m := lit_mask n (Bool.eqb true b && Bool.eqb true b')); [exact H|now apply WF_lit|].
    split; [reflexivity|]. split.
    - intros N l _ _. rewrite (lane_const mi b), (lane_const mj b') by assumption. destruct b, b'; reflexivity.
    - intros _. cbn [lit_mask m_off]. rewrite I2, J2. destruct b, b'; cbn; intuition congruence. }
  destruct (cp && (lit_is false v || lit_is false w)) eqn:C2.
  { apply andb_true_iff in C2 as [_ C2]. apply new_result with (m := lit_mask n false); [exact H|now apply WF_lit|].
    split; [reflexivity|]. split; [|reflexivity]. intros N l _ _. apply orb_true_iff in C2 as [C2|C2]; apply lit_is_true in C2.
    - rewrite C2 in Wi. rewrite (lane_const mi false) by apply Wi. reflexivity.
    - rewrite C2 in Wj. rewrite (lane_const mj false) by apply Wj. symmetry. apply andb_false_r. }
  destruct (cp && (lit_is true w || Nat.eqb i j)) eqn:C3.
  { apply andb_true_iff in C3 as [_ C3].
    destruct (resize_ok s ms i v mi n false H Gi Ei N0 Si ltac:(discriminate)) as (s' & k & ms' & r & A1 & A2 & A3 & A4 & A5 & R1 & R2 & R3).
    exists s', k, ms', r. do 5 (split; [assumption|]). split; [exact R1|].
    apply orb_true_iff in C3 as [C3|C3].
    - apply lit_is_true in C3. rewrite C3 in Wj. destruct Wj as (J1 & J2 & _). split.
      + intros N l _ _. rewrite R2, (lane_const mj true) by exact J1. symmetry. apply andb_true_r.
      + intros EB [O|O]; [auto|]. rewrite J2 in O. discriminate O.
    - apply Nat.eqb_eq in C3. subst j. rewrite Ei in Ej. injection Ej as <-. split.
      + intros N l _ _. rewrite R2. symmetry. apply andb_diag.
      + intros EB [O|O]; auto. }
  destruct (cp && lit_is true v) eqn:C4.
  { apply andb_true_iff in C4 as [_ C4]. apply lit_is_true in C4. rewrite C4 in Wi. destruct Wi as (I1 & I2 & _).
    destruct (resize_ok s ms j w mj n sole H Gj Ej N0 Sj SO) as (s' & k & ms' & r & A1 & A2 & A3 & A4 & A5 & R1 & R2 & R3).
    exists s', k, ms', r. do 5 (split; [assumption|]). split; [exact R1|]. split.
    - intros N l _ _. rewrite R2, (lane_const mi true) by exact I1. reflexivity.
    - intros EB [O|O]; [|auto]. rewrite I2 in O. discriminate O. }
  apply new_result with (m := {| m_size := n; m_act := fun l => lane mi l && lane mj l; m_off := m_off mi || m_off mj; m_mem := false; m_lit := false |}).
  - exact H.
  - assert (LN : forall N l, n = 1 \/ n = N -> l < N -> lane {| m_size := n; m_act := fun l => lane mi l && lane mj l; m_off := m_off mi || m_off mj; m_mem := false; m_lit := false |} l = lane mi l && lane mj l).
    { intros N l X L. unfold lane at 1. cbn [m_act m_size]. destruct (Nat.eqb_spec n 1) as [E1|E1]; [|reflexivity].
      unfold lane. assert (m_size mi = 1) by lia. assert (m_size mj = 1) by lia. rewrite H0, H1. reflexivity. }
    split; [reflexivity|]. split; [exact N0|]. cbn [x_kind m_size]. exists mi, mj. rewrite <- (i_len _ _ H).
    split; [apply nth_error_Some; congruence|]. split; [apply nth_error_Some; congruence|].
    split; [exact Ei|]. split; [exact Ej|]. split; [exact Si|]. split; [exact Sj|]. split; [exact LN|].
    split; [|auto]. intros _ O. cbn [m_off] in O. now apply orb_true_iff in O.
  - split; [reflexivity|]. split.
    + intros N l X L. unfold lane at 1. cbn [m_act m_size]. destruct (Nat.eqb_spec n 1) as [E1|E1]; [|reflexivity].
      unfold lane. assert (m_size mi = 1) by lia. assert (m_size mj = 1) by lia. rewrite H0, H1. reflexivity.
    + intros _ O. cbn [m_off]. now apply orb_true_iff.
Qed.

(** * Calls *)
Record CI (s : state) (c : client) : Prop := {
  ci_stack : stack s = c_stack c;
  ci_known : forall i, In i (c_stack c) -> c_mask c i <> None;
  ci_inv : exists ms, Inv s ms /\ forall i m, c_mask c i = Some m -> nth_error ms i = Some m
}.

Lemma CI_shows s c : CI s c -> shows be s c.
Proof. intros [_ _ (ms & H & K)] i m n E SZ. exact (shown s ms H i m n (K _ _ E) SZ). Qed.

Lemma CI_new s c ms n k m : stack s = c_stack c -> (forall i, In i (c_stack c) -> c_mask c i <> None) ->
  Inv s ms -> (forall i m, c_mask c i = Some m -> nth_error ms i = Some m) ->
  WF ms (length (vars s)) {| x_size := n; x_kind := k |} m ->
  CI (fst (new s n k)) (add c (snd (new s n k)) m) /\ c_mask c (snd (new s n k)) = None.
Proof.
  intros ST KN H K W. destruct (Inv_new s ms n k m H W) as (A & B & C & D).
  assert (NN : c_mask c (snd (new s n k)) = None).
  { destruct (c_mask c _) as [q|] eqn:E; [|reflexivity]. apply K in E. cbn in E. rewrite <- (i_len _ _ H) in E.
    assert (nth_error ms (length ms) = None) by (apply nth_error_None; lia). congruence. }
  split; [|exact NN]. split.
  - rewrite D. exact ST.
  - intros i I1. cbn. destruct (Nat.eqb i _); [discriminate|auto].
  - exists (ms ++ [m]). split; [exact A|]. intros i q. cbn [add c_mask]. destruct (Nat.eqb_spec i (snd (new s n k))) as [->|_].
    + intros [= <-]. exact B.
    + intros E. apply (extends_nth _ _ _ _ C). auto.
Qed.

(** The result of jit_var_mask_apply *)
Lemma CI_result s c ms o P : stack s = c_stack c -> (forall i, In i (c_stack c) -> c_mask c i <> None) ->
  (forall i m, c_mask c i = Some m -> nth_error ms i = Some m) -> result s ms o P ->
  exists s' k r, o = Some (s', k) /\ (c_mask c k = None \/ c_mask c k = Some r) /\ P r /\ CI s' (add c k r).
Proof.
  intros ST KN K (s' & k & ms' & r & -> & H & X & S1 & E & Pr). exists s', k, r. split; [reflexivity|].
  assert (Q : forall q, c_mask c k = Some q -> q = r).
  { intros q Eq. apply K in Eq. apply (extends_nth _ _ _ _ X) in Eq. congruence. }
  split; [destruct (c_mask c k) as [q|]; [right; f_equal; auto|auto]|]. split; [exact Pr|]. split.
  - rewrite S1. exact ST.
  - intros i I1. cbn. destruct (Nat.eqb i k); [discriminate|auto].
  - exists ms'. split; [exact H|]. intros i q. cbn [add c_mask]. destruct (Nat.eqb_spec i k) as [->|_].
    + intros [= <-]. exact E.
    + intros Eq. apply (extends_nth _ _ _ _ X). auto.
Qed.

Lemma apply_ok s c ms i n sole m : stack s = c_stack c -> (forall i, In i (c_stack c) -> c_mask c i <> None) ->
  Inv s ms -> (forall i m, c_mask c i = Some m -> nth_error ms i = Some m) ->
  legal be c (Apply i n sole) -> c_mask c i = Some m ->
  result s ms (mask_apply be cp s i n sole) (fun r =>
    (m_size r = 1 \/ m_size r = lanes c n m) /\
    (forall l, l < lanes c n m -> lane r l = lane m l && match top c n with Some t => lane t l | None => true end) /\
    (be = LLVM -> m_off r = true)).
Proof.
  intros ST KN H K (N0 & m' & Em' & Z1 & Z2 & Z3 & Z4 & Z5) Em. rewrite Em in Em'. injection Em' as <-.
  pose proof (K _ _ Em) as Ei. destruct (ms_get _ _ _ _ H Ei) as (v & Gi & Wi).
  assert (DEF : forall q, q <> 0 -> be = LLVM ->
     result s ms (Some (mask_default be s q)) (fun r => m_size r = q /\ (forall l, lane r l = true) /\ m_off r = true)).
  { intros q Q0 EB. unfold mask_default. rewrite EB.
    apply new_result with (m := {| m_size := q; m_act := fun _ => true; m_off := true; m_mem := false; m_lit := false |}); [exact H| |auto].
    split; [reflexivity|]. split; [exact Q0|]. cbn. auto. }
  match goal with |- result _ _ _ ?X => set (P := X) end.
  unfold mask_apply. rewrite Gi, ST.
  assert (TOP : match c_stack c with
    | [] => None
    | j :: _ => match get s j with
                | Some w => if Nat.eqb n 1 || Nat.eqb (x_size w) 1 || Nat.eqb (x_size w) n then Some (j, w) else None
                | None => None
                end
    end = None /\ top c n = None \/
    exists j w t, match c_stack c with
    | [] => None
    | j :: _ => match get s j with
                | Some w => if Nat.eqb n 1 || Nat.eqb (x_size w) 1 || Nat.eqb (x_size w) n then Some (j, w) else None
                | None => None
                end
    end = Some (j, w) /\ top c n = Some t /\ nth_error ms j = Some t /\ get s j = Some w /\ WF ms j w t).
  { unfold top. destruct (c_stack c) as [|j st]; [auto|]. specialize (KN j (or_introl eq_refl)).
    destruct (c_mask c j) as [t|] eqn:Et; [|congruence]. pose proof (K _ _ Et) as Ej.
    destruct (ms_get _ _ _ _ H Ej) as (w & Gj & Wj). rewrite Gj. destruct Wj as (Q & Wj). rewrite Q.
    destruct (_ || _ || _); [right|auto]. exists j, w, t. repeat split; auto; apply Wj. }
  assert (LN : lanes c n m = Nat.max n (Nat.max (top_size (top c n)) (m_size m))) by reflexivity.
  destruct TOP as [[-> ET]|(j & w & t & -> & ET & Ej & Gj & Wj)]; rewrite ET in *; cbn [top_size] in LN.
  - specialize (Z3 eq_refl). assert (EBC : be = LLVM \/ be = GPU) by (destruct be; auto). destruct EBC as [EB|EB].
    + destruct (DEF n N0 EB) as (s1 & d & ms1 & r1 & D1 & I1 & X1 & S1 & E1 & R1 & R2 & R3).
      assert (D2 : mask_default be s n = (s1, d)) by congruence. clear D1. rewrite D2. rewrite EB. unfold P. clear P. rewrite ?ET.
      pose proof (extends_nth _ _ _ _ X1 Ei) as Ei1.
      destruct (and_ok s1 ms1 d i r1 m sole I1 E1 Ei1) as (s2 & k & ms2 & r & A1 & A2 & A3 & A4 & A5 & A6 & A7 & A8); try lia.
      exists s2, k, ms2, r. split; [exact A1|]. split; [exact A2|]. split; [exact (extends_trans _ _ _ X1 A3)|].
      split; [congruence|]. split; [exact A5|]. split; [lia|]. split; [|intros _; apply A8; auto].
      intros l L. rewrite (A7 (lanes c n m) l) by lia. rewrite R2. symmetry. apply andb_true_r.
    + rewrite EB. unfold P. clear P. rewrite ?ET.
      destruct (resize_ok s ms i v m n false H Gi Ei N0) as (s2 & k & ms2 & r & A1 & A2 & A3 & A4 & A5 & A6 & A7 & A8); try lia; try discriminate.
      exists s2, k, ms2, r. do 5 (split; [assumption|]). split; [lia|]. split; [|congruence].
      intros l L. rewrite A7. symmetry. apply andb_true_r.
  - specialize (Z2 t eq_refl). assert (N1 : n = 1 \/ m_size t = 1 \/ m_size t = n).
    { unfold top in ET. destruct (c_stack c) as [|j' st]; [discriminate|]. destruct (c_mask c j') as [t'|]; [|discriminate].
      destruct (_ || _ || _) eqn:C; [|discriminate]. injection ET as ->. rewrite !orb_true_iff, !Nat.eqb_eq in C. tauto. }
    assert (DONE : forall s1 ms1 j1 t1, Inv s1 ms1 -> extends ms ms1 -> stack s1 = stack s -> nth_error ms1 j1 = Some t1 ->
       m_size t1 = 1 \/ m_size t1 = lanes c n m ->
       (forall l, l < lanes c n m -> lane t1 l = lane t l) -> (be = LLVM -> m_off t1 = true) ->
       result s ms (var_and cp s1 j1 i sole) (fun r =>
         (m_size r = 1 \/ m_size r = lanes c n m) /\
         (forall l, l < lanes c n m -> lane r l = lane m l && lane t l) /\ (be = LLVM -> m_off r = true))).
    { intros s1 ms1 j1 t1 I1 X1 S1 E1 SZ1 L1 O1. pose proof (extends_nth _ _ _ _ X1 Ei) as Ei1.
      destruct (and_ok s1 ms1 j1 i t1 m sole I1 E1 Ei1) as (s2 & k & ms2 & r & A1 & A2 & A3 & A4 & A5 & A6 & A7 & A8); try lia.
      exists s2, k, ms2, r. split; [exact A1|]. split; [exact A2|]. split; [exact (extends_trans _ _ _ X1 A3)|].
      split; [congruence|]. split; [exact A5|]. split; [lia|]. split; [|intros EB; apply A8; auto].
      intros l L. rewrite (A7 (lanes c n m) l) by lia. rewrite L1 by exact L. apply andb_comm. }
    assert (EBC : be = LLVM \/ be = GPU) by (destruct be; auto). destruct EBC as [EB|EB].
    + destruct (DEF n N0 EB) as (s1 & d & ms1 & r1 & D1 & I1 & X1 & S1 & E1 & R1 & R2 & R3).
      assert (D2 : mask_default be s n = (s1, d)) by congruence. clear D1. rewrite D2. rewrite EB. unfold P. clear P. rewrite ?ET. pose proof (extends_nth _ _ _ _ X1 Ej) as Ej1.
      destruct (is_mem w && Nat.eqb n 1) eqn:CM.
      * apply andb_true_iff in CM as [_ CM]. apply Nat.eqb_eq in CM.
        destruct (and_ok s1 ms1 j d t r1 false I1 Ej1 E1) as (s2 & k & ms2 & r & A1 & A2 & A3 & A4 & A5 & A6 & A7 & A8); try lia; try discriminate.
        rewrite A1. apply (DONE s2 ms2 k r A2 (extends_trans _ _ _ X1 A3)); auto.
        -- congruence.
        -- lia.
        -- intros l L. rewrite (A7 (lanes c n m) l) by lia. rewrite R2. apply andb_true_r.
      * apply (DONE s1 ms1 j t I1 X1 S1 Ej1); auto.
        intros _. destruct (Z5 EB t eq_refl) as [O|[O1 O2]]; [exact O|]. exfalso.
        destruct Wj as (_ & _ & Wj). unfold is_mem in CM. rewrite O2 in CM. cbn [Nat.eqb] in CM. rewrite andb_true_r in CM.
        destruct (x_kind w); try discriminate CM; decompose [and ex] Wj; congruence.
    + rewrite EB. unfold P. clear P. rewrite ?ET. apply (DONE s ms j t H (extends_refl _) eq_refl Ej); auto. congruence.
Qed.

Lemma Inv_stack s ms l : Inv s ms -> Inv (set_stack s l) ms.
Proof. intros [A B]. split; [exact A|exact B]. Qed.

Theorem step_ok s c o : CI s c -> legal be c o ->
  exists s' x c', step be cp s o = Some (s', x) /\ effect be c o x c' /\ CI s' c'.
Proof.
  intros HC LG. pose proof HC as [ST KN (ms & H & K)]. destruct o as [b n|n|n f g|i|i| | |i n sole]; cbn [step].
  - destruct (CI_new s c ms n (KLit b) (lit_mask n b) ST KN H K (WF_lit _ _ _ _ LG)) as [A B].
    destruct (new s n (KLit b)) as [s' i]. cbn [fst snd] in *. eexists _, _, _. split; [reflexivity|]. split; [|exact A]. now apply ef_lit.
  - unfold mask_default. destruct be eqn:EB.
    + destruct (CI_new s c ms n KDef {| m_size := n; m_act := fun _ => true; m_off := true; m_mem := false; m_lit := false |} ST KN H K) as [A B].
      { split; [reflexivity|]. split; [exact LG|]. cbn. auto. }
      destruct (new s n KDef) as [s' i]. cbn [fst snd] in *. eexists _, _, _. split; [reflexivity|]. split; [|exact A]. now apply (ef_default LLVM).
    + destruct (CI_new s c ms n (KLit true) (lit_mask n true) ST KN H K (WF_lit _ _ _ _ LG)) as [A B].
      destruct (new s n (KLit true)) as [s' i]. cbn [fst snd] in *. eexists _, _, _. split; [reflexivity|]. split; [|exact A]. now apply (ef_default GPU).
  - destruct (CI_new s c ms n (KExp f g) {| m_size := n; m_act := f; m_off := false; m_mem := false; m_lit := false |} ST KN H K) as [A B].
    { split; [reflexivity|]. split; [exact LG|]. cbn. auto. }
    destruct (new s n (KExp f g)) as [s' i]. cbn [fst snd] in *. eexists _, _, _. split; [reflexivity|]. split; [|exact A]. now apply ef_cond.
  - destruct LG as (m & Em & LG). pose proof (K _ _ Em) as Ei. destruct (ms_get _ _ _ _ H Ei) as (v & Gi & Wi). rewrite Gi.
    eexists _, _, _. split; [reflexivity|]. split; [now apply ef_eval with (m := m)|].
    destruct (shown s ms H i m (x_size v) Ei) as [V1 V2]; [right; apply Wi|].
    assert (DO : m_lit m = false -> (forall d p, x_kind v <> KMem d p) ->
       CI (change s i {| x_size := x_size v; x_kind := KMem (fun l => val s i (x_size v) l) (fun l => val s i (x_size v) l) |})
         (add c i {| m_size := m_size m; m_act := m_act m; m_off := m_off m; m_mem := true; m_lit := false |})).
    { intros NL NM. set (m1 := {| m_size := m_size m; m_act := m_act m; m_off := m_off m; m_mem := true; m_lit := false |}).
      split; [exact ST| |].
      - intros q I1. cbn. destruct (Nat.eqb q i); [discriminate|auto].
      - assert (LI : i < length ms) by (apply nth_error_Some; congruence).
        assert (LV : i < length (vars s)) by (rewrite <- (i_len _ _ H); exact LI).
        exists (set_nth i m1 ms). split; [split|].
        + unfold change. cbn [vars]. rewrite !set_nth_length. apply (i_len _ _ H).
        + assert (REL : forall a ma, nth_error ms a = Some ma -> exists ma', nth_error (set_nth i m1 ms) a = Some ma' /\
             m_size ma' = m_size ma /\ (forall l, lane ma' l = lane ma l) /\ m_off ma' = m_off ma).
          { intros a ma Ea. destruct (Nat.eq_dec a i) as [->|NE].
            - exists m1. rewrite nth_error_set_nth_eq by exact LI. rewrite Ei in Ea. injection Ea as <-. auto.
            - exists ma. rewrite nth_error_set_nth_neq by auto. auto. }
          intros q u mq Gq Eq. unfold get, change in Gq. cbn [vars] in Gq. destruct (Nat.eq_dec q i) as [->|NE].
          * rewrite nth_error_set_nth_eq in Gq by exact LV. rewrite nth_error_set_nth_eq in Eq by exact LI.
            injection Gq as <-. injection Eq as <-. destruct Wi as (S1 & S0 & _). split; [exact S1|]. split; [exact S0|].
            cbn [x_kind x_size m1 m_act m_lit m_mem m_off]. split; [|split; [reflexivity|split; [reflexivity|]]].
            -- intros l L. rewrite V1 by exact L. unfold lane. destruct (Nat.eqb_spec (m_size m) 1); [|reflexivity].
               replace l with 0 by lia. reflexivity.
            -- intros EB O. split; [|intros l L; now apply V2].
               intros Q. rewrite <- S1 in Q. destruct (LG EB Q) as [X|X]; congruence.
          * rewrite nth_error_set_nth_neq in Gq by auto. rewrite nth_error_set_nth_neq in Eq by auto.
            destruct (i_wf _ _ H _ _ _ Gq Eq) as (S1 & S0 & W). split; [exact S1|]. split; [exact S0|].
            destruct (x_kind u); auto.
            -- destruct W as (ma & mb & La & Lb & Ea & Eb & Sa & Sb & LN & OF & R).
               destruct (REL _ _ Ea) as (ma' & Ea' & Sa' & La' & Oa'). destruct (REL _ _ Eb) as (mb' & Eb' & Sb' & Lb' & Ob').
               exists ma', mb'. rewrite Sa', Sb', Oa', Ob'. do 6 (split; [assumption|]). split; [|split; [exact OF|exact R]].
               intros n l X L. rewrite La', Lb'. now apply (LN n).
            -- destruct W as (ma & La & Ea & Sa & LN & OF & R). destruct (REL _ _ Ea) as (ma' & Ea' & Sa' & La' & Oa').
               exists ma'. rewrite Sa', Oa'. do 3 (split; [assumption|]). split; [|split; [exact OF|exact R]].
               intros l. rewrite La'. apply LN.
        + intros q mq. cbn [add c_mask]. destruct (Nat.eqb_spec q i) as [->|NE].
          * intros [= <-]. now rewrite nth_error_set_nth_eq by exact LI.
          * intros E. rewrite nth_error_set_nth_neq by auto. auto. }
    unfold eval. destruct Wi as (S1 & S0 & W). destruct (x_kind v) eqn:KD.
    + destruct W as (_ & _ & L & _). rewrite L. exact HC.
    + destruct W as (_ & _ & L & _). rewrite L. apply DO; [exact L|discriminate].
    + destruct W as (_ & _ & L & _). rewrite L. apply DO; [exact L|discriminate].
    + destruct W as (_ & L & M & _). rewrite L. split; [exact ST| |].
      * intros q I1. cbn. destruct (Nat.eqb q i); [discriminate|auto].
      * exists ms. split; [exact H|]. intros q mq. cbn [add c_mask]. destruct (Nat.eqb_spec q i) as [->|NE]; [|auto].
        intros [= <-]. rewrite Ei. f_equal. destruct m; cbn in *; congruence.
    + destruct W as (ma & mb & _ & _ & _ & _ & _ & _ & _ & _ & L & _). rewrite L. apply DO; [exact L|discriminate].
    + destruct W as (ma & _ & _ & _ & _ & _ & L & _). rewrite L. apply DO; [exact L|discriminate].
  - cbn [legal] in LG. destruct (c_mask c i) as [m|] eqn:Em; [|congruence]. destruct (ms_get _ _ _ _ H (K _ _ Em)) as (v & Gi & _). rewrite Gi.
    eexists _, _, _. split; [reflexivity|]. split; [apply ef_push|]. split; cbn; [now rewrite ST| |exists ms; split; [now apply Inv_stack|exact K]].
    intros q [<-|I1]; [congruence|auto].
  - destruct (stack s) as [|j l] eqn:SE; (eexists _, _, _; split; [reflexivity|]).
    + split; [apply ef_pop_bad; auto|exact HC].
    + split; [apply ef_pop with (i := j); symmetry; exact ST|]. split; cbn; [reflexivity| |exists ms; split; [now apply Inv_stack|exact K]].
      intros q I1. apply KN. rewrite <- ST. now right.
  - destruct (stack s) as [|j l] eqn:SE; (eexists _, _, _; split; [reflexivity|]).
    + split; [apply ef_peek_none; auto|exact HC].
    + split; [apply ef_peek with (l := l); auto|exact HC].
  - pose proof LG as (_ & m & Em & _). destruct (ms_get _ _ _ _ H (K _ _ Em)) as (v & Gi & _). rewrite Gi.
    destruct (CI_result s c ms _ _ ST KN K (apply_ok s c ms i n sole m ST KN H K LG Em)) as (s' & k & r & -> & Q & (P1 & P2 & P3) & C').
    eexists _, _, _. split; [reflexivity|]. split; [|exact C']. now apply ef_apply with (m := m).
Qed.

Theorem served_ok l : forall s c, CI s c -> served be cp s c l.
Proof.
  induction l as [|o l IH]; intros s c H; cbn [served]; (split; [now apply CI_shows|]); [exact I|].
  intros LG. destruct (step_ok s c o H LG) as (s' & x & c' & E & EF & H'). exists s', x, c'. auto.
Qed.
Lemma CI_initial : CI initial start.
Proof.
  split; [reflexivity|intros i []|]. exists []. split; [|discriminate]. split; [reflexivity|]. intros [|i]; discriminate.
Qed.
End Proofs.

Lemma constant_ok cp s i k b n sole : get s i = Some {| x_size := k; x_kind := KLit b |} -> stack s = [] ->
  exists s' j, step GPU cp s (Apply i n sole) = Some (s', RVar j) /\ get s' j = Some {| x_size := n; x_kind := KLit b |} /\
    (forall i' v, get s i' = Some v -> get s' i' = Some v).
Proof.
  intros G E. cbn [step]. rewrite G. unfold mask_apply. rewrite G, E. unfold resize. cbn [x_size x_kind is_lit is_mem negb].
  destruct (Nat.eqb_spec k n) as [->|NE]; [exists s, i; auto|]. rewrite andb_false_r. cbn [andb].
  eexists _, _. split; [reflexivity|]. unfold new, get. cbn [vars]. split.
  - rewrite nth_error_app2, Nat.sub_diag by lia. reflexivity.
  - intros i' v G'. rewrite nth_error_app1; [exact G'|]. apply nth_error_Some. unfold get in G'. congruence.
Qed.
