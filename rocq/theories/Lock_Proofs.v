From Verif Require Import Base Lock_Model Lock_Spec.
Local Open Scope N_scope.

Lemma pend_low : forall n, n < PENDING -> N.land n PENDING = 0 /\ N.land n (PENDING - 1) = n /\ N.lor n PENDING = n + PENDING /\
  N.land (n + PENDING) PENDING = PENDING /\ N.land (n + PENDING) (PENDING - 1) = n /\ N.lor (n + PENDING) PENDING = n + PENDING.
Proof.
  intros n H. unfold PENDING in *.
  assert (LOW : forall k, 63 <= k -> N.testbit n k = false).
  { intros k K. destruct (N.eq_dec n 0) as [->|]; [apply N.bits_0|]. apply N.bits_above_log2.
    assert (N.log2 n < 63) by (apply N.log2_lt_pow2; [apply N.neq_0_lt_0; assumption|exact H]). eapply N.lt_le_trans; eassumption. }
  assert (DIS : N.land n (2 ^ 63) = 0).
  { apply N.bits_inj_0. intros k. rewrite N.land_spec, N.pow2_bits_eqb. destruct (N.eqb_spec 63 k) as [<-|]; [rewrite LOW by lia; reflexivity|apply andb_false_r]. }
  assert (SUM : n + 2 ^ 63 = N.lor n (2 ^ 63)) by (rewrite N.add_nocarry_lxor by exact DIS; apply N.lxor_lor; exact DIS).
  assert (ONES : 2 ^ 63 - 1 = N.ones 63) by reflexivity.
  assert (B : forall k, N.testbit (N.ones 63) k = (k <? 63)).
  { intros k. destruct (N.ltb_spec k 63); [apply N.ones_spec_low|apply N.ones_spec_high]; auto. }
  split; [exact DIS|]. split; [rewrite ONES, N.land_ones; apply N.mod_small; exact H|]. split; [symmetry; exact SUM|].
  rewrite SUM, ONES. split; [|split].
  - apply N.bits_inj. intros k. rewrite N.land_spec, N.lor_spec, N.pow2_bits_eqb. destruct (63 =? k); rewrite ?orb_true_r, ?andb_false_r; reflexivity.
  - apply N.bits_inj. intros k. rewrite N.land_spec, N.lor_spec, N.pow2_bits_eqb, B. destruct (N.ltb_spec k 63).
    + destruct (N.eqb_spec 63 k); [lia|]. rewrite orb_false_r, andb_true_r. reflexivity.
    + rewrite andb_false_r, LOW by lia. reflexivity.
  - rewrite <- N.lor_assoc, N.lor_diag. reflexivity.
Qed.

(** ** Invariant of one thread *)
Definition depth_of (st : list frame) : Z := depth (scopes st).
(** Every temporary release happens inside. *)
Fixpoint wf (l : list scope) : Prop :=
  match l with [] => True | SLock :: r => wf r | SUnlock _ :: r => wf r /\ (0 < depth r)%Z end.
(** Client code, below it the deliveries it was called from. *)
Fixpoint cont (K : list frame) : Prop :=
  match K with
  | [Client _] => True
  | Client _ :: Deliver _ :: K' => cont K' /\ depth_of K' = 0%Z
  | _ => False
  end.

(** [own]: the thread holds the lock; [n] levels are accounted for in [cnt]. *)
Definition level (own : bool) (cnt : N) (n : Z) : Prop :=
  if (n =? 0)%Z then own = false else own = true /\ (0 < n)%Z /\ (Z.of_N cnt = n \/ Z.of_N cnt = n + Z.of_N PENDING)%Z.

Definition shape (own : bool) (cnt : N) (st : list frame) : Prop :=
  let D := depth_of st in
  match st with
  | Acq a :: K =>
      (cont K \/ exists p K', K = Restore p :: K' /\ cont K') /\
      match a with
      | ALoad => level own cnt (D - 1)
      | ACas | ASpin | AWeak => own = false /\ D = 1%Z
      | AInc => own = true /\ level own cnt (D - 1)
      | ASet => own = true /\ D = 1%Z /\ cnt = 0
      end
  | Restore _ :: K => cont K /\ own = true /\ level own cnt D
  | RDec :: K => own = true /\ level own cnt (D + 1) /\ (cont K \/ exists K', K = Flush :: K' /\ cont K' /\ D = 0%Z /\ cnt = 1)
  | RStore :: K => own = true /\ D = 0%Z /\ cnt = 0 /\ (cont K \/ exists K', K = Flush :: K' /\ cont K')
  | RPend :: K => own = true /\ D = 0%Z /\ cont K
  | LogTest :: K => cont K /\ level own cnt D
  | SetPend :: K => cont K /\ own = true /\ level own cnt D
  | (Flush | Swap | Deliver _) :: K => cont K /\ D = 0%Z /\ own = false
  | Client _ :: _ => cont st /\ level own cnt D
  | [] => False
  end.
Definition good (own : bool) (cnt : N) (st : list frame) : Prop :=
  shape own cnt st /\ wf (scopes st) /\ locks st <= 2 ^ 62.

Lemma wf_depth : forall l, wf l -> (0 <= depth l)%Z.
Proof. induction l as [|[|p] l IH]; cbn; [lia|intros H; specialize (IH H); lia|intros [H D]; lia]. Qed.
Lemma depth_locks : forall st, (depth_of st <= Z.of_N (locks st))%Z.
Proof.
  intros st. unfold depth_of, locks. change (open_scopes st) with (scopes st). induction (scopes st) as [|[|p] l IH]; cbn [depth filter length]; lia.
Qed.
Lemma depth_count : forall st, (unlocks st < locks st <-> (0 < depth_of st)%Z)%N.
Proof.
  intros st. unfold depth_of, locks, unlocks. change (open_scopes st) with (scopes st).
  assert (G : depth (scopes st) = (Z.of_nat (length (filter (fun x => match x with SLock => true | _ => false end) (scopes st)))
    - Z.of_nat (length (filter (fun x => match x with SLock => false | _ => true end) (scopes st))))%Z).
  { induction (scopes st) as [|[|p] l IH]; cbn [depth filter length]; lia. }
  rewrite G. lia.
Qed.
Lemma depth_equal : forall st, unlocks st = locks st -> depth_of st = 0%Z.
Proof.
  intros st. unfold depth_of, locks, unlocks. change (open_scopes st) with (scopes st).
  assert (G : depth (scopes st) = (Z.of_nat (length (filter (fun x => match x with SLock => true | _ => false end) (scopes st)))
    - Z.of_nat (length (filter (fun x => match x with SLock => false | _ => true end) (scopes st))))%Z).
  { induction (scopes st) as [|[|p] l IH]; cbn [depth filter length]; lia. }
  rewrite G. lia.
Qed.
Lemma not_own : forall cnt cnt' st, good false cnt st -> good false cnt' st.
Proof.
  assert (L : forall c c' n, level false c n -> level false c' n).
  { intros c c' n. unfold level. destruct (n =? 0)%Z; [auto|intros [H _]; discriminate]. }
  intros cnt cnt' st (S & W & LK). split; [|split; auto]. unfold shape in *. destruct st as [|f K]; [exact S|].
  destruct f as [sc|[]|p| | | | | | | |todo]; intuition (try discriminate); eauto.
Qed.

Record inv (s : state) : Prop := mkInv {
  i_thread : forall i st, nth_error (threads s) i = Some st -> good (Nat.eqb (owner s) (S i)) (count s) st;
  i_free : owner s = O -> count s = 0;
  i_owner : owner s <> O -> (owner s <= length (threads s))%nat
}.

Lemma inv_init : forall n, inv (init n).
Proof.
  intros n. split; cbn [init owner count threads]; [|auto|congruence].
  intros i st E. apply nth_error_In, repeat_spec in E. subst st. split; [|split; [exact I|cbv; discriminate]]. cbn. split; [exact I|reflexivity].
Qed.

(** A step of thread [i] that keeps the other threads' view. *)
Lemma inv_step : forall s i st o c q st' lg dl df,
  inv s -> nth_error (threads s) i = Some st ->
  (o = owner s \/ (owner s = O /\ o = S i) \/ (owner s = S i /\ o = O)) ->
  (c = count s \/ owner s = S i) ->
  good (Nat.eqb o (S i)) c st' -> (o = O -> c = 0) ->
  inv (mkState o c q (set_nth i st' (threads s)) lg dl df).
Proof.
  intros s i st o c q st' lg dl df [T F O] E HO HC G FR.
  assert (LI : (i < length (threads s))%nat) by (apply nth_error_Some; rewrite E; discriminate).
  split; cbn [threads owner count]; [|exact FR|].
  - intros j st2 E2. destruct (Nat.eq_dec j i) as [->|NE].
    + rewrite nth_error_set_nth_eq in E2 by exact LI. injection E2 as <-. exact G.
    + rewrite nth_error_set_nth_neq in E2 by auto. pose proof (T j st2 E2) as G2.
      assert (NJ : o = S j -> owner s = S j) by (intros ->; destruct HO as [?|[[? ?]|[? ?]]]; congruence).
      assert (NJ' : owner s = S j -> o = S j) by (intros X; destruct HO as [?|[[? ?]|[? ?]]]; congruence).
      destruct (Nat.eqb_spec (owner s) (S j)) as [X|X].
      * rewrite (NJ' X), Nat.eqb_refl. destruct HC as [->|X2]; [exact G2|congruence].
      * destruct (Nat.eqb_spec o (S j)) as [X3|X3]; [apply NJ in X3; congruence|]. eapply not_own; exact G2.
  - intros H. rewrite set_nth_length. destruct HO as [->|[[? ->]|[? ->]]]; [auto|lia|congruence].
Qed.

(** Shortcuts. *)
Lemma scopes_client : forall sc K, scopes (Client sc :: K) = sc ++ scopes K.
Proof. reflexivity. Qed.
Lemma depth_app : forall a b, depth (a ++ b) = (depth a + depth b)%Z.
Proof. induction a as [|[|p] a IH]; intros b; cbn [app depth]; [lia|rewrite IH; lia..]. Qed.
Lemma level_own : forall own c n, level own c n -> n <> 0%Z -> own = true.
Proof. intros own c n H N. unfold level in H. destruct (Z.eqb_spec n 0); [congruence|apply H]. Qed.
Lemma level_free : forall c n, level false c n -> n = 0%Z.
Proof. intros c n H. unfold level in H. destruct (Z.eqb_spec n 0); [auto|destruct H; discriminate]. Qed.
Lemma level_true : forall c n, level true c n -> (0 < n)%Z /\ (Z.of_N c = n \/ Z.of_N c = n + Z.of_N PENDING)%Z.
Proof. intros c n H. unfold level in H. destruct (Z.eqb_spec n 0); [discriminate|apply H]. Qed.
Lemma level_mk : forall c n, (0 < n)%Z -> (Z.of_N c = n \/ Z.of_N c = n + Z.of_N PENDING)%Z -> level true c n.
Proof. intros c n A B. unfold level. destruct (Z.eqb_spec n 0); [lia|auto]. Qed.
Lemma cont_client : forall K, cont K -> exists sc K', K = Client sc :: K'.
Proof. intros [|[sc| | | | | | | | | |] K'] H; try (destruct H; fail). eauto. Qed.
Lemma cont_resc : forall sc sc' K, cont (Client sc :: K) -> cont (Client sc' :: K).
Proof. intros sc sc' [|[] K] H; auto. Qed.
Lemma cont_below : forall sc K, cont (Client sc :: K) -> K <> [] -> exists t K', K = Deliver t :: K' /\ cont K' /\ depth_of K' = 0%Z.
Proof.
  intros sc [|f K] H NE; [congruence|]. destruct f; cbn in H; try (destruct H; fail). destruct H as [H D]. eauto.
Qed.
Lemma good_client : forall own c sc K, cont (Client sc :: K) -> level own c (depth_of (Client sc :: K)) ->
  wf (scopes (Client sc :: K)) -> locks (Client sc :: K) <= 2 ^ 62 -> good own c (Client sc :: K).
Proof. intros. split; [|split]; auto. split; auto. Qed.
Lemma good_cont : forall own c K, cont K -> level own c (depth_of K) -> wf (scopes K) -> locks K <= 2 ^ 62 -> good own c K.
Proof. intros own c K H L W LK. destruct (cont_client K H) as (sc & K' & ->). apply good_client; auto. Qed.

Definition fine (o : outcome) : Prop := match o with Next s => inv s | Stuck => True | Race => False end.

Lemma go_fine : forall s i st st', inv s -> nth_error (threads s) i = Some st ->
  good (Nat.eqb (owner s) (S i)) (count s) st' -> fine (Next (set_thread s i st')).
Proof. intros s i st st' V E G. cbn. eapply inv_step; eauto. apply (i_free s V). Qed.
Lemma count_fine : forall s i st c f, inv s -> nth_error (threads s) i = Some st -> owner s = S i ->
  (forall s', count s' = c -> good true c (f s')) -> fine (with_count s i c (fun s' => Next (set_thread s' i (f s')))).
Proof.
  intros s i st c f V E O G. unfold with_count. rewrite O, Nat.eqb_refl. unfold fine, set_thread. cbn [owner count queue threads logged delivered deferred].
  apply (inv_step s i st); [exact V|exact E|..]; [left; congruence|right; congruence|rewrite Nat.eqb_refl; apply G; reflexivity|discriminate].
Qed.

Lemma pend_pos : 2 ^ 62 + 1 < PENDING /\ PENDING + PENDING = 2 ^ 64 /\ 1 < PENDING.
Proof. split; [reflexivity|split; reflexivity]. Qed.

Lemma client_fine : forall s i sc K c, inv s -> nth_error (threads s) i = Some (Client sc :: K) ->
  fine (client_step s i sc K c).
Proof.
  intros s i sc K c V E. pose proof (i_thread s V _ _ E) as (SH & W & LK). destruct SH as [CT LV].
  pose proof (depth_locks (Client sc :: K)) as DL. destruct pend_pos as (P1 & P2 & P3).
  destruct c; cbn [client_step]; try exact I.
  - (* CLock *)
    destruct (N.ltb_spec (locks (Client sc :: K)) (2 ^ 62)) as [LT|]; [|exact I]. eapply go_fine; eauto.
    split; [|split].
    + cbn [shape]. split; [left; eapply cont_resc; eauto|].
      replace (depth_of (Acq ALoad :: Client (SLock :: sc) :: K) - 1)%Z with (depth_of (Client sc :: K)); [exact LV|].
      unfold depth_of. cbn [scopes flat_map app depth]. lia.
    + exact W.
    + change (locks (Acq ALoad :: Client (SLock :: sc) :: K)) with (N.of_nat (S (length (filter (fun x => match x with SLock => true | _ => false end) (scopes (Client sc :: K)))))).
      unfold locks in LT. change (open_scopes (Client sc :: K)) with (scopes (Client sc :: K)) in LT. lia.
  - (* CUnlock *)
    destruct sc as [|[|p] r]; try exact I. eapply go_fine; eauto.
    assert (DE : depth_of (Client (SLock :: r) :: K) = (depth_of (Client r :: K) + 1)%Z) by reflexivity.
    assert (0 <= depth_of (Client r :: K))%Z by (apply wf_depth; exact W).
    split; [|split].
    + cbn [shape]. rewrite DE in LV. assert (OW : Nat.eqb (owner s) (S i) = true) by (eapply level_own; [exact LV|lia]).
      split; [exact OW|]. split; [exact LV|left; eapply cont_resc; eauto].
    + exact W.
    + revert LK. unfold locks, open_scopes. cbn [flat_map app filter length]. lia.
  - (* CYield *)
    destruct (N.ltb_spec (unlocks (Client sc :: K)) (locks (Client sc :: K))) as [LT|]; [|exact I].
    apply depth_count in LT. assert (OW : Nat.eqb (owner s) (S i) = true) by (eapply level_own; [exact LV|lia]).
    rewrite OW in LV. apply level_true in LV. destruct LV as [DP CE].
    apply Nat.eqb_eq in OW. eapply (count_fine s i _ _ (fun _ => _) V E OW). intros s' _.
    set (D := depth_of (Client sc :: K)) in *.
    assert (DB : (D < Z.of_N PENDING)%Z) by (clear - DL LK P1; lia).
    assert (CL : Z.of_N (N.land (count s) (PENDING - 1)) = D).
    { destruct (pend_low (Z.to_N D)) as (L1 & L2 & L3 & L4 & L5 & L6); [clear - DB DP; lia|].
      destruct CE as [CE|CE].
      - replace (count s) with (Z.to_N D) by (clear - CE; lia). rewrite L2. clear - DP; lia.
      - replace (count s) with (Z.to_N D + PENDING) by (clear - CE DP; lia). rewrite L5. clear - DP; lia. }
    set (p := negb (N.land (count s) PENDING =? 0)). split; [|split].
    + cbn [shape]. split; [reflexivity|].
      assert (DE : depth_of (RDec :: Client (SUnlock p :: sc) :: K) = (D - 1)%Z) by reflexivity. rewrite DE.
      split; [apply level_mk; clear - DP CL; lia|left; eapply cont_resc; eauto].
    + cbn. split; [exact W|exact DP].
    + exact LK.
  - (* CResume *)
    destruct sc as [|[|p] r]; try exact I. eapply go_fine; eauto.
    destruct W as [W W0].
    split; [|split; [exact W|exact LK]]. cbn [shape]. split; [right; exists p, (Client r :: K); split; [reflexivity|eapply cont_resc; eauto]|].
    exact LV.
  - (* CLog *)
    cbn. eapply inv_step; eauto; [|apply (i_free s V)]. split; [|split; [exact W|exact LK]]. cbn [shape]. split; [exact CT|exact LV].
  - (* CFlush *)
    destruct (N.eqb_spec (unlocks (Client sc :: K)) (locks (Client sc :: K))) as [EQ|]; [|exact I]. apply depth_equal in EQ.
    eapply go_fine; eauto. split; [|split; [exact W|exact LK]]. cbn [shape]. split; [exact CT|]. split; [exact EQ|].
    rewrite EQ in LV. exact LV.
  - (* CReturn *)
    destruct sc as [|x r]; try exact I. destruct K as [|f K]; [exact I|]. destruct (cont_below _ _ CT) as (t & K' & EK & CK & DK); [discriminate|].
    rewrite EK in *. eapply go_fine; eauto. split; [|split; [exact W|exact LK]]. cbn [shape]. split; [exact CK|].
    change (depth_of (Client [] :: Deliver t :: K')) with (depth_of K') in LV.
    split; [exact DK|]. rewrite DK in LV. exact LV.
Qed.

Lemma level_weaken : forall own c n m, level own c n -> n = m -> level own c m.
Proof. intros; subst; auto. Qed.

Lemma step_fine : forall s i c, inv s -> fine (step s i c).
Proof.
  intros s i c V. unfold step. destruct (nth_error (threads s) i) as [[|f K]|] eqn:E; [exact I| |exact I].
  destruct pend_pos as (P1 & P2 & P3).
  pose proof (i_thread s V _ _ E) as (SH & W & LK). pose proof (i_free s V) as FR.
  assert (DL := depth_locks (f :: K)).
  destruct f as [sc|a|p| | | | | | | |todo]; [apply client_fine; auto|..]; cbn [shape] in SH;
    try change (scopes (_ :: K)) with (scopes K) in W; try change (locks (_ :: K)) with (locks K) in LK, DL;
    try match type of DL with (depth_of (?f :: K) <= _)%Z => change (depth_of (f :: K)) with (depth_of K) in DL, SH end;
    assert (DN := wf_depth _ W); change (depth (scopes K)) with (depth_of K) in DN.
  - (* Acq *)
    assert (OWN : forall o, owner s = O -> shape true 0 (Acq ASet :: K) -> o = Next (set_thread (set_owner s (S i)) i (Acq ASet :: K)) -> fine o).
    { intros o OZ SH' ->. unfold fine, set_thread, set_owner. cbn [owner count queue threads logged delivered deferred]. rewrite (FR OZ).
      apply (inv_step s i (Acq a :: K)); [exact V|exact E|right; left; auto|left; symmetry; auto|..]; [rewrite Nat.eqb_refl; split; [exact SH'|split; auto]|discriminate]. }
    assert (GO : forall a', shape (Nat.eqb (owner s) (S i)) (count s) (Acq a' :: K) -> fine (Next (set_thread s i (Acq a' :: K)))).
    { intros a' SH'. eapply go_fine; eauto. split; [exact SH'|split; auto]. }
    destruct SH as [CT SH]. destruct (Nat.eqb_spec (owner s) (S i)) as [B|B].
    + destruct a; cbn in SH; try (destruct SH; discriminate).
      * assert (H : fine (Next (set_thread s i (Acq AInc :: K)))) by (apply GO; cbn; auto).
        destruct c; try exact I; exact H.
      * destruct SH as [_ LV]. apply level_true in LV. destruct LV as [DP CE].
        assert (U : Z.of_N (u64 (count s + 1)) = (Z.of_N (count s) + 1)%Z) by (rewrite u64_small by (clear - CE LK DL P1 P2 P3; lia); lia).
        assert (LV : level true (u64 (count s + 1)) (depth_of K)) by (apply level_mk; rewrite ?U; clear - CE DP; lia).
        assert (H : fine (with_count s i (u64 (count s + 1)) (fun s' => Next (set_thread s' i K)))).
        { eapply (count_fine s i _ _ (fun _ => K) V E B). intros s' _. destruct CT as [CT|(p & K' & -> & CT)].
          - apply good_cont; auto.
          - split; [|split; auto]. cbn. auto. }
        destruct c; try exact I; exact H.
      * destruct SH as (_ & DE & CZ).
        assert (H : fine (with_count s i 1 (fun s' => Next (set_thread s' i K)))).
        { assert (LV : level true 1 (depth_of K)) by (apply level_mk; clear - DE; lia).
          eapply (count_fine s i _ _ (fun _ => K) V E B). intros s' _. destruct CT as [CT|(p & K' & -> & CT)].
          - apply good_cont; auto.
          - split; [|split; auto]. cbn. auto. }
        destruct c; try exact I; exact H.
    + destruct a; cbn in SH; try (destruct SH; discriminate).
      * apply level_free in SH. assert (DE : depth_of K = 1%Z) by (clear - SH; lia).
        assert (H : fine (if Nat.eqb (owner s) 0 then Next (set_thread s i (Acq ACas :: K)) else Next (set_thread s i (Acq ASpin :: K)))).
        { destruct (Nat.eqb (owner s) 0); apply GO; cbn; auto. }
        destruct c; try exact I; exact H.
      * destruct SH as [_ DE].
        assert (H : fine (if Nat.eqb (owner s) 0 then Next (set_thread (set_owner s (S i)) i (Acq ASet :: K)) else Next (set_thread s i (Acq ASpin :: K)))).
        { destruct (Nat.eqb_spec (owner s) 0) as [Z|Z]; [eapply OWN; eauto; cbn; auto|apply GO; cbn; auto]. }
        destruct c; try exact I; exact H.
      * destruct SH as [_ DE].
        assert (H : fine (if Nat.eqb (owner s) 0 then Next (set_thread s i (Acq AWeak :: K)) else Next s)).
        { destruct (Nat.eqb_spec (owner s) 0) as [Z|Z]; [apply GO; cbn; auto|exact V]. }
        destruct c; try exact I; exact H.
      * destruct SH as [_ DE].
        assert (H : fine (if Nat.eqb (owner s) 0 then Next (set_thread (set_owner s (S i)) i (Acq ASet :: K)) else Next (set_thread s i (Acq ASpin :: K)))).
        { destruct (Nat.eqb_spec (owner s) 0) as [Z|Z]; [eapply OWN; eauto; cbn; auto|apply GO; cbn; auto]. }
        destruct c; try exact I; [exact H|apply GO; cbn; auto].
  - (* Restore *)
    destruct SH as (CT & B & LV). rewrite B in LV. apply level_true in LV. destruct LV as [DP CE].
    assert (H : fine (with_count s i (N.lor (count s) (if p then PENDING else 0)) (fun s' => Next (set_thread s' i K)))).
    { apply Nat.eqb_eq in B. eapply (count_fine s i _ _ (fun _ => K) V E B). intros s' _. apply good_cont; auto.
      destruct p; [|rewrite N.lor_0_r; apply level_mk; auto].
      apply level_mk; [exact DP|]. right.
      destruct (pend_low (Z.to_N (depth_of K))) as (L1 & L2 & L3 & L4 & L5 & L6); [clear - DL LK P1 DP; lia|]. destruct CE as [CE|CE].
      - replace (count s) with (Z.to_N (depth_of K)) by (clear - CE; lia). rewrite L3. clear - DP; lia.
      - replace (count s) with (Z.to_N (depth_of K) + PENDING) by (clear - CE DP; lia). rewrite L6. clear - DP; lia. }
    destruct c; try exact I; exact H.
  - (* RDec *)
    destruct SH as (B & LV & CT). rewrite B in LV. apply level_true in LV. destruct LV as [DP CE].
    match goal with |- fine (match c with CGo | CFail => ?o | _ => _ end) => assert (H : fine o); [|destruct c; try exact I; exact H] end.
    assert (SU : Z.of_N (sub64 (count s) 1) = (Z.of_N (count s) - 1)%Z).
    { unfold sub64. replace (count s + 2 ^ 64 - 1) with ((count s - 1) + 1 * 2 ^ 64) by (clear - CE DP; lia).
      unfold u64. rewrite N.mod_add by lia. rewrite N.mod_small; clear - CE LK DL DN P1 P2 P3; lia. }
    apply Nat.eqb_eq in B. set (c' := sub64 (count s) 1) in *. clearbody c'.
    eapply (count_fine s i _ c' (fun s' => if count s' =? 0 then RStore :: K else if count s' =? PENDING then RPend :: K else K) V E B). intros s' ->.
    destruct (N.eqb_spec c' 0) as [Z0|NZ].
    + assert (D0 : depth_of K = 0%Z) by (clear - SU CE Z0 DN P3; lia).
      split; [|split; auto]. cbn. split; [reflexivity|]. split; [exact D0|]. split; [exact Z0|]. destruct CT as [CT|(K' & EK & CT & _)]; eauto.
    + destruct CT as [CT|(K' & EK & CT & D0 & C1)]; [|clear - SU C1 NZ; lia].
      destruct (N.eqb_spec c' PENDING) as [ZP|NP].
      * assert (D0 : depth_of K = 0%Z) by (clear - SU CE ZP DN LK DL P1 P3; lia). split; [|split; auto]. cbn. auto.
      * apply good_cont; auto. apply level_mk; clear - SU CE NZ NP DN LK DL P1 P3; lia.
  - (* RStore *)
    destruct SH as (B & D0 & C0 & CT).
    match goal with |- fine (match c with CGo | CFail => ?o | _ => _ end) => assert (H : fine o); [|destruct c; try exact I; exact H] end.
    apply Nat.eqb_eq in B. unfold fine, set_thread, set_owner. cbn [owner count queue threads logged delivered deferred].
    apply (inv_step s i (RStore :: K)); [exact V|exact E|right; right; auto|left; auto| |auto].
    cbn [Nat.eqb]. destruct CT as [CT|(K' & -> & CT)].
    + apply good_cont; auto. rewrite D0. reflexivity.
    + split; [|split; auto]. cbn. auto.
  - (* RPend *)
    destruct SH as (B & D0 & CT).
    match goal with |- fine (match c with CGo | CFail => ?o | _ => _ end) => assert (H : fine o); [|destruct c; try exact I; exact H] end.
    apply Nat.eqb_eq in B. eapply (count_fine s i _ 1 (fun _ => RDec :: Flush :: K) V E B). intros s' _.
    split; [|split; auto]. cbn [shape]. change (depth_of (RDec :: Flush :: K)) with (depth_of K). rewrite D0. split; [reflexivity|].
    split; [apply level_mk; [lia|left; reflexivity]|right; eauto].
  - (* LogTest *)
    destruct SH as (CT & LV).
    match goal with |- fine (match c with CGo | CFail => ?o | _ => _ end) => assert (H : fine o); [|destruct c; try exact I; exact H] end.
    destruct (Nat.eqb_spec (owner s) (S i)) as [B|B]; (eapply go_fine; [exact V|exact E|]); (split; [|split; auto]); cbn [shape].
    + rewrite B, Nat.eqb_refl. auto.
    + apply Nat.eqb_neq in B. rewrite B. apply level_free in LV. auto.
  - (* SetPend *)
    destruct SH as (CT & B & LV). rewrite B in LV. apply level_true in LV. destruct LV as [DP CE].
    match goal with |- fine (match c with CGo | CFail => ?o | _ => _ end) => assert (H : fine o); [|destruct c; try exact I; exact H] end.
    apply Nat.eqb_eq in B. eapply (count_fine s i _ _ (fun _ => K) V E B). intros s' _. apply good_cont; auto.
    apply level_mk; [exact DP|]. right.
    destruct (pend_low (Z.to_N (depth_of K))) as (L1 & L2 & L3 & L4 & L5 & L6); [clear - DL LK P1 DP; lia|]. destruct CE as [CE|CE].
    + replace (count s) with (Z.to_N (depth_of K)) by (clear - CE; lia). rewrite L3. clear - DP; lia.
    + replace (count s) with (Z.to_N (depth_of K) + PENDING) by (clear - CE DP; lia). rewrite L6. clear - DP; lia.
  - (* Flush *)
    destruct SH as (CT & D0 & B).
    destruct c; try exact I.
    + eapply go_fine; [exact V|exact E|]. split; [|split; auto]. cbn. auto.
    + cbn. eapply inv_step; [exact V|exact E|left; auto|left; auto| |exact FR]. apply good_cont; auto. rewrite D0. exact B.
  - (* Swap *)
    destruct SH as (CT & D0 & B).
    match goal with |- fine (match c with CGo | CFail => ?o | _ => _ end) => assert (H : fine o); [|destruct c; try exact I; exact H] end.
    cbn. eapply inv_step; [exact V|exact E|left; auto|left; auto| |exact FR]. split; [|split; auto]. cbn. auto.
  - (* Deliver *)
    destruct SH as (CT & D0 & B).
    match goal with |- fine (match c with CGo | CFail => ?o | _ => _ end) => assert (H : fine o); [|destruct c; try exact I; exact H] end.
    destruct todo as [|m r].
    + eapply go_fine; [exact V|exact E|]. apply good_cont; auto. rewrite D0. exact B.
    + cbn. eapply inv_step; [exact V|exact E|left; auto|left; auto| |exact FR].
      apply good_client; [split; auto| |exact W|exact LK]. change (depth_of (Client [] :: Deliver r :: K)) with (depth_of K). rewrite D0. exact B.
Qed.

Lemma run_app : forall a s b, run s (a ++ b) = match run s a with Next s' => run s' b | o => o end.
Proof. induction a as [|[i c] a IH]; intros s b; [reflexivity|]. cbn [app run]. destruct (step s i c); auto. Qed.
Lemma run_fine : forall l s, inv s -> fine (run s l).
Proof.
  induction l as [|[i c] l IH]; intros s V; [exact V|]. cbn [run]. pose proof (step_fine s i c V) as F. destruct (step s i c); auto.
Qed.
Lemma reached_inv : forall n s, reached n s -> inv s.
Proof. intros n s [l E]. pose proof (run_fine l (init n) (inv_init n)) as F. rewrite E in F. exact F. Qed.
