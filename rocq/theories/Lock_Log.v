From Verif Require Import Base Lock_Model Lock_Spec Lock_Proofs.
Local Open Scope N_scope.

Lemma nth_split_set : forall {A} (l : list A) i x, nth_error l i = Some x ->
  exists a b, l = a ++ x :: b /\ forall y, set_nth i y l = a ++ y :: b.
Proof.
  intros A l. induction l as [|h l IH]; intros i x E; [destruct i; discriminate|]. destruct i as [|i]; cbn in E.
  - injection E as ->. exists [], l. split; [reflexivity|intros; reflexivity].
  - destruct (IH i x E) as (a & b & -> & F). exists (h :: a), b. split; [reflexivity|]. intros y. cbn [set_nth app]. rewrite F. reflexivity.
Qed.

(** Batches being delivered. *)
Definition batches (st : list frame) : list (list msg) := flat_map (fun f => match f with Deliver (m :: r) => [m :: r] | _ => [] end) st.
Definition all_batches (s : state) : list (list msg) := flat_map batches (threads s).
Lemma todos_batches : forall st, todos st = concat (batches st).
Proof.
  induction st as [|f st IH]; [reflexivity|]. change (todos (f :: st)) with ((match f with Deliver t => t | _ => [] end) ++ todos st).
  change (batches (f :: st)) with ((match f with Deliver (m :: r) => [m :: r] | _ => [] end) ++ batches st). rewrite concat_app, <- IH.
  f_equal. destruct f as [| | | | | | | | | |[|m r]]; cbn; rewrite ?app_nil_r; reflexivity.
Qed.
Lemma flight_batches : forall s, in_flight s = concat (all_batches s).
Proof.
  intros s. unfold in_flight, all_batches. induction (threads s) as [|st l IH]; [reflexivity|]. cbn [flat_map]. rewrite concat_app, <- IH, <- todos_batches. reflexivity.
Qed.
(** Effect of a step on messages. *)
Inductive effect (s : state) (i : nat) (st : list frame) (s' : state) : Prop :=
| e_quiet : forall st', threads s' = set_nth i st' (threads s) -> batches st' = batches st ->
    queue s' = queue s -> logged s' = logged s -> delivered s' = delivered s -> effect s i st s'
| e_log : forall st' m, threads s' = set_nth i st' (threads s) -> batches st' = batches st ->
    queue s' = queue s ++ [m] -> logged s' = logged s ++ [m] -> delivered s' = delivered s -> effect s i st s'
| e_swap : forall K, st = Swap :: K -> threads s' = set_nth i (Deliver (queue s) :: K) (threads s) ->
    queue s' = [] -> logged s' = logged s -> delivered s' = delivered s -> effect s i st s'
| e_deliver : forall m r K, st = Deliver (m :: r) :: K -> threads s' = set_nth i (Client [] :: Deliver r :: K) (threads s) ->
    queue s' = queue s -> logged s' = logged s -> delivered s' = delivered s ++ [(i, owner s, m)] -> effect s i st s'.

Lemma set_nth_same : forall {A} (l : list A) i x, nth_error l i = Some x -> set_nth i x l = l.
Proof.
  intros A l. induction l as [|h l IH]; intros i x E; [destruct i; discriminate|]. destruct i as [|i]; cbn in *; [congruence|f_equal; auto].
Qed.

Lemma step_effect : forall s i c s', step s i c = Next s' -> exists st, nth_error (threads s) i = Some st /\ effect s i st s'.
Proof.
  intros s i c s' E. unfold step in E. destruct (nth_error (threads s) i) as [[|f K]|] eqn:T; try discriminate.
  exists (f :: K). split; [reflexivity|].
  assert (Q : forall st', batches st' = batches (f :: K) -> Next (set_thread s i st') = Next s' -> effect s i (f :: K) s').
  { intros st' H X. injection X as <-. eapply e_quiet; cbn; eauto. }
  assert (W : forall cnt g, (forall x, batches (g x) = batches (f :: K)) -> with_count s i cnt (fun x => Next (set_thread x i (g x))) = Next s' -> effect s i (f :: K) s').
  { intros cnt g H X. unfold with_count in X. destruct (Nat.eqb (owner s) (S i)); [|discriminate]. injection X as <-.
    eapply e_quiet; cbn; eauto. }
  destruct f as [sc|a|p| | | | | | | |todo].
  - destruct c; cbn [client_step] in E; try discriminate.
    + destruct (_ <? _) in E; [|discriminate]. eapply Q; [|exact E]. reflexivity.
    + destruct sc as [|[|p] r]; try discriminate. eapply Q; [|exact E]. reflexivity.
    + destruct (_ <? _) in E; [|discriminate]. eapply W; [|exact E]. reflexivity.
    + destruct sc as [|[|p] r]; try discriminate. eapply Q; [|exact E]. reflexivity.
    + injection E as <-. eapply e_log; cbn; eauto.
    + destruct (_ =? _) in E; [|discriminate]. eapply Q; [|exact E]. reflexivity.
    + destruct sc; [|discriminate]. destruct K as [|f K]; [discriminate|]. eapply Q; [|exact E]. reflexivity.
  - assert (OWN : Next (set_thread (set_owner s (S i)) i (Acq ASet :: K)) = Next s' -> effect s i (Acq a :: K) s').
    { intros X. injection X as <-. eapply e_quiet; cbn; eauto. }
    destruct a, c; try discriminate;
    repeat match type of E with context [if ?b then _ else _] => destruct b end; try discriminate; auto;
    first [eapply Q; [|exact E]; reflexivity | eapply W; [|exact E]; reflexivity |
           injection E as <-; eapply (e_quiet _ _ _ _ (Acq ASpin :: K)); auto; symmetry; apply set_nth_same; assumption].
  - destruct c; try discriminate; (eapply W; [|exact E]; reflexivity).
  - assert (E' : with_count s i (sub64 (count s) 1) (fun s' => Next (set_thread s' i (if count s' =? 0 then RStore :: K else if count s' =? PENDING then RPend :: K else K))) = Next s').
    { destruct c; try discriminate; exact E. }
    eapply (W _ (fun s' => if count s' =? 0 then RStore :: K else if count s' =? PENDING then RPend :: K else K)); [|exact E'].
    intros x. cbn beta. destruct (count x =? 0); [reflexivity|]. destruct (count x =? PENDING); reflexivity.
  - assert (E' : Next (set_thread (set_owner s 0) i K) = Next s') by (destruct c; try discriminate; exact E).
    injection E' as <-. eapply e_quiet; cbn; eauto.
  - destruct c; try discriminate; (eapply W; [|exact E]; reflexivity).
  - destruct c; try discriminate; (destruct (Nat.eqb (owner s) (S i)); eapply Q; [|exact E| |exact E]; reflexivity).
  - destruct c; try discriminate; (eapply W; [|exact E]; reflexivity).
  - destruct c; try discriminate; [eapply Q; [|exact E]; reflexivity|]. injection E as <-. eapply (e_quiet _ _ _ _ K); auto.
  - assert (E' : Next (mkState (owner s) (count s) [] (set_nth i (Deliver (queue s) :: K) (threads s)) (logged s) (delivered s) false) = Next s')
      by (destruct c; try discriminate; exact E).
    injection E' as <-. eapply e_swap; cbn; eauto.
  - destruct todo as [|m r].
    + destruct c; try discriminate; (eapply Q; [|exact E]; reflexivity).
    + assert (E' : Next (mkState (owner s) (count s) (queue s) (set_nth i (Client [] :: Deliver r :: K) (threads s))
                      (logged s) (delivered s ++ [(i, owner s, m)]) (deferred s)) = Next s') by (destruct c; try discriminate; exact E).
      injection E' as <-. eapply e_deliver; cbn; eauto.
Qed.

Lemma flight_set : forall s s' i st st', nth_error (threads s) i = Some st -> threads s' = set_nth i st' (threads s) ->
  exists a b, in_flight s = a ++ todos st ++ b /\ in_flight s' = a ++ todos st' ++ b.
Proof.
  intros s s' i st st' E E'. destruct (nth_split_set _ _ _ E) as (a & b & EA & F).
  exists (flat_map todos a), (flat_map todos b). unfold in_flight. rewrite E', F, EA, !flat_map_app. split; reflexivity.
Qed.

(** Nothing is lost or duplicated. *)
Definition conserved (s : state) : Prop := Permutation (logged s) (got s ++ in_flight s ++ queue s).
Lemma conserved_step : forall s i c s', conserved s -> step s i c = Next s' -> conserved s'.
Proof.
  intros s i c s' V E. destruct (step_effect _ _ _ _ E) as (st & T & EF). unfold conserved, got in *.
  destruct EF as [st' TS TD Q L D|st' m TS TD Q L D|K ES TS Q L D|m r K ES TS Q L D].
  - destruct (flight_set s s' i st st' T TS) as (a & b & F1 & F2). rewrite F2, (todos_batches st'), TD, <- todos_batches, <- F1, Q, L, D. exact V.
  - destruct (flight_set s s' i st st' T TS) as (a & b & F1 & F2). rewrite F2, (todos_batches st'), TD, <- todos_batches, <- F1, Q, L, D. rewrite !app_assoc. apply Permutation_app_tail.
    rewrite <- app_assoc. exact V.
  - destruct (flight_set s s' i st _ T TS) as (a & b & F1 & F2). rewrite Q, L, D. rewrite F1, ES in V. rewrite F2, app_nil_r.
    eapply Permutation_trans; [exact V|]. apply Permutation_app_head. change (todos (Swap :: K)) with (todos K).
    change (todos (Deliver (queue s) :: K)) with (queue s ++ todos K). rewrite <- !app_assoc.
    apply Permutation_app_head. rewrite (app_assoc (todos K)). apply Permutation_app_comm.
  - destruct (flight_set s s' i st _ T TS) as (a & b & F1 & F2). rewrite Q, L, D. rewrite F1, ES in V. rewrite F2.
    rewrite map_app. cbn [map snd]. rewrite <- app_assoc. eapply Permutation_trans; [exact V|]. apply Permutation_app_head.
    change (todos (Deliver (m :: r) :: K)) with (m :: (r ++ todos K)). change (todos (Client [] :: Deliver r :: K)) with (r ++ todos K).
    rewrite <- !app_assoc. cbn [app]. rewrite <- !app_assoc. apply Permutation_sym, Permutation_middle.
Qed.
Lemma conserved_run : forall l s s', conserved s -> run s l = Next s' -> conserved s'.
Proof.
  induction l as [|[i c] l IH]; intros s s' V E; cbn [run] in E; [injection E as <-; exact V|].
  destruct (step s i c) eqn:ES; try discriminate. eapply IH; [|exact E]. eapply conserved_step; eauto.
Qed.
Lemma conserved_init : forall n, conserved (init n).
Proof.
  intros n. unfold conserved, in_flight. cbn. rewrite app_nil_r. replace (flat_map todos (repeat [Client []] n)) with (@nil msg); [constructor|].
  induction n; cbn; auto.
Qed.

(** Deliveries happen outside of the lock. *)
Definition outside (s : state) : Prop := Forall (fun d : nat * nat * msg => snd (fst d) <> S (fst (fst d))) (delivered s).
Lemma outside_step : forall s i c s', inv s -> outside s -> step s i c = Next s' -> outside s'.
Proof.
  intros s i c s' V O E. destruct (step_effect _ _ _ _ E) as (st & T & EF). unfold outside in *.
  destruct EF as [st' TS TD Q L D|st' m TS TD Q L D|K ES TS Q L D|m r K ES TS Q L D]; rewrite D; auto.
  apply Forall_app. split; [exact O|]. constructor; [|constructor]. cbn [fst snd]. intros X.
  pose proof (i_thread s V _ _ T) as (SH & _). rewrite ES in SH. cbn [shape] in SH. destruct SH as (_ & _ & B). apply Nat.eqb_neq in B. congruence.
Qed.
Lemma outside_run : forall l s s', inv s -> outside s -> run s l = Next s' -> outside s'.
Proof.
  induction l as [|[i c] l IH]; intros s s' V O E; cbn [run] in E; [injection E as <-; exact O|].
  destruct (step s i c) eqn:ES; try discriminate. eapply IH; [| |exact E].
  - pose proof (step_fine s i c V) as F. rewrite ES in F. exact F.
  - eapply outside_step; eauto.
Qed.

(** Order, if batches do not overlap. *)
Lemma batches_nonempty : forall st, Forall (fun b => b <> []) (batches st).
Proof.
  induction st as [|f st IH]; [constructor|]. cbn. destruct f as [| | | | | | | | | |[|m r]]; cbn; auto. constructor; [discriminate|exact IH].
Qed.
Lemma concat_nil : forall (l : list (list msg)), Forall (fun b => b <> []) l -> concat l = [] -> l = [].
Proof. intros [|b l] F E; [reflexivity|]. inversion F; subst. destruct b; [congruence|discriminate]. Qed.
Lemma batches_set : forall s s' i st st', nth_error (threads s) i = Some st -> threads s' = set_nth i st' (threads s) ->
  exists a b, all_batches s = a ++ batches st ++ b /\ all_batches s' = a ++ batches st' ++ b.
Proof.
  intros s s' i st st' E E'. destruct (nth_split_set _ _ _ E) as (a & b & EA & F).
  exists (flat_map batches a), (flat_map batches b). unfold all_batches. rewrite E', F, EA, !flat_map_app. split; reflexivity.
Qed.

Definition ordered (s : state) : Prop := logged s = got s ++ in_flight s ++ queue s /\ (length (all_batches s) <= 1)%nat.

Lemma ordered_step : forall s i c s', ordered s -> (takes s i = true -> in_flight s = []) -> step s i c = Next s' -> ordered s'.
Proof.
  intros s i c s' [V B] TK E. destruct (step_effect _ _ _ _ E) as (st & T & EF). unfold ordered, got in *.
  destruct EF as [st' TS TD Q L D|st' m TS TD Q L D|K ES TS Q L D|m r K ES TS Q L D].
  - destruct (batches_set s s' i st st' T TS) as (a & b & F1 & F2). rewrite flight_batches, F2, TD, <- F1, Q, L, D, <- flight_batches. auto.
  - destruct (batches_set s s' i st st' T TS) as (a & b & F1 & F2). rewrite flight_batches, F2, TD, <- F1, Q, L, D, <- flight_batches.
    split; [|auto]. rewrite V, <- !app_assoc. reflexivity.
  - assert (N0 : in_flight s = []) by (apply TK; unfold takes; rewrite T, ES; reflexivity).
    destruct (batches_set s s' i st _ T TS) as (a & b & F1 & F2).
    assert (AB : all_batches s = []).
    { apply concat_nil; [|rewrite <- flight_batches; exact N0]. unfold all_batches. apply Forall_forall. intros x X. apply in_flat_map in X.
      destruct X as (y & _ & X). pose proof (batches_nonempty y) as F. rewrite Forall_forall in F. auto. }
    rewrite AB in F1. symmetry in F1. apply app_eq_nil in F1. destruct F1 as [-> F1]. apply app_eq_nil in F1. destruct F1 as [BK ->].
    rewrite ES in BK. change (batches (Swap :: K)) with (batches K) in BK.
    change (batches (Deliver (queue s) :: K)) with ((match queue s with m :: r => [m :: r] | [] => [] end) ++ batches K) in F2. rewrite BK, !app_nil_r in F2. cbn [app] in F2.
    rewrite Q, L, D, flight_batches, F2. rewrite V, N0, app_nil_r. destruct (queue s); cbn; rewrite ?app_nil_r; auto.
  - destruct (batches_set s s' i st _ T TS) as (a & b & F1 & F2).
    rewrite ES in F1. change (batches (Deliver (m :: r) :: K)) with ((m :: r) :: batches K) in F1.
    change (batches (Client [] :: Deliver r :: K)) with ((match r with m :: r => [m :: r] | [] => [] end) ++ batches K) in F2.
    rewrite F1 in B. rewrite !app_length in B. cbn [length] in B.
    assert (a = []) by (destruct a; [reflexivity|cbn in B; lia]). assert (BK : batches K = []) by (destruct (batches K); [reflexivity|cbn in B; lia]).
    assert (b = []) by (destruct b; [reflexivity|cbn in B; lia]). subst a b. rewrite BK in F1, F2. cbn in F1. rewrite !app_nil_r in F2. cbn [app] in F2.
    rewrite flight_batches, F1 in V. cbn in V. rewrite app_nil_r in V.
    rewrite Q, L, D, flight_batches, F2, V, map_app. cbn [map snd]. rewrite <- app_assoc. destruct r; cbn; rewrite ?app_nil_r; split; auto.
Qed.
Lemma ordered_run : forall l s s', ordered s -> orderly s l -> run s l = Next s' -> ordered s'.
Proof.
  induction l as [|[i c] l IH]; intros s s' V O E; cbn [run orderly] in *; [injection E as <-; exact V|].
  destruct O as [TK O]. destruct (step s i c) eqn:ES; try discriminate. eapply IH; [|exact O|exact E]. eapply ordered_step; eauto.
Qed.
Lemma ordered_init : forall n, ordered (init n).
Proof.
  intros n. unfold ordered. assert (A : all_batches (init n) = []) by (unfold all_batches; cbn; induction n; cbn; auto).
  rewrite flight_batches, A. cbn. auto.
Qed.

(** ** Every message has someone who will deliver it *)
Definition owes (own : bool) (cnt : N) (st : list frame) : Prop :=
  (own = true /\ PENDING <= cnt) \/ In (SUnlock true) (scopes st) \/
  Exists (fun f => match f with Restore true | LogTest | SetPend | RPend | Flush | Swap => True | _ => False end) st.
Definition covered (s : state) : Prop :=
  queue s = [] \/ deferred s = true \/ exists i st, nth_error (threads s) i = Some st /\ owes (Nat.eqb (owner s) (S i)) (count s) st.

Lemma cov_step : forall s i st o c q st' lg dl df, covered s -> nth_error (threads s) i = Some st ->
  (o = owner s \/ (owner s = O /\ o = S i) \/ (owner s = S i /\ o = O)) ->
  (c = count s \/ owner s = S i) ->
  (q = [] \/ df = true \/ owes (Nat.eqb o (S i)) c st' \/
   (q = queue s /\ df = deferred s /\ (owes (Nat.eqb (owner s) (S i)) (count s) st -> owes (Nat.eqb o (S i)) c st'))) ->
  covered (mkState o c q (set_nth i st' (threads s)) lg dl df).
Proof.
  intros s i st o c q st' lg dl df V E HO HC H. unfold covered. cbn [queue deferred threads owner count].
  assert (LI : (i < length (threads s))%nat) by (apply nth_error_Some; rewrite E; discriminate).
  assert (HERE : owes (Nat.eqb o (S i)) c st' -> exists j sj, nth_error (set_nth i st' (threads s)) j = Some sj /\ owes (Nat.eqb o (S j)) c sj).
  { intros X. exists i, st'. split; [apply nth_error_set_nth_eq; exact LI|exact X]. }
  destruct H as [H|[H|[H|(-> & -> & H)]]]; auto.
  destruct V as [V|[V|(j & sj & EJ & OJ)]]; auto. right. right. destruct (Nat.eq_dec j i) as [->|NE].
  - apply HERE, H. rewrite E in EJ. injection EJ as ->. exact OJ.
  - exists j, sj. split; [rewrite nth_error_set_nth_neq; auto|]. destruct OJ as [[OW P]|OJ]; [left|right; exact OJ].
    apply Nat.eqb_eq in OW. assert (o = S j) as -> by (destruct HO as [->|[[? ?]|[? ?]]]; congruence).
    rewrite Nat.eqb_refl. split; [reflexivity|]. destruct HC as [->|]; [exact P|congruence].
Qed.

Definition cov (o : outcome) : Prop := match o with Next s => covered s | _ => True end.
Lemma cov_go : forall s i st st', covered s -> nth_error (threads s) i = Some st ->
  (owes (Nat.eqb (owner s) (S i)) (count s) st -> owes (Nat.eqb (owner s) (S i)) (count s) st') -> cov (Next (set_thread s i st')).
Proof. intros s i st st' V E H. apply (cov_step s i st); auto. do 3 right. auto. Qed.
Lemma cov_count : forall s i st c f, covered s -> nth_error (threads s) i = Some st ->
  (forall s', count s' = c -> owes true (count s) st -> owes true c (f s')) -> cov (with_count s i c (fun s' => Next (set_thread s' i (f s')))).
Proof.
  intros s i st c f V E G. unfold with_count. destruct (Nat.eqb_spec (owner s) (S i)) as [O|]; [|exact I].
  unfold cov, set_thread. cbn [owner count queue threads logged delivered deferred].
  apply (cov_step s i st); [exact V|exact E|auto|auto|]. do 3 right. rewrite O, Nat.eqb_refl. split; [reflexivity|]. split; [reflexivity|].
  apply G. reflexivity.
Qed.

Lemma owes_pop : forall own cnt f K, owes own cnt (f :: K) ->
  match f with Restore true | LogTest | SetPend | RPend | Flush | Swap | Client _ => False | _ => True end -> owes own cnt K.
Proof.
  intros own cnt f K [H|[H|H]] F.
  - left. exact H.
  - right. left. destruct f; try destruct F; exact H.
  - right. right. inversion H; subst; [|assumption]. destruct f as [| |[]| | | | | | | |]; try destruct F; contradiction.
Qed.
Lemma owes_push : forall own cnt f K, owes own cnt K -> owes own cnt (f :: K).
Proof.
  intros own cnt f K [H|[H|H]].
  - left. exact H.
  - right. left. change (In (SUnlock true) ((match f with Client sc => sc | _ => [] end) ++ scopes K)). apply in_app_iff. right. exact H.
  - right. right. right. exact H.
Qed.
Lemma owes_swap : forall own cnt f g K, owes own cnt (f :: K) ->
  match f with Restore true | LogTest | SetPend | RPend | Flush | Swap | Client _ => False | _ => True end -> owes own cnt (g :: K).
Proof. intros. apply owes_push. eapply owes_pop; eauto. Qed.
Lemma owes_client : forall own cnt sc K, owes own cnt (Client sc :: K) ->
  (own = true /\ PENDING <= cnt) \/ In (SUnlock true) sc \/ owes own cnt K.
Proof.
  intros own cnt sc K [H|[H|H]].
  - left. exact H.
  - right. change (In (SUnlock true) (sc ++ scopes K)) in H. apply in_app_iff in H. destruct H; [left; auto|]. right. right. left. auto.
  - right. right. right. right. inversion H; subst; [contradiction|assumption].
Qed.
Lemma owes_scope : forall own cnt sc K, In (SUnlock true) sc -> owes own cnt (Client sc :: K).
Proof. intros own cnt sc K H. right. left. change (In (SUnlock true) (sc ++ scopes K)). apply in_app_iff. left. exact H. Qed.
Lemma owes_here : forall own cnt f K, match f with Restore true | LogTest | SetPend | RPend | Flush | Swap => True | _ => False end -> owes own cnt (f :: K).
Proof. intros. right. right. left. exact H. Qed.
Lemma owes_in : forall own cnt f g K, match g with Restore true | LogTest | SetPend | RPend | Flush | Swap => True | _ => False end -> owes own cnt (f :: g :: K).
Proof. intros. apply owes_push, owes_here. exact H. Qed.

Lemma client_cov : forall s i sc K c, inv s -> covered s -> nth_error (threads s) i = Some (Client sc :: K) -> cov (client_step s i sc K c).
Proof.
  intros s i sc K c V CV E. pose proof (i_thread s V _ _ E) as (SH & W & LK). destruct SH as [CT LV].
  destruct c; cbn [client_step]; try exact I.
  - destruct (_ <? _); [|exact I]. eapply cov_go; eauto. intros H. apply owes_push. apply owes_client in H. destruct H as [H|[H|H]].
    + left. exact H.
    + apply owes_scope. right. exact H.
    + apply owes_push. exact H.
  - destruct sc as [|[|p] r]; try exact I. eapply cov_go; eauto. intros H. apply owes_push. apply owes_client in H. destruct H as [H|[H|H]].
    + left. exact H.
    + destruct H as [H|H]; [discriminate|]. apply owes_scope. exact H.
    + apply owes_push. exact H.
  - destruct (N.ltb_spec (unlocks (Client sc :: K)) (locks (Client sc :: K))) as [LT|]; [|exact I].
    apply depth_count in LT. apply (cov_count s i _ _ (fun _ => _) CV E). intros s' _ H. apply owes_push. apply owes_client in H.
    assert (H' : (true = true /\ PENDING <= count s) \/ In (SUnlock true) sc \/ (forall n, owes true n K)).
    { destruct H as [H|[H|[H|H]]]; auto. right. right. intros n. right. exact H. }
    clear H. destruct H' as [H|[H|H]].
    + apply owes_scope. left. f_equal. destruct H as [_ H].
      assert (OW : Nat.eqb (owner s) (S i) = true) by (eapply level_own; [exact LV|lia]). rewrite OW in LV. apply level_true in LV.
      destruct LV as [DP CE]. pose proof (depth_locks (Client sc :: K)) as DL. destruct pend_pos as (P1 & P2 & P3).
      set (D := depth_of (Client sc :: K)) in *.
      destruct (pend_low (Z.to_N D)) as (_ & _ & _ & L4 & _); [clear - DL LK P1 DP; lia|].
      replace (count s) with (Z.to_N D + PENDING) by (clear - CE DP H DL LK P1; lia). rewrite L4. reflexivity.
    + apply owes_scope. right. exact H.
    + apply owes_push. apply H.
  - destruct sc as [|[|p] r]; try exact I. eapply cov_go; eauto. intros H. apply owes_push. apply owes_client in H. destruct H as [H|[H|H]].
    + left. exact H.
    + destruct H as [H|H]; [injection H as ->; apply owes_here; exact I|]. apply owes_push, owes_scope. exact H.
    + apply owes_push, owes_push. exact H.
  - unfold cov. apply (cov_step s i _ _ _ _ _ _ _ _ CV E); auto. right. right. left. apply owes_here. exact I.
  - destruct (_ =? _); [|exact I]. eapply cov_go; eauto. intros H. apply owes_push. exact H.
  - destruct sc; [|exact I]. destruct K as [|f K]; [exact I|]. eapply cov_go; eauto. intros H. apply owes_client in H. destruct H as [H|[[]|H]]; [left|]; exact H.
Qed.

Lemma step_cov : forall s i c, inv s -> covered s -> cov (step s i c).
Proof.
  intros s i c V CV. unfold step. destruct (nth_error (threads s) i) as [[|f K]|] eqn:E; [exact I| |exact I].
  destruct pend_pos as (P1 & P2 & P3).
  pose proof (i_thread s V _ _ E) as (SH & W & LK). pose proof (i_free s V) as FR.
  assert (DL := depth_locks (f :: K)).
  destruct f as [sc|a|p| | | | | | | |todo]; [apply client_cov; auto|..]; cbn [shape] in SH;
    try change (scopes (_ :: K)) with (scopes K) in W; try change (locks (_ :: K)) with (locks K) in LK, DL;
    try match type of DL with (depth_of (?f :: K) <= _)%Z => change (depth_of (f :: K)) with (depth_of K) in DL, SH end;
    assert (DN := wf_depth _ W); change (depth (scopes K)) with (depth_of K) in DN.
  - assert (OWN : owner s = O -> cov (Next (set_thread (set_owner s (S i)) i (Acq ASet :: K)))).
    { intros OZ. unfold cov, set_thread, set_owner. cbn [owner count queue threads logged delivered deferred].
      apply (cov_step s i _ _ _ _ _ _ _ _ CV E); auto. do 3 right. split; [reflexivity|]. split; [reflexivity|]. intros H. rewrite OZ in H.
      apply owes_pop in H; [|exact I]. apply owes_push. destruct H as [[H _]|H]; [discriminate|right; exact H]. }
    assert (GO : forall a', cov (Next (set_thread s i (Acq a' :: K)))).
    { intros a'. eapply cov_go; eauto. intros H. eapply owes_swap; eauto. exact I. }
    assert (WC : forall n, (PENDING <= count s -> owner s = S i -> PENDING <= n) -> cov (with_count s i n (fun s' => Next (set_thread s' i K)))).
    { intros n HN. unfold with_count. destruct (Nat.eqb_spec (owner s) (S i)) as [B|]; [|exact I].
      unfold cov, set_thread. cbn [owner count queue threads logged delivered deferred].
      apply (cov_step s i _ _ _ _ _ _ _ _ CV E); auto. do 3 right. split; [reflexivity|]. split; [reflexivity|]. rewrite B, Nat.eqb_refl. intros H.
      apply owes_pop in H; [|exact I]. destruct H as [[_ H]|H]; [left; auto|right; exact H]. }
    destruct SH as [CT SH].
    destruct a, c; try exact I; repeat match goal with |- cov (if ?b then _ else _) => destruct b eqn:? end;
      auto; try (apply OWN; apply Nat.eqb_eq; assumption).
    all: apply WC; intros H OW.
    1-2: destruct SH as [_ LV]; rewrite OW, Nat.eqb_refl in LV; apply level_true in LV; destruct LV as [DP CE];
      rewrite u64_small by (clear - CE LK DL P1 P2 P3; lia); clear - H; lia.
    all: destruct SH as (_ & _ & CZ); rewrite CZ in H; clear - H P3; lia.
  - match goal with |- cov (match c with CGo | CFail => ?o | _ => _ end) => assert (H : cov o); [|destruct c; try exact I; exact H] end.
    destruct SH as (CT & B & LV). rewrite B in LV. apply level_true in LV. destruct LV as [DP CE].
    apply (cov_count s i _ _ (fun _ => K) CV E). intros s' _ H.
    destruct (pend_low (Z.to_N (depth_of K))) as (L1 & L2 & L3 & L4 & L5 & L6); [clear - DL LK P1 DP; lia|]. destruct p.
    + left. split; [reflexivity|]. destruct CE as [CE|CE].
      * replace (count s) with (Z.to_N (depth_of K)) by (clear - CE; lia). rewrite L3. clear; lia.
      * replace (count s) with (Z.to_N (depth_of K) + PENDING) by (clear - CE DP; lia). rewrite L6. clear; lia.
    + rewrite N.lor_0_r. eapply owes_pop; [exact H|exact I].
  - match goal with |- cov (match c with CGo | CFail => ?o | _ => _ end) => assert (H : cov o); [|destruct c; try exact I; exact H] end.
    destruct SH as (B & LV & CT). rewrite B in LV. apply level_true in LV. destruct LV as [DP CE].
    assert (SU : Z.of_N (sub64 (count s) 1) = (Z.of_N (count s) - 1)%Z).
    { unfold sub64. replace (count s + 2 ^ 64 - 1) with ((count s - 1) + 1 * 2 ^ 64) by (clear - CE DP; lia).
      unfold u64. rewrite N.mod_add by lia. rewrite N.mod_small; clear - CE LK DL DN P1 P2 P3; lia. }
    set (c' := sub64 (count s) 1) in *. clearbody c'.
    apply (cov_count s i _ c' (fun s' => if count s' =? 0 then RStore :: K else if count s' =? PENDING then RPend :: K else K) CV E). intros s' -> H.
    apply owes_pop in H; [|exact I].
    assert (H' : owes true c' K).
    { destruct H as [[_ H]|H]; [left|right; exact H]. split; [reflexivity|]. clear - H SU CE DP LK DL P1. lia. }
    destruct (c' =? 0); [apply owes_push; exact H'|]. destruct (c' =? PENDING); [apply owes_push|]; exact H'.
  - match goal with |- cov (match c with CGo | CFail => ?o | _ => _ end) => assert (H : cov o); [|destruct c; try exact I; exact H] end.
    destruct SH as (B & D0 & C0 & CT). apply Nat.eqb_eq in B.
    unfold cov, set_thread, set_owner. cbn [owner count queue threads logged delivered deferred].
    apply (cov_step s i _ _ _ _ _ _ _ _ CV E); auto. do 3 right. split; [reflexivity|]. split; [reflexivity|]. intros H.
    apply owes_pop in H; [|exact I]. destruct H as [[_ H]|H]; [|right; exact H]. exfalso. rewrite C0 in H. clear - H P3. lia.
  - match goal with |- cov (match c with CGo | CFail => ?o | _ => _ end) => assert (H : cov o); [|destruct c; try exact I; exact H] end.
    apply (cov_count s i _ _ (fun _ => RDec :: Flush :: K) CV E). intros s' _ _. apply owes_in. exact I.
  - match goal with |- cov (match c with CGo | CFail => ?o | _ => _ end) => assert (H : cov o); [|destruct c; try exact I; exact H] end.
    destruct (Nat.eqb (owner s) (S i)); (eapply cov_go; [exact CV|exact E|]); intros _; apply owes_here; exact I.
  - match goal with |- cov (match c with CGo | CFail => ?o | _ => _ end) => assert (H : cov o); [|destruct c; try exact I; exact H] end.
    destruct SH as (CT & B & LV). rewrite B in LV. apply level_true in LV. destruct LV as [DP CE].
    apply (cov_count s i _ _ (fun _ => K) CV E). intros s' _ _. left. split; [reflexivity|].
    destruct (pend_low (Z.to_N (depth_of K))) as (L1 & L2 & L3 & L4 & L5 & L6); [clear - DL LK P1 DP; lia|]. destruct CE as [CE|CE].
    + replace (count s) with (Z.to_N (depth_of K)) by (clear - CE; lia). rewrite L3. clear; lia.
    + replace (count s) with (Z.to_N (depth_of K) + PENDING) by (clear - CE DP; lia). rewrite L6. clear; lia.
  - destruct c; try exact I.
    + eapply cov_go; [exact CV|exact E|]. intros _. apply owes_here. exact I.
    + right. left. reflexivity.
  - match goal with |- cov (match c with CGo | CFail => ?o | _ => _ end) => assert (H : cov o); [|destruct c; try exact I; exact H] end.
    left. reflexivity.
  - match goal with |- cov (match c with CGo | CFail => ?o | _ => _ end) => assert (H : cov o); [|destruct c; try exact I; exact H] end.
    destruct todo as [|m r].
    + eapply cov_go; [exact CV|exact E|]. intros H. eapply owes_pop; [exact H|exact I].
    + unfold cov. apply (cov_step s i _ _ _ _ _ _ _ _ CV E); auto. do 3 right. split; [reflexivity|]. split; [reflexivity|]. intros H.
      apply owes_push. eapply owes_swap; [exact H|exact I].
Qed.
Lemma run_cov : forall l s s', inv s -> covered s -> run s l = Next s' -> covered s'.
Proof.
  induction l as [|[i c] l IH]; intros s s' V CV E; cbn [run] in E; [injection E as <-; exact CV|].
  destruct (step s i c) eqn:ES; try discriminate.
  pose proof (step_fine s i c V) as F. pose proof (step_cov s i c V CV) as G. rewrite ES in F, G. eapply IH; eauto.
Qed.

Lemma quiet_free : forall s, inv s -> quiescent s -> owner s = O /\ count s = 0.
Proof.
  intros s V Q. assert (O : owner s = O).
  { destruct (owner s) as [|i] eqn:EO; [reflexivity|]. exfalso. pose proof (i_owner s V) as L. rewrite EO in L. specialize (L ltac:(discriminate)).
    destruct (nth_error (threads s) i) as [st|] eqn:E; [|apply nth_error_None in E; lia].
    pose proof (i_thread s V _ _ E) as (SH & _). rewrite (Q _ _ E) in SH. rewrite EO, Nat.eqb_refl in SH. cbn [shape] in SH. destruct SH as [_ SH].
    discriminate. }
  split; [exact O|apply (i_free s V O)].
Qed.
Lemma quiet_flight : forall s, quiescent s -> in_flight s = [].
Proof.
  intros s Q. unfold in_flight. assert (F : forall st, In st (threads s) -> st = [Client []]) by (intros st I; apply In_nth_error in I; destruct I as [i E]; eauto).
  clear Q. revert F. induction (threads s) as [|st l IH]; intros F; [reflexivity|]. cbn [flat_map]. rewrite (F st (or_introl eq_refl)), IH by (intros; apply F; right; auto). reflexivity.
Qed.
Lemma quiet_queue : forall n s, reached n s -> quiescent s -> queue s = [] \/ deferred s = true.
Proof.
  intros n s [l E] Q. assert (CV : covered s) by (eapply run_cov; [apply inv_init|left; reflexivity|exact E]).
  destruct CV as [C|[C|(i & st & T & O)]]; auto. exfalso. rewrite (Q _ _ T) in O.
  pose proof (quiet_free s (reached_inv n s (ex_intro _ l E)) Q) as [O0 C0]. rewrite O0 in O. apply owes_client in O.
  destruct O as [[O _]|[[]|[[O _]|[O|O]]]]; [discriminate|discriminate|destruct O|inversion O].
Qed.
