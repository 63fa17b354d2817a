From Verif Require Import Base Rb_Model Rb_Spec Rb_Proofs.
Local Open Scope Z_scope.

Definition buf_of (e : entry) : list nat := match e_buf e with Some b => [b] | None => [] end.
Definition sbufs (l : list entry) : list nat := flat_map buf_of l.
Lemma sbufs_app : forall a b, sbufs (a ++ b) = sbufs a ++ sbufs b.
Proof. intros. apply flat_map_app. Qed.
Lemma sbufs_none : forall l, Forall (fun e => e_buf e = None) l -> sbufs l = [].
Proof. induction 1 as [|e l E _ IH]; [reflexivity|]. cbn. unfold buf_of. rewrite E. exact IH. Qed.

Record mem (B : list nat) (s : st) : Prop := mkMem {
  m_nodup : NoDup (bufs s); m_perm : Permutation (bufs s) (sbufs (sched s) ++ B); m_next : Forall (fun b => (b < next s)%nat) (bufs s) }.
Record good (f : nat -> Z) (B cb : list nat) (s : st) : Prop := mkGood {
  g_inv : inv f s; g_mem : mem B s; g_cbs : exists n, cbs s = cb ++ n; g_eff : effects s = [] }.

Lemma remove_perm : forall b l l', Permutation l l' -> Permutation (List.remove Nat.eq_dec b l) (List.remove Nat.eq_dec b l').
Proof.
  intros b l l' P. induction P; cbn.
  - constructor.
  - destruct (Nat.eq_dec b x); [exact IHP|]. apply perm_skip. exact IHP.
  - destruct (Nat.eq_dec b y), (Nat.eq_dec b x); try apply Permutation_refl. apply perm_swap.
  - eapply perm_trans; eassumption.
Qed.
Lemma remove_cons : forall b l l', NoDup l -> Permutation l (b :: l') -> Permutation (List.remove Nat.eq_dec b l) l'.
Proof.
  intros b l l' N P. pose proof (Permutation_NoDup P N) as N'. inversion N' as [|x y A C]; subst. apply (remove_perm b) in P. cbn in P. destruct (Nat.eq_dec b b); [|congruence].
  rewrite (notin_remove Nat.eq_dec l' b A) in P. exact P.
Qed.
Lemma remove_nodup : forall b l, NoDup l -> NoDup (List.remove Nat.eq_dec b l).
Proof.
  intros b l N. induction N as [|x l A N IH]; [constructor|]. cbn. destruct (Nat.eq_dec b x); [exact IH|]. constructor; [|exact IH]. intros X. apply in_remove in X. tauto.
Qed.

Lemma decs_effects : forall l s, effects (decs l s) = effects s. Proof. intros. rewrite decs_rest. reflexivity. Qed.
Lemma decs_roots : forall l s, roots (decs l s) = roots s. Proof. intros. rewrite decs_rest. reflexivity. Qed.
Lemma decs_tasks : forall l s, tasks (decs l s) = tasks s. Proof. intros. rewrite decs_rest. reflexivity. Qed.
Lemma decs_sched : forall l s, sched (decs l s) = sched s. Proof. intros. rewrite decs_rest. reflexivity. Qed.
Lemma decs_cbs : forall l s, cbs (decs l s) = cbs s. Proof. intros. rewrite decs_rest. reflexivity. Qed.
Lemma decs_bases : forall l s, bases (decs l s) = bases s. Proof. intros. rewrite decs_rest. reflexivity. Qed.
Lemma decs_caps : forall l s, caps (decs l s) = caps s. Proof. intros. rewrite decs_rest. reflexivity. Qed.
Lemma decs_calls : forall l s, calls (decs l s) = calls s. Proof. intros. rewrite decs_rest. reflexivity. Qed.
Lemma decs_getters : forall l s, getters (decs l s) = getters s. Proof. intros. rewrite decs_rest. reflexivity. Qed.
Lemma decs_bufs : forall l s, bufs (decs l s) = bufs s. Proof. intros. rewrite decs_rest. reflexivity. Qed.
Lemma decs_temps : forall l s, temps (decs l s) = temps s. Proof. intros. rewrite decs_rest. reflexivity. Qed.
Lemma decs_next : forall l s, next (decs l s) = next s. Proof. intros. rewrite decs_rest. reflexivity. Qed.
#[local] Hint Rewrite decs_effects decs_roots decs_tasks decs_sched decs_cbs decs_bases decs_caps decs_calls decs_getters decs_bufs decs_temps decs_next : dx.
Ltac dx := repeat (progress (cbn -[count decs firstn skipn]; autorewrite with dx)).

Section P.
Variable fails : nat -> bool.
Variable has_callback : nat -> bool.

Lemma good_same : forall f B cb s s', good f B cb s -> inv f s' -> same s s' -> sched s' = sched s -> good f B cb s'.
Proof.
  intros f B cb s s' [I [M1 M2 M3] [n C] F] I' Sm Sc. destruct Sm as [Q1 Q2 Q3 Q4 Q5 Q6 Q7 [m Q8]]. constructor; [exact I'| | |congruence].
  - constructor; rewrite ?Q5, ?Sc, ?Q7; assumption.
  - exists (n ++ m). rewrite Q8, C, app_assoc. reflexivity.
Qed.
Lemma good_turn : forall f B cb s n, good f B cb s -> good f B cb (set_turn s n).
Proof. intros f B cb s n [I [M1 M2 M3] C F]. constructor; auto. constructor; auto. Qed.

Lemma visit_good : forall l f B cb s, good f B cb s -> let s' := of_res (visit fails l s) in good f B cb s'.
Proof.
  intros l f B cb s G. destruct (visit_ok fails has_callback l f s (g_inv _ _ _ _ G)) as (I & Sm & n & Sc). cbv zeta in *. destruct G as [_ [M1 M2 M3] [m C] F]. destruct Sm as [Q1 Q2 Q3 Q4 Q5 Q6 Q7 [k Q8]].
  constructor; [exact I| | |congruence].
  - constructor; rewrite ?Q5, ?Sc, ?Q7; try assumption. rewrite sbufs_app, (sbufs_none (map _ n)), app_nil_r; [exact M2|]. apply Forall_forall. intros e E. apply in_map_iff in E. destruct E as (x & <- & _). reflexivity.
  - exists (m ++ k). rewrite Q8, C, app_assoc. reflexivity.
Qed.

(** entries not yet given a buffer *)
Definition fresh (k : nat) (s : st) : Prop := Forall (fun e => e_buf e = None) (skipn k (sched s)).
Lemma fresh_later : forall k n s, fresh k s -> fresh (k + n) s.
Proof.
  intros k n s F. unfold fresh in *. rewrite Forall_forall in *. intros e E. apply F. clear F. revert E. generalize (sched s). induction k as [|k IH]; intros l E.
  - cbn in *. revert l E. induction n as [|n IHn]; intros l E; [exact E|]. destruct l; [destruct E|]. right. apply IHn, E.
  - destruct l; [destruct E|]. cbn in *. apply IH, E.
Qed.
Lemma nth_split_at : forall (l : list entry) k e, nth_error l k = Some e -> l = firstn k l ++ e :: skipn (S k) l.
Proof. intros l. induction l as [|x l IH]; intros [|k] e E; cbn in *; try discriminate; [injection E as ->; reflexivity|]. f_equal. apply IH, E. Qed.
Lemma fresh_at : forall k s e, fresh k s -> nth_error (sched s) k = Some e -> e_buf e = None.
Proof.
  intros k s e F E. unfold fresh in F. revert F E. generalize (sched s) as l. induction k as [|k IH]; intros [|x l] F E; cbn in *; try discriminate.
  - injection E as ->. inversion F; assumption.
  - apply (IH l F E).
Qed.

(** what the sequence of kernels maintains; [ok] says which entries may get a buffer *)
Record going (ok : nat -> Prop) (vs : list nat) (f : nat -> Z) (B cb : list nat) (s : st) : Prop := mkGoing {
  go_good : good f B cb s; go_vars : map e_var (sched s) = vs; go_ok : Forall (fun e => e_buf e <> None -> ok (e_var e)) (sched s) }.
Lemma going_turn : forall ok vs f B cb s n, going ok vs f B cb s -> going ok vs f B cb (set_turn s n).
Proof. intros ok vs f B cb s n [G V O]. constructor; auto. apply good_turn, G. Qed.

Definition flags_ok (ok : nat -> Prop) (vs : list nat) (outs : list bool) (k : nat) : Prop :=
  forall n i, nth_error outs n = Some true -> nth_error vs (k + n) = Some i -> ok i.

Lemma allocate_ok : forall ok vs f B cb outs k s, flags_ok ok vs outs k -> going ok vs f B cb s -> fresh k s ->
  let r := allocate fails outs k s in let s' := of_res r in
  going ok vs f B cb s' /\ calls s' = calls s /\ getters s' = getters s /\ roots s' = roots s /\ tasks s' = tasks s /\
  (match r with Ok s1 => fresh (k + length outs) s1 | Raise _ => True end).
Proof.
  intros ok vs f B cb outs. induction outs as [|o outs IH]; intros k s FO G F; cbn [allocate length].
  - cbn. rewrite Nat.add_0_r. auto 10.
  - assert (FO' : flags_ok ok vs outs (S k)) by (intros n i A C; apply (FO (S n) i); [exact A|rewrite <- plus_n_Sm; exact C]).
    rewrite <- plus_n_Sm. destruct (tick_cases fails s) as [-> | ->]; cbn [and_then]; [cbn; auto 10|].
    set (s1 := set_turn s (S (turn s))). assert (G1 : going ok vs f B cb s1) by apply going_turn, G. assert (F1 : fresh k s1) by exact F.
    assert (F1' : fresh (S k) s1) by (rewrite <- Nat.add_1_r; apply fresh_later, F1).
    destruct o; [|exact (IH (S k) s1 FO' G1 F1')].
    destruct (nth_error (sched s1) k) as [e|] eqn:E; [|exact (IH (S k) s1 FO' G1 F1')].
    destruct (tick_cases fails s1) as [-> | ->]; cbn [and_then]; [cbn; auto 10|].
    set (s2 := put_entry _ _ _). pose proof (nth_split_at _ _ _ E) as SP. pose proof (fresh_at _ _ _ F1 E) as NB.
    change (sched s1) with (sched s) in SP.
    assert (SC : sched s2 = firstn k (sched s) ++ mkEntry (e_var e) (Some (next s)) :: skipn (S k) (sched s)) by reflexivity.
    assert (MV : map e_var (sched s2) = map e_var (sched s)).
    { rewrite SC. rewrite SP at 3. rewrite !map_app. reflexivity. }
    assert (G2 : going ok vs f B cb s2).
    { destruct G as [[I [M1 M2 M3] C Ef] V O]. constructor; [constructor| |].
      - intros i. specialize (I i). unfold held in *. rewrite MV. exact I.
      - constructor.
        + change (bufs s2) with (next s :: bufs s). constructor; [|exact M1]. intros X. rewrite Forall_forall in M3. specialize (M3 _ X). lia.
        + change (bufs s2) with (next s :: bufs s). rewrite SC. rewrite SP, sbufs_app, <- app_assoc in M2. change (sbufs (e :: skipn (S k) (sched s))) with (buf_of e ++ sbufs (skipn (S k) (sched s))) in M2. unfold buf_of in M2. rewrite NB in M2. cbn [app] in M2.
          rewrite sbufs_app, <- app_assoc. cbn [sbufs flat_map buf_of e_buf app]. apply Permutation_cons_app. exact M2.
        + change (bufs s2) with (next s :: bufs s). change (next s2) with (S (next s)). constructor; [lia|]. revert M3. apply Forall_impl. intros; lia.
      - exact C.
      - exact Ef.
      - rewrite MV. exact V.
      - rewrite SC. rewrite SP in O. apply Forall_app in O. destruct O as [O1 O2]. inversion O2 as [|x y X Y]; subst x y. apply Forall_app. split; [exact O1|]. constructor; [|exact Y].
        intros _. cbn [e_var]. apply (FO O (e_var e)); [reflexivity|]. rewrite Nat.add_0_r, <- V. apply map_nth_error. exact E. }
    assert (F2 : fresh (S k) s2).
    { unfold fresh. rewrite SC. assert (L : length (firstn k (sched s)) = k) by (apply firstn_length_le; apply Nat.lt_le_incl, nth_error_Some; change (sched s) with (sched s1); rewrite E; discriminate).
      rewrite skipn_app, skipn_all2 by lia. rewrite L. replace (S k - k)%nat with 1%nat by lia. cbn [app]. exact F1'. }
    exact (IH (S k) s2 FO' G2 F2).
Qed.

Lemma going_gens : forall ok vs f B cb l s, Forall callable l -> going ok vs f B cb s ->
  let s' := of_res (gens fails has_callback l s) in going ok vs f B cb s' /\ roots s' = roots s /\ tasks s' = tasks s /\ sched s' = sched s.
Proof.
  intros ok vs f B cb l s C [G V O]. destruct (gens_ok fails has_callback l f s C (g_inv _ _ _ _ G)) as (I & Sm & Sc). cbv zeta in *.
  split; [|split; [exact (sm_roots _ _ Sm)|split; [exact (sm_tasks _ _ Sm)|exact Sc]]]. constructor; rewrite ?Sc; auto. exact (good_same _ _ _ _ _ G I Sm Sc).
Qed.
Lemma upload_ok : forall ok vs f B cb s, going ok vs f B cb s ->
  let r := upload fails s in let s' := of_res r in going ok vs f B cb s' /\ roots s' = roots s /\ tasks s' = tasks s /\ sched s' = sched s /\
  (match r with Ok s1 => calls s1 = [] /\ getters s1 = [] | Raise _ => True end).
Proof.
  intros ok vs f B cb s G. cbv zeta. unfold upload.
  assert (K : calls s = [] /\ getters s = [] \/ match calls s, getters s with [], [] => False | _, _ => True end) by (destruct (calls s), (getters s); auto).
  destruct K as [[K1 K2]|K].
  - rewrite K1, K2. cbn. auto 10.
  - assert (E : match calls s, getters s with [], [] => true | _, _ => false end = false) by (destruct (calls s), (getters s); tauto). rewrite E. clear E K.
    destruct (tick_cases fails s) as [-> | ->]; cbn [and_then]; [cbn; auto 10|].
    destruct G as [[I [M1 M2 M3] C Ef] V O].
    assert (Mv : forall n, (next s <= n)%nat -> Forall (fun b => (b < n)%nat) (bufs s)) by (intros n L; revert M3; apply Forall_impl; intros; lia).
    match goal with |- context [tick fails ?s1] => destruct (tick_cases fails s1) as [-> | ->] end; cbn [and_then].
    + cbn [of_res]. split; [|auto 10]. constructor; [constructor|exact V|exact O]; [exact I| |exact C|exact Ef]. constructor; [exact M1|exact M2|apply Mv; cbn; lia].
    + match goal with |- context [tick fails ?s1] => destruct (tick_cases fails s1) as [-> | ->] end; cbn [and_then].
      * cbn [of_res]. split; [|auto 10]. constructor; [constructor|exact V|exact O]; [exact I| |exact C|exact Ef]. constructor; [exact M1|exact M2|apply Mv; cbn; lia].
      * cbn [of_res]. rewrite (decs_rest (getters _)), (decs_rest (calls _)).
        split; [|auto 10]. constructor; [constructor|exact V|exact O]; [| |exact C|exact Ef].
        -- intros i. specialize (I i). unfold held in *. cbn -[count]. rewrite !decs_cnt. cbn -[count]. rewrite !decs_cnt. cbn -[count]. rewrite ?count_nil. lia.
        -- constructor; [exact M1|exact M2|apply Mv; cbn; lia].
Qed.
Lemma assemble_ok : forall ok vs f B cb k start s, flags_ok ok vs (k_outputs k) start -> Forall callable (k_code k) -> going ok vs f B cb s -> fresh start s -> calls s = [] -> getters s = [] ->
  let r := assemble_run fails has_callback k start s in let s' := of_res r in going ok vs f B cb s' /\ roots s' = roots s /\ tasks s' = tasks s /\
  (match r with Ok s1 => calls s1 = [] /\ getters s1 = [] /\ fresh (start + length (k_outputs k)) s1 | Raise _ => True end).
Proof.
  intros ok vs f B cb k start s FO C G F CE GE. cbv zeta. unfold assemble_run. rewrite (decs_rest (caps s)).
  set (s1 := set_getters _ _). assert (G1 : going ok vs f B cb s1).
  { destruct G as [[I [M1 M2 M3] Cb Ef] V O]. constructor; [constructor|exact V|exact O]; [|constructor; assumption|exact Cb|exact Ef].
    intros i. specialize (I i). unfold held in *. unfold s1. cbn -[count]. rewrite decs_cnt. rewrite GE in I. rewrite ?count_nil in *. lia. }
  destruct (allocate_ok ok vs f B cb (k_outputs k) start s1 FO G1 F) as (G2 & C2 & Ge2 & R2 & T2 & F2). cbv zeta in *. change (roots s1) with (roots s) in R2. change (tasks s1) with (tasks s) in T2.
  destruct (allocate fails (k_outputs k) start s1) as [s2|s2]; cbn [and_then of_res] in *; [|auto].
  assert (BS : let r := match k_base k with None => Ok s2 | Some b => and_then (tick fails s2) (fun s => Ok (inc b (set_bases s (bases s ++ [b])))) end in
     going ok vs f B cb (of_res r) /\ roots (of_res r) = roots s2 /\ tasks (of_res r) = tasks s2 /\ sched (of_res r) = sched s2).
  { destruct (k_base k) as [b|]; [|cbn; auto]. destruct (tick_cases fails s2) as [-> | ->]; cbn [and_then of_res]; [auto|]. split; [|auto].
    destruct G2 as [[I [M1 M2 M3] Cb Ef] V O]. constructor; [constructor|exact V|exact O]; [|constructor; assumption|exact Cb|exact Ef].
    intros i. specialize (I i). unfold held in *. cbn -[count]. unfold add. rewrite count_app, count_cons, count_nil. destruct (Nat.eqb i b); lia. }
  cbv zeta in BS. destruct (match k_base k with None => Ok s2 | Some b => _ end) as [s3|s3]; cbn [and_then of_res] in *; destruct BS as (G3 & R3 & T3 & S3); [|split; [exact G3|split; [congruence|split; [congruence|exact I]]]].
  destruct (going_gens ok vs f B cb (k_code k) s3 C G3) as (G4 & R4 & T4 & S4). cbv zeta in *.
  destruct (gens fails has_callback (k_code k) s3) as [s4|s4]; cbn [and_then of_res] in *; [|split; [exact G4|split; [congruence|split; [congruence|exact I]]]].
  destruct (upload_ok ok vs f B cb s4 G4) as (G5 & R5 & T5 & S5 & E5). cbv zeta in *.
  destruct (upload fails s4) as [s5|s5]; cbn [and_then of_res] in *; [|split; [exact G5|split; [congruence|split; [congruence|exact I]]]].
  assert (F5 : fresh (start + length (k_outputs k)) s5) by (unfold fresh in *; rewrite S5, S4, S3; exact F2).
  assert (R6 : roots s5 = roots s) by (rewrite R5, R4, R3, R2; reflexivity).
  assert (T6 : tasks s5 = tasks s) by (rewrite T5, T4, T3, T2; reflexivity).
  destruct E5 as [E5 E6]. destruct (tick_cases fails s5) as [-> | ->]; cbn [of_res]; [auto|].
  split; [apply going_turn, G5|]. auto 10.
Qed.
Lemma flags_ok_app : forall ok vs a b k, flags_ok ok vs (a ++ b) k -> flags_ok ok vs a k /\ flags_ok ok vs b (k + length a).
Proof.
  intros ok vs a b k F. split; intros n i A C.
  - apply (F n i); [|exact C]. rewrite nth_error_app1; [exact A|]. apply nth_error_Some. congruence.
  - apply (F (length a + n)%nat i); [|rewrite Nat.add_assoc; exact C]. rewrite nth_error_app2 by lia. replace (length a + n - length a)%nat with n by lia. exact A.
Qed.
Lemma kernels_ok : forall ok vs f B cb l start s, flags_ok ok vs (concat (map k_outputs l)) start -> Forall (fun k => Forall callable (k_code k)) l -> going ok vs f B cb s -> fresh start s -> calls s = [] -> getters s = [] ->
  let r := kernels fails has_callback l start s in let s' := of_res r in going ok vs f B cb s' /\ roots s' = roots s /\ tasks s' = tasks s /\
  (match r with Ok s1 => calls s1 = [] /\ getters s1 = [] | Raise _ => True end).
Proof.
  intros ok vs f B cb l. induction l as [|k l IH]; intros start s FO C G F CE GE; cbn [kernels]; [cbn; auto|].
  cbn [map concat] in FO. destruct (flags_ok_app _ _ _ _ _ FO) as [FO1 FO2]. inversion C as [|x y C1 C2]; subst x y.
  destruct (assemble_ok ok vs f B cb k start s FO1 C1 G F CE GE) as (G1 & R1 & T1 & E1). cbv zeta in *.
  destruct (assemble_run fails has_callback k start s) as [s1|s1]; cbn [and_then of_res] in *; [|auto].
  destruct E1 as (A1 & A2 & A3). destruct (IH _ s1 FO2 C2 G1 A3 A1 A2) as (G2 & R2 & T2 & E2). cbv zeta in *. split; [exact G2|]. split; [congruence|]. split; [congruence|exact E2].
Qed.

Lemma release_ok : forall l f B s, NoDup (bufs s) -> Permutation (bufs s) (sbufs l ++ B) ->
  let s' := release_entries l s in Permutation (bufs s') B /\ s' = set_mem (set_cnt s (fun i => cnt s' i)) (bufs s') (temps s) (next s) /\ forall i, cnt s' i = cnt s i - count i (map e_var l) + 0 * f i.
Proof.
  induction l as [|e l IH]; intros f B s N P; cbn [release_entries].
  - cbn. split; [exact P|]. split; [destruct s; reflexivity|]. intros i. rewrite count_nil. lia.
  - set (s1 := dec (e_var e) _). assert (K : NoDup (bufs s1) /\ Permutation (bufs s1) (sbufs l ++ B)).
    { unfold s1. cbn [sbufs flat_map] in P. fold (sbufs l) in P. unfold buf_of in P. destruct (e_buf e) as [b|]; cbn in *; [|auto]. split; [apply remove_nodup, N|]. apply remove_cons; assumption. }
    destruct (IH f B s1 (proj1 K) (proj2 K)) as (A & C & D). cbv zeta in *. split; [exact A|]. split.
    + rewrite C at 1. unfold s1. destruct (e_buf e); destruct s; reflexivity.
    + intros i. rewrite D. cbn [map]. rewrite count_cons. unfold s1. destruct (e_buf e); cbn; unfold add; destruct (Nat.eqb i (e_var e)); lia.
Qed.
Lemma rollback_ok : forall f B cb s, good f B cb s ->
  let s' := rollback (length cb) s in (forall i, cnt s' i = f i + count i cb) /\ Permutation (bufs s') B /\ cbs s' = cb /\ clear s' /\ next s' = next s /\ temps s' = temps s.
Proof.
  intros f B cb s [I [M1 M2 M3] [n C] Ef]. cbv zeta. destruct (release_ok (sched s) f B s M1 M2) as (A & D & E). cbv zeta in *.
  unfold rollback. revert A D E. generalize (release_entries (sched s) s) as s1. intros s1 A D E.
  assert (FN : firstn (length cb) (cbs s) = cb) by (rewrite C, firstn_app, firstn_all, Nat.sub_diag; apply app_nil_r).
  assert (SN : skipn (length cb) (cbs s) = n) by (rewrite C, skipn_app, skipn_all, Nat.sub_diag; reflexivity).
  assert (Z : roots s1 = roots s /\ tasks s1 = tasks s /\ cbs s1 = cbs s /\ bases s1 = bases s /\ caps s1 = caps s /\ calls s1 = calls s /\ getters s1 = getters s /\ effects s1 = effects s /\ temps s1 = temps s /\ next s1 = next s) by (rewrite D; auto 12).
  destruct Z as (Z1 & Z2 & Z3 & Z4 & Z5 & Z6 & Z7 & Z8 & Z9 & Z10).
  split; [|split; [dx; exact A|]].
  - intros i. specialize (I i). specialize (E i). unfold held in I. dx. repeat (rewrite decs_cnt; dx). rewrite E, count_rev. rewrite Z1, Z2, Z3, Z4, Z5, Z6, Z7. rewrite Ef, C in I. rewrite count_app in I. cbn -[count] in I. rewrite count_nil in I. rewrite SN. lia.
  - split; [dx; rewrite Z3; exact FN|]. split; [|split; dx; congruence]. unfold clear. dx. rewrite Z8. auto 10.
Qed.

Lemma collect_roots_ok : forall l f B cb s, good f B cb s \/ inv f s -> inv f s -> inv f (collect_roots l s).
Proof.
  induction l as [|[i [|]] l IH]; intros f B cb s X I; cbn [collect_roots]; [exact I|apply (IH f B cb); auto|]. apply (IH f B cb); [right|].
  all: intros j; specialize (I j); unfold held in *; cbn -[count] in *; unfold add; rewrite filter_app, map_app, !count_app; cbn -[count]; rewrite count_cons, !count_nil; destruct (Nat.eqb j i); lia.
Qed.
Definition rest_same (s s' : st) : Prop :=
  effects s' = effects s /\ sched s' = sched s /\ cbs s' = cbs s /\ bases s' = bases s /\ caps s' = caps s /\ calls s' = calls s /\ getters s' = getters s /\ bufs s' = bufs s /\ next s' = next s /\ temps s' = temps s.
Lemma collect_roots_rest : forall l s, rest_same s (collect_roots l s).
Proof. induction l as [|[i [|]] l IH]; intros s; cbn [collect_roots]; [unfold rest_same; auto 12|apply IH|]. specialize (IH (set_roots (set_tasks (inc i s) (tasks s ++ [(i, false)])) (roots s ++ [i]))). exact IH. Qed.
Lemma collect_roots_tasks : forall l s, tasks (collect_roots l s) = tasks s ++ map (fun x => (fst x, false)) (filter (fun x => negb (snd x)) l) /\ roots (collect_roots l s) = roots s ++ map fst (filter (fun x => negb (snd x)) l).
Proof.
  induction l as [|[i [|]] l IH]; intros s; cbn [collect_roots filter snd negb map fst]; [rewrite !app_nil_r; auto|apply IH|].
  destruct (IH (set_roots (set_tasks (inc i s) (tasks s ++ [(i, false)])) (roots s ++ [i]))) as [A B]. rewrite A, B. cbn. rewrite <- !app_assoc. auto.
Qed.
Lemma collect_effects_ok : forall l f s, inv f s -> inv (fun i => f i - count i (map fst l)) (collect_effects l s).
Proof.
  induction l as [|[j [|]] l IH]; intros f s I; cbn [collect_effects].
  - intros i. specialize (I i). cbn [map]. rewrite count_nil. lia.
  - assert (I1 : inv (fun i => f i - (if Nat.eqb i j then 1 else 0)) (dec j s)) by (intros i; specialize (I i); unfold held in *; cbn -[count] in *; unfold add; destruct (Nat.eqb i j); lia).
    pose proof (IH _ _ I1) as K. intros i. specialize (K i). cbv beta in K. cbn [map fst]. rewrite count_cons. lia.
  - assert (I1 : inv (fun i => f i - (if Nat.eqb i j then 1 else 0)) (set_tasks s (tasks s ++ [(j, true)]))) by (intros i; specialize (I i); unfold held in *; cbn -[count] in *; rewrite filter_app, map_app, count_app; cbn -[count]; rewrite count_cons, count_nil; destruct (Nat.eqb i j); lia).
    pose proof (IH _ _ I1) as K. intros i. specialize (K i). cbv beta in K. cbn [map fst]. rewrite count_cons. lia.
Qed.
Lemma collect_effects_rest : forall l s, rest_same s (collect_effects l s) /\ roots (collect_effects l s) = roots s /\ tasks (collect_effects l s) = tasks s ++ map (fun x => (fst x, true)) (filter (fun x => negb (snd x)) l).
Proof.
  induction l as [|[j [|]] l IH]; intros s; cbn [collect_effects filter snd negb map fst]; [rewrite app_nil_r; unfold rest_same; auto 15|exact (IH (dec j s))|].
  destruct (IH (set_tasks s (tasks s ++ [(j, true)]))) as (A & B & C). split; [exact A|]. split; [exact B|]. rewrite C. cbn. rewrite <- app_assoc. reflexivity.
Qed.
Lemma visit_vars : forall l s, match visit fails l s with Ok s' => sched s' = sched s ++ map (fun i => mkEntry i None) l | Raise _ => True end.
Proof.
  induction l as [|i l IH]; intros s; cbn [visit]; [rewrite app_nil_r; reflexivity|]. destruct (tick_cases fails s) as [-> | ->]; cbn [and_then]; [exact I|].
  match goal with |- match visit fails l ?s1 with _ => _ end => specialize (IH s1); destruct (visit fails l s1); [|exact I] end. rewrite IH. cbn. rewrite <- app_assoc. reflexivity.
Qed.
Lemma visit_rest : forall l s, let s' := of_res (visit fails l s) in caps s' = caps s /\ calls s' = calls s /\ getters s' = getters s.
Proof.
  induction l as [|i l IH]; intros s; cbn [visit]; [cbn; auto|]. destruct (tick_cases fails s) as [-> | ->]; cbn [and_then]; [cbn; auto|].
  match goal with |- context [visit fails l ?s1] => exact (IH s1) end.
Qed.

Lemma effects_kept : forall l : list (nat * bool), map fst (filter snd (map (fun x => (fst x, true)) (filter (fun x => negb (snd x)) l))) = map fst (filter (fun x => negb (snd x)) l).
Proof. induction l as [|[a [|]] l IH]; cbn; [reflexivity|exact IH|]. f_equal. exact IH. Qed.
Lemma roots_dropped : forall l : list (nat * bool), filter snd (map (fun x => (fst x, false)) (filter (fun x => negb (snd x)) l)) = [].
Proof. induction l as [|[a [|]] l IH]; cbn; [reflexivity|exact IH|exact IH]. Qed.

Section Main.
Variable sort : list entry -> list entry.
Hypothesis sorts : forall l, Permutation (sort l) l.
Variable j : job.
Variable s0 : st.
Hypothesis start : idle s0.
Hypothesis call_ok : callable_job j.
Definition f0 (i : nat) : Z := cnt s0 i - count i (queued s0) - count i (cbs s0).
Definition vlist : list nat := map e_var (sort (map (fun i => mkEntry i None) (j_visited j))).
Definition elist : list nat := map fst (filter (fun x => negb (snd x)) (effects s0)).
Definition tasked : Prop := exists x, In (x, false) (j_scheduled j) \/ In (x, false) (effects s0).

Lemma main_ok : forall ok : nat -> Prop, flags_ok ok vlist (concat (map k_outputs (j_kernels j))) 0 ->
  match eval_main fails has_callback sort j s0 with
  | Raise s => good f0 (bufs s0) (cbs s0) s
  | Ok s => good f0 (bufs s0) (cbs s0) s /\ roots s = [] /\ map fst (filter snd (tasks s)) = elist /\ caps s = [] /\ bases s = [] /\ calls s = [] /\ getters s = [] /\
      Forall (fun e => e_buf e <> None -> ok (e_var e)) (sched s) /\ Permutation (map e_var (sched s)) (if match tasks s with [] => true | _ => false end then [] else j_visited j) /\
      (tasks s = [] -> ~ tasked)
  end.
Proof.
  intros ok FO. destruct start as (B0 & C0 & L0 & Ge0 & ND & NX). unfold eval_main.
  set (s1 := set_roots (set_tasks (set_sched s0 []) []) []).
  assert (I1 : inv f0 s1).
  { intros i. unfold held, f0, queued, s1. cbn -[count]. rewrite B0, C0, L0, Ge0, !count_nil. lia. }
  pose proof (collect_roots_ok (j_scheduled j) f0 [] [] s1 (or_intror I1) I1) as I2. pose proof (collect_roots_rest (j_scheduled j) s1) as R2.
  destruct (collect_roots_tasks (j_scheduled j) s1) as [T2 O2]. set (s2 := collect_roots (j_scheduled j) s1) in *.
  pose proof (collect_effects_ok (effects s2) f0 s2 I2) as I3. destruct (collect_effects_rest (effects s2) s2) as (R3 & O3 & T3). set (s3 := collect_effects (effects s2) s2) in *.
  unfold rest_same in R2, R3. destruct R2 as (X1 & X2 & X3 & X4 & X5 & X6 & X7 & X8 & X9 & X10), R3 as (Y1 & Y2 & Y3 & Y4 & Y5 & Y6 & Y7 & Y8 & Y9 & Y10).
  change (effects s1) with (effects s0) in X1. change (sched s1) with (@nil entry) in X2. change (cbs s1) with (cbs s0) in X3. change (bases s1) with (bases s0) in X4. change (caps s1) with (caps s0) in X5. change (calls s1) with (calls s0) in X6. change (getters s1) with (getters s0) in X7. change (bufs s1) with (bufs s0) in X8. change (next s1) with (next s0) in X9.
  change (tasks s1) with (@nil (nat * bool)) in T2. change (roots s1) with (@nil nat) in O2. cbn [app] in T2, O2. rewrite X1 in T3.
  set (s4 := set_effects s3 []).
  assert (G4 : good f0 (bufs s0) (cbs s0) s4).
  { constructor.
    - intros i. specialize (I3 i). unfold held in *. change (cnt s4) with (cnt s3). cbn -[count]. rewrite count_nil. rewrite Y1 in I3. cbv beta in I3. lia.
    - constructor; unfold s4; cbn; rewrite ?Y8, ?X8, ?Y9, ?X9; [exact ND| |exact NX]. rewrite Y2, X2. apply Permutation_refl.
    - exists []. unfold s4. cbn. rewrite Y3, X3, app_nil_r. reflexivity.
    - reflexivity. }
  assert (T4 : tasks s4 = map (fun x => (fst x, false)) (filter (fun x => negb (snd x)) (j_scheduled j)) ++ map (fun x => (fst x, true)) (filter (fun x => negb (snd x)) (effects s0))) by (unfold s4; cbn; rewrite T3, T2; reflexivity).
  assert (E4 : map fst (filter snd (tasks s4)) = elist).
  { rewrite T4, filter_app, map_app. unfold elist. replace (filter snd (map (fun x => (fst x, false)) _)) with (@nil (nat * bool)).
    - cbn [map app]. apply effects_kept.
    - symmetry. apply roots_dropped. }
  assert (TK : tasks s4 = [] -> ~ tasked).
  { intros E [x [K|K]]; rewrite T4 in E; apply app_eq_nil in E; destruct E as [E1 E2].
    - assert (In (x, false) (map (fun x => (fst x, false)) (filter (fun x => negb (snd x)) (j_scheduled j)))) as W; [|rewrite E1 in W; destruct W]. apply in_map_iff. exists (x, false). split; [reflexivity|]. apply filter_In. auto.
    - assert (In (x, true) (map (fun x => (fst x, true)) (filter (fun x => negb (snd x)) (effects s0)))) as W; [|rewrite E2 in W; destruct W]. apply in_map_iff. exists (x, false). split; [reflexivity|]. apply filter_In. auto. }
  assert (P4 : bases s4 = [] /\ caps s4 = [] /\ calls s4 = [] /\ getters s4 = [] /\ sched s4 = []) by (unfold s4; cbn; rewrite Y4, Y5, Y6, Y7, Y2, X4, X5, X6, X7, X2; auto). destruct P4 as (P41 & P42 & P43 & P44 & P45).
  destruct (match tasks s4 with [] => true | _ => false end) eqn:TE.
  { assert (TN : tasks s4 = []) by (destruct (tasks s4); [reflexivity|discriminate]). split; [exact G4|]. split.
    - change (roots s4) with (roots s3). rewrite O3, O2. rewrite T4 in TN. apply app_eq_nil in TN. destruct TN as [TN _]. apply map_eq_nil in TN. rewrite TN. reflexivity.
    - split; [exact E4|]. split; [exact P42|]. split; [exact P41|]. split; [exact P43|]. split; [exact P44|]. rewrite P45, TE. split; [constructor|]. split; [constructor|exact TK]. }
  pose proof (visit_good (j_visited j) f0 _ _ s4 G4) as G5. pose proof (visit_vars (j_visited j) s4) as V5. pose proof (visit_rest (j_visited j) s4) as W5. destruct (visit_ok fails has_callback (j_visited j) f0 s4 (g_inv _ _ _ _ G4)) as (_ & Sm5 & _). cbv zeta in *.
  destruct (visit fails (j_visited j) s4) as [s5|s5]; cbn [of_res and_then] in *; [|exact G5].
  destruct W5 as (W51 & W52 & W53). rewrite P45 in V5. cbn [app] in V5.
  rewrite (decs_rest (roots s5)). set (s6 := set_roots _ _).
  assert (G6 : good f0 (bufs s0) (cbs s0) s6).
  { destruct G5 as [I [M1 M2 M3] Cb Ef]. constructor; [|constructor; assumption|exact Cb|exact Ef]. intros i. specialize (I i). unfold held in *. unfold s6. cbn -[count]. rewrite decs_cnt, count_nil. lia. }
  change (sched s6) with (sched s5).
  assert (T6 : tasks s5 = tasks s4) by exact (sm_tasks _ _ Sm5). assert (B6 : bases s5 = []) by (rewrite (sm_bases _ _ Sm5); exact P41).
  destruct (match sched s5 with [] => true | _ => false end) eqn:SE.
  { assert (SN : sched s5 = []) by (destruct (sched s5); [reflexivity|discriminate]). split; [exact G6|]. split; [reflexivity|]. split; [change (tasks s6) with (tasks s5); rewrite T6; exact E4|].
    split; [change (caps s5 = []); congruence|]. split; [exact B6|]. split; [change (calls s5 = []); congruence|]. split; [change (getters s5 = []); congruence|].
    change (sched s6) with (sched s5). change (tasks s6) with (tasks s5). rewrite T6, TE. split; [rewrite SN; constructor|]. split; [|exact TK].
    rewrite V5, map_map, map_id. apply Permutation_refl. }
  set (s7 := set_sched s6 (sort (sched s5))).
  assert (NB : Forall (fun e => e_buf e = None) (sort (sched s5))).
  { apply Forall_forall. intros e E. apply (Permutation_in _ (sorts _)) in E. rewrite V5 in E. apply in_map_iff in E. destruct E as (x & <- & _). reflexivity. }
  assert (G7 : going ok vlist f0 (bufs s0) (cbs s0) s7).
  { destruct G6 as [I [M1 M2 M3] Cb Ef]. constructor; [constructor; [| |exact Cb|exact Ef]| |].
    - intros i. specialize (I i). unfold held in *. change (sched s6) with (sched s5) in I. rewrite <- (count_perm i _ _ (Permutation_map e_var (sorts (sched s5)))) in I. exact I.
    - constructor; [exact M1| |exact M3]. change (bufs s7) with (bufs s6). change (sched s7) with (sort (sched s5)). rewrite (sbufs_none _ NB). change (sched s6) with (sched s5) in M2. rewrite (sbufs_none (sched s5)) in M2; [exact M2|].
      rewrite V5. apply Forall_forall. intros e E. apply in_map_iff in E. destruct E as (x & <- & _). reflexivity.
    - unfold vlist. rewrite <- V5. reflexivity.
    - change (sched s7) with (sort (sched s5)). revert NB. apply Forall_impl. intros e E X. congruence. }
  assert (F7 : fresh 0 s7) by exact NB.
  destruct (kernels_ok ok vlist f0 (bufs s0) (cbs s0) (j_kernels j) 0 s7 FO call_ok G7 F7) as (G8 & R8 & T8 & E8); [change (calls s5 = []); congruence|change (getters s5 = []); congruence|]. cbv zeta in *.
  destruct (kernels fails has_callback (j_kernels j) 0 s7) as [s8|s8]; cbn [and_then of_res] in *; [|exact (go_good _ _ _ _ _ _ G8)].
  destruct E8 as [E81 E82]. destruct (tick_cases fails s8) as [-> | ->]; cbn [and_then]; [exact (go_good _ _ _ _ _ _ G8)|].
  rewrite (decs_rest (caps _)), (decs_rest (bases _)).
  destruct G8 as [[I [M1 M2 M3] Cb Ef] V O].
  split; [|split; [exact R8|split; [|split; [reflexivity|split; [reflexivity|split; [exact E81|split; [exact E82|split; [exact O|]]]]]]]].
  - constructor; [|constructor; assumption|exact Cb|exact Ef]. intros i. specialize (I i). unfold held in *. cbn -[count]. repeat (rewrite decs_cnt; cbn -[count]). rewrite !count_nil. lia.
  - cbn. change (tasks s7) with (tasks s5) in T8. rewrite T8, T6. exact E4.
  - cbn. change (tasks s7) with (tasks s5) in T8. rewrite T8, T6, TE. split; [|exact TK]. rewrite V. unfold vlist. rewrite (Permutation_map e_var (sorts _)), map_map, map_id. apply Permutation_refl.
Qed.
End Main.

(** ** Clean-up *)
Definition drops (v : vars) (i : nat) : list nat := if v_out v i || v_effect v i then v_dep v i else [].
Lemma cleanup_ok : forall l B s v, NoDup (map e_var l) -> NoDup (bufs s) -> Permutation (bufs s) (sbufs l ++ B) -> Forall (fun e => e_buf e <> None -> v_out v (e_var e) = true) l ->
  let '(s', v') := cleanup has_callback l s v in
  Permutation (bufs s') B /\
  (exists n, cbs s' = cbs s ++ n /\ forall i, cnt s' i = cnt s i - count i (map e_var l) - count i (filter (v_effect v) (map e_var l)) - count i (flat_map (drops v) (map e_var l)) + count i n) /\
  (forall i, In i (map e_var l) -> v_effect v' i = false /\ (v_out v i || v_effect v i = true -> v_dep v' i = [])) /\
  (forall e b, In e l -> e_buf e = Some b -> v_data v' (e_var e) = Some b /\ v_out v' (e_var e) = false) /\
  (forall i, ~ In i (map e_var l) -> v_effect v' i = v_effect v i /\ v_dep v' i = v_dep v i /\ v_out v' i = v_out v i /\ v_data v' i = v_data v i).
Proof.
  induction l as [|e l IH]; intros B s v ND NB P O; cbn [cleanup].
  - split; [exact P|]. split; [exists []; rewrite app_nil_r; split; [reflexivity|]; intros i; cbn -[count]; rewrite !count_nil; lia|]. split; [intros i []|]. split; [intros e b []|auto].
  - cbn [map] in ND. inversion ND as [|x y NI ND']; subst x y. inversion O as [|x y O1 O2]; subst x y.
    set (i := e_var e) in *. set (s1 := if has_callback i then _ else _).
    assert (K1 : bufs s1 = bufs s /\ exists n, cbs s1 = cbs s ++ n /\ forall k, cnt s1 k = cnt s k + count k n).
    { unfold s1. destruct (has_callback i); cbn; (split; [reflexivity|]).
      - exists [i]. split; [reflexivity|]. intros k. unfold add. rewrite count_cons, count_nil. destruct (Nat.eqb k i); lia.
      - exists []. split; [symmetry; apply app_nil_r|]. intros k. rewrite count_nil. lia. }
    destruct K1 as (KB & n1 & KC & KN). clearbody s1. cbn [sbufs flat_map] in P. fold (sbufs l) in P.
    destruct (v_out v i || v_effect v i) eqn:OE; cbn [negb].
    + (* outputs and effects *)
      assert (KX : exists out data s2, (match v_out v i, e_buf e with true, Some b => (unset (v_out v) i false, unset (v_data v) i (Some b), free b s1) | _, _ => (v_out v, v_data v, s1) end) = (out, data, s2) /\
         NoDup (bufs s2) /\ Permutation (bufs s2) (sbufs l ++ B) /\ cbs s2 = cbs s1 /\ (forall k, cnt s2 k = cnt s1 k) /\
         (forall k, k <> i -> out k = v_out v k /\ data k = v_data v k) /\ (forall b, e_buf e = Some b -> data i = Some b /\ out i = false)).
      { unfold buf_of in P. destruct (e_buf e) as [b|].
        - rewrite (O1 ltac:(discriminate)). exists (unset (v_out v) i false), (unset (v_data v) i (Some b)), (free b s1). cbn. rewrite KB. split; [reflexivity|]. split; [apply remove_nodup, NB|]. split; [apply remove_cons; [exact NB|exact P]|].
          split; [reflexivity|]. split; [reflexivity|]. split; [intros k Nk; unfold unset; destruct (Nat.eqb_spec k i); [contradiction|auto]|]. intros b' E. unfold unset. rewrite Nat.eqb_refl. auto.
        - exists (v_out v), (v_data v), s1. split; [destruct (v_out v i); reflexivity|]. rewrite KB. split; [exact NB|]. split; [exact P|]. repeat split; try reflexivity; discriminate. }
      destruct KX as (out & data & s2 & -> & NB2 & P2 & CB2 & CN2 & KO & KD). set (s3 := decs (v_dep v i) _). set (v3 := mkVars _ _ _ _).
      assert (B3 : bufs s3 = bufs s2 /\ cbs s3 = cbs s2) by (unfold s3; rewrite decs_rest; destruct (v_effect v i); auto). destruct B3 as [B3 C3].
      specialize (IH B s3 v3 ND'). rewrite B3 in IH. specialize (IH NB2 P2).
      assert (O3 : Forall (fun e => e_buf e <> None -> v_out v3 (e_var e) = true) l).
      { rewrite Forall_forall in O2 |- *. intros x X Y. cbn. rewrite (proj1 (KO (e_var x) ltac:(intros Z; apply NI; rewrite <- Z; apply in_map; exact X))). apply O2; assumption. }
      specialize (IH O3). destruct (cleanup has_callback l s3 v3) as [s' v']. destruct IH as (Q1 & (n & Q2 & Q3) & Q4 & Q5 & Q6).
      assert (VE : forall k, In k (map e_var l) -> v_effect v3 k = v_effect v k /\ v_dep v3 k = v_dep v k /\ v_out v3 k = v_out v k).
      { intros k K. assert (NE : k <> i) by (intros ->; contradiction). cbn. unfold unset. destruct (Nat.eqb_spec k i); [contradiction|]. split; [reflexivity|]. split; [reflexivity|]. apply KO, NE. }
      assert (FE : filter (v_effect v3) (map e_var l) = filter (v_effect v) (map e_var l)) by (apply filter_ext_in; intros k K; apply (VE k K)).
      assert (FD : flat_map (drops v3) (map e_var l) = flat_map (drops v) (map e_var l)).
      { rewrite !flat_map_concat_map. f_equal. apply map_ext_in. intros k K. unfold drops. destruct (VE k K) as (-> & -> & ->). reflexivity. }
      rewrite FE, FD in Q3.
      split; [exact Q1|]. split; [|split; [|split]].
      * exists (n1 ++ n). rewrite Q2, C3, CB2, KC, app_assoc. split; [reflexivity|]. intros k. rewrite Q3, count_app. unfold s3. rewrite decs_cnt. cbn [map filter flat_map]. fold i. rewrite count_app, count_cons. unfold drops at 2. rewrite OE.
        destruct (v_effect v i); cbn -[count]; unfold add; rewrite CN2, KN, ?count_cons; destruct (Nat.eqb k i); lia.
      * intros k [<-|K].
        -- fold i. destruct (Q6 i NI) as (A & C & _). rewrite A, C. cbn. unfold unset. rewrite Nat.eqb_refl. auto.
        -- destruct (Q4 k K) as [A C]. split; [exact A|]. destruct (VE k K) as (E1 & E2 & E3). rewrite E1, E3 in C. exact C.
      * intros x b [<-|X] E; [|exact (Q5 x b X E)]. fold i. destruct (Q6 i NI) as (_ & _ & A & C). rewrite A, C. cbn. destruct (KD b E) as [Z W]. auto.
      * intros k K. cbn [map] in K. fold i in K. destruct (Q6 k (fun X => K (or_intror X))) as (A & C & D & E). rewrite A, C, D, E. assert (NE : k <> i) by (intros ->; apply K; left; reflexivity). cbn. unfold unset. destruct (Nat.eqb_spec k i); [contradiction|]. destruct (KO k NE) as [-> ->]. auto.
    + apply orb_false_iff in OE. destruct OE as [OF EF].
      assert (BN : e_buf e = None) by (destruct (e_buf e); [rewrite O1 in OF by discriminate; discriminate|reflexivity]). unfold buf_of in P. rewrite BN in P. cbn [app] in P.
      specialize (IH B (dec i s1) v ND'). cbn [dec set_cnt bufs] in IH. rewrite KB in IH. specialize (IH NB P O2). unfold dec in IH. unfold dec. destruct (cleanup has_callback l _ v) as [s' v']. destruct IH as (Q1 & (n & Q2 & Q3) & Q4 & Q5 & Q6).
      split; [exact Q1|]. split; [|split; [|split]].
      * exists (n1 ++ n). cbn in Q2. rewrite Q2, KC, app_assoc. split; [reflexivity|]. intros k. rewrite Q3, count_app. cbn [map filter flat_map]. fold i. rewrite EF. unfold drops at 2. rewrite OF, EF. cbn [orb app]. rewrite count_cons. cbn -[count]. unfold add. rewrite KN. destruct (Nat.eqb k i); lia.
      * intros k [<-|K]; [|exact (Q4 k K)]. fold i. rewrite OF, EF. destruct (Q6 i NI) as (A & _). rewrite A. split; [exact EF|discriminate].
      * intros x b [<-|X] E; [congruence|exact (Q5 x b X E)].
      * intros k K. apply Q6. intros X. apply K. right. exact X.
Qed.
End P.

Theorem success : forall fails has_callback sort j s v s' v',
  (forall l, Permutation (sort l) l) -> idle s -> callable_job j ->
  NoDup (j_visited j) -> Permutation (filter (v_effect v) (j_visited j)) (kept s) -> (j_visited j <> [] -> pending j s) -> outputs_only sort j v ->
  eval fails has_callback sort j s v = Evaluated s' v' ->
  (forall i, cnt s' i = cnt s i - count i (queued s) - count i (cbs s) - count i (flat_map (operands v) (j_visited j))) /\
  Permutation (bufs s') (bufs s) /\ effects s' = [] /\ cbs s' = [] /\
  (forall i, In i (j_visited j) -> v_effect v' i = false /\ (v_out v i || v_effect v i = true -> v_dep v' i = [])).
Proof.
  intros fails has_callback sort j s v s' v' P Id C ND PE PD OO E. unfold eval in E.
  pose proof (main_ok fails has_callback sort P j s Id C (fun i => v_out v i = true) OO) as M.
  destruct (eval_main fails has_callback sort j s) as [s1|s1]; [|discriminate].
  destruct M as ([I [M1 M2 M3] [n Cb] Ef] & R & T & Ca & Ba & Cl & Ge & O & V & TK).
  assert (V' : Permutation (map e_var (sched s1)) (j_visited j)).
  { destruct (tasks s1) as [|t ts]; [|exact V]. destruct (j_visited j) as [|x l]; [exact V|]. exfalso. apply (TK eq_refl). apply PD. discriminate. }
  pose proof (cleanup_ok fails has_callback (sched s1) (bufs s) s1 v (Permutation_NoDup (Permutation_sym V') ND) M1 M2 O) as K.
  assert (CR : effects (fst (cleanup has_callback (sched s1) s1 v)) = effects s1).
  { clear. generalize (sched s1) as l. intros l. revert s1 v. induction l as [|e l IH]; intros s1 v; cbn [cleanup]; [reflexivity|].
    destruct (negb _); [rewrite IH; destruct (has_callback (e_var e)); reflexivity|]. destruct (v_out v (e_var e)), (e_buf e) as [b|], (v_effect v (e_var e)), (has_callback (e_var e)); rewrite IH, decs_rest; reflexivity. }
  destruct (cleanup has_callback (sched s1) s1 v) as [s2 v2]. injection E as <- <-. cbn [fst] in CR.
  destruct K as (K1 & (m & K2 & K3) & K4 & K5 & K6).
  unfold run_callbacks. rewrite decs_rest. split; [|split; [exact K1|split; [cbn; congruence|split; [reflexivity|]]]].
  - intros i. cbn [set_cbs set_cnt cnt]. rewrite decs_cnt, K3, K2, count_app. specialize (I i). unfold held in I. rewrite Ef, R, T, Ca, Ba, Cl, Ge in I. cbn [map] in I. rewrite !count_nil in I. unfold f0 in I.
    rewrite (count_perm i _ _ (Permutation_flat_map (drops v) V')). change (drops v) with (operands v).
    assert (FP : Permutation (filter (v_effect v) (map e_var (sched s1))) (kept s)).
    { eapply perm_trans; [|exact PE]. clear - V'. induction V'; cbn; [constructor| | |eapply perm_trans; eassumption].
      - destruct (v_effect v x); [apply perm_skip|]; assumption.
      - destruct (v_effect v x), (v_effect v y); try apply Permutation_refl. apply perm_swap. }
    rewrite (count_perm i _ _ FP). change (elist s) with (kept s) in I. lia.
  - intros i X. apply K4. exact (Permutation_in _ (Permutation_sym V') X).
Qed.
