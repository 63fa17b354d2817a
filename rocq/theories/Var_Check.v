(** Executable check that a concrete history is one of a well-behaved client
    (for the examples), and the overflow of the side effect counter. *)
From Verif Require Import Base FreeSlots_Model Var_Model Var_Spec Var_Facts.
Local Open Scope N_scope.

Definition inb (i : N) (l : list N) : bool := existsb (N.eqb i) l.
Lemma inb_in i l : inb i l = true -> In i l.
Proof. unfold inb. rewrite existsb_exists. intros (x & H & E). apply N.eqb_eq in E. now subst. Qed.
Lemma inb_nin i l : inb i l = false -> ~ In i l.
Proof.
  unfold inb. intros E H. assert (existsb (N.eqb i) l = true) by (apply existsb_exists; exists i; split; auto; apply N.eqb_refl). congruence.
Qed.

Definition thread_b (s : st) (e : env) : bool := (e_tid e <? length (tscope s))%nat.
Definition fresh_b (s : st) (p : N) : bool := negb (p =? 0) && (p <? 2 ^ 64) && negb (inb p (map fst (heap s))).
Definition room_b (s : st) (h : held) : bool :=
  N.of_nat (length h) + 4 * N.of_nat (length (vars s)) + N.of_nat (length (tscope s)) + 16 <? 2 ^ 32.
Definition req_b (h : held) (q : req) : bool :=
  (length (q_dep q) =? 4)%nat && forallb (fun d => (d =? 0) || inb d h) (q_dep q) &&
  negb (q_kind q =? K_Evaluated) && (0 <? q_kind q) && (q_kind q <? 2 ^ 7) && (q_backend q <? 4) && (q_type q <? 32) &&
  (q_size q <? 2 ^ 32) && (q_lit q <? 2 ^ 64) && (q_alen q <? 2 ^ 16).
Definition with_v (s : st) (i : N) (P : var -> bool) : bool := match vget s i with Some v => P v | None => false end.
Definition len_b (n : N) (c : list N) : bool := n <=? N.of_nat (length c).

Definition allowed_b (s : st) (h : held) (o : op) : bool :=
  room_b s h &&
  match o with
  | ONode e q _ => thread_b s e && req_b h q
  | OLiteral e b t x n => thread_b s e && (b <? 4) && (t <? 16) && (n <? 2 ^ 32)
  | OMemMap e b t p n c =>
      thread_b s e && (b <? 4) && (t <? 32) && (0 <? n) && (n <? 2 ^ 32) && len_b n c && fresh_b s p
  | OPointer e d w _ _ => thread_b s e && inb d h && with_v s d (fun v => is_evaluated v && (v_se v <? 2 ^ 16 - 1))
  | OInc i | ODec i => (i =? 0) || inb i h
  | OEval i p c => inb i h && fresh_b s p && with_v s i (fun v => is_node v && len_b (v_size v) c)
  | OEffect i => inb i h && with_v s i is_node
  | OCopy e i p => thread_b s e && inb i h && fresh_b s p
  | ORead i _ => inb i h
  | OWrite e i _ _ p1 p2 j =>
      thread_b s e && inb i h && fresh_b s p1 && fresh_b s p2 && negb (p1 =? p2) &&
      with_v s i (fun v => (0 <? v_size v) && len_b (v_size v) j)
  | OShrink e i n p j =>
      thread_b s e && inb i h && (n <? 2 ^ 32) && fresh_b s p &&
      with_v s i (fun v => negb (is_undefined v) && len_b (v_size v) j)
  | OResize e i n => thread_b s e && inb i h && (0 <? n) && (n <? 2 ^ 32)
  | OGetWeak i => inb i h
  | OResolve i _ => i <? N.of_nat (length (vars s))
  | OThread => true
  | ONewScope t => (t <? length (tscope s))%nat
  | OAdvance t n => (t <? length (tscope s))%nat && (n <? 2 ^ 32)
  | OSetScope t c => (t <? length (tscope s))%nat && (c <=? sctr s)
  | OStoreDep _ _ => false
  end.

Lemma fresh_b_ok s p : fresh_b s p = true -> fresh s p.
Proof.
  unfold fresh_b, fresh. rewrite !andb_true_iff, !negb_true_iff. intros ((A & B) & C).
  apply N.eqb_neq in A. apply N.ltb_lt in B. apply inb_nin in C. auto.
Qed.
Lemma with_v_ok s i P : with_v s i P = true -> exists v, vget s i = Some v /\ P v = true.
Proof. unfold with_v. destruct (vget s i) as [v|]; [eauto|discriminate]. Qed.

Lemma allowed_b_ok s h o : allowed_b s h o = true -> allowed s h o.
Proof.
  unfold allowed_b, allowed, room_b, thread_b, thread_ok, len_b. rewrite andb_true_iff. intros (A & B).
  apply N.ltb_lt in A. split; [exact A|]. clear A.
  destruct o; try discriminate; auto; cbn beta iota zeta in *; unfold req_b, req_ok, thread_ok in *;
    rewrite ?andb_true_iff, ?orb_true_iff, ?negb_true_iff, ?N.ltb_lt, ?Nat.ltb_lt, ?N.leb_le, ?N.eqb_eq, ?N.eqb_neq, ?Nat.eqb_eq in B;
    repeat match goal with
           | H : _ /\ _ |- _ => destruct H
           | H : fresh_b _ _ = true |- _ => apply fresh_b_ok in H
           | H : with_v _ _ _ = true |- _ => apply with_v_ok in H; destruct H as (? & ? & H);
               rewrite ?andb_true_iff, ?negb_true_iff, ?N.ltb_lt, ?N.leb_le in H
           | H : inb _ _ = true |- _ => apply inb_in in H
           | H : _ \/ inb _ _ = true |- _ => destruct H as [H|H]
           | H : forallb _ _ = true |- _ => rewrite forallb_forall in H
           end; subst; repeat split; auto; eauto 8.
  2-19: match goal with H : fresh _ ?p |- context [?p] => apply H end.
  intros d Hd. specialize (H9 d Hd). apply orb_true_iff in H9 as [E|E]; [apply N.eqb_eq in E; auto|right; now apply inb_in].
Qed.

(** Runs a history, checking every operation. *)
Fixpoint client (s : st) (h : held) (os : list op) : option (st * held * list (op * out * st)) :=
  match os with
  | [] => Some (s, h, [])
  | o :: t =>
      if allowed_b s h o then
        let? x := step s o in
        let? y := client (fst x) (after h o (snd x)) t in
        Some (fst y, (o, snd x, fst x) :: snd y)
      else None
  end.
Lemma client_exec os : forall s h s' h' l, client s h os = Some (s', h', l) -> exec s h l s' h'.
Proof.
  induction os as [|o os IH]; intros s h s' h' l E; cbn [client] in E.
  - injection E as <- <- <-. constructor.
  - destruct (allowed_b s h o) eqn:A; [|discriminate]. destruct (step s o) as [(s1, r)|] eqn:S; [|discriminate].
    cbn [bind fst snd] in E. destruct (client s1 (after h o r) os) as [((s2, h2), l2)|] eqn:C; [|discriminate].
    cbn in E. injection E as <- <- <-. econstructor; eauto. now apply allowed_b_ok.
Qed.
Lemma client_reach os s h l : client st_init [] os = Some (s, h, l) -> reach s h.
Proof. intros E. eapply exec_reach; [eapply client_exec; eauto|constructor]. Qed.
Lemma client_held os s h : option_map fst (client st_init [] os) = Some (s, h) -> reach s h.
Proof. destruct (client st_init [] os) as [((s1, h1), l)|] eqn:E; [|discriminate]. cbn. intros [= <- <-]. eapply client_reach; eauto. Qed.

Lemma held_path_live s h i k : reach s h -> In i h -> path s i k -> live s k.
Proof.
  intros R Hi P. assert (L : live s i) by (eapply held_live; eauto). clear Hi.
  induction P as [|i d k O P IH]; auto. apply IH. eapply operands_live; eauto.
Qed.

(** ** The 16-bit counter *)
Definition env_off : env := mkEnv 0 false false.
Definition region1 (se : N) : var := mkVar 1 se 1 [0; 0; 0; 0] 4096 1 0 K_Evaluated 2 7 false false false false false 0.
Definition wptr : var := mkVar 1 0 1 [0; 0; 0; 1] 4096 1 0 K_Literal 2 T_Pointer true true false false false 0.
Definition many (n : nat) : st :=
  mkSt (var0 :: region1 (u16 (N.of_nat n)) :: repeat wptr n) fs_init [] [3] 3 [(4096, [7])].

Lemma upd_app {A} (l : list A) (a b : A) : upd (length l) b (l ++ [a]) = Some (l ++ [b]).
Proof.
  unfold upd. rewrite app_length. cbn [length]. destruct (Nat.ltb_spec (length l) (length l + 1)); [|lia].
  f_equal. induction l as [|x l IH]; cbn; [reflexivity|]. f_equal. apply IH. cbn in H. lia.
Qed.
Lemma nth_error_snoc {A} (l : list A) (a : A) : nth_error (l ++ [a]) (length l) = Some a.
Proof. rewrite nth_error_app2, Nat.sub_diag by lia. reflexivity. Qed.

Lemma many_step n : N.of_nat n < 2 ^ 16 ->
  step (many n) (OPointer env_off 1 true false true) = Some (many (S n), OIndex (N.of_nat n + 2)).
Proof.
  intros Hn.
  assert (Eu : u16 (N.of_nat n) = N.of_nat n) by (unfold u16; apply N.mod_small; exact Hn).
  set (V0 := var0 :: region1 (u16 (N.of_nat n + 1)) :: repeat wptr n).
  assert (EL : length V0 = S (S n)) by (unfold V0; cbn [length]; now rewrite repeat_length).
  assert (Ei : u32 (N.of_nat (length V0)) = N.of_nat (length V0)) by (apply u32_small; rewrite EL; lia).
  cbn [step]. unfold many at 1.
  change (jitc_var _ 1) with (Some (region1 (u16 (N.of_nat n)))). cbn [bind]. unfold var_pointer, inc_ref_se.
  change (1 =? 0) with false. cbn iota.
  change (jitc_var _ 1) with (Some (region1 (u16 (N.of_nat n)))). cbn [bind].
  unfold vset at 1. change (N.to_nat 1) with 1%nat. unfold upd at 1.
  cbn [length vars many Nat.ltb Nat.leb bind set_nth]. rewrite Eu.
  change (set_se _ _) with (region1 (u16 (N.of_nat n + 1))).
  cbn [bind nth_error tscope e_tid env_off many]. fold V0.
  unfold var_new_at. cbn [fs_empty e_reuse env_off negb orb unused]. rewrite orb_true_r.
  cbn [bind]. unfold with_vars. cbn [vars unused lvn tscope sctr heap]. rewrite Ei.
  unfold vget. cbn [vars]. rewrite Nat2N.id, nth_error_snoc. cbn [bind].
  change (referenced var0) with false. cbn iota.
  unfold vset. rewrite Nat2N.id. cbn [vars]. rewrite upd_app. cbn [bind].
  cbn [negb andb vars unused lvn tscope sctr heap].
  cbn [bind vars]. rewrite Nat2N.id, nth_error_snoc. cbn [bind]. rewrite upd_app. cbn [bind ix fst snd].
  unfold ix. cbn [bind fst snd]. f_equal. f_equal; [|f_equal; rewrite EL; lia].
  unfold many. f_equal. unfold V0. cbn [app]. do 3 f_equal.
  - f_equal. f_equal. lia.
  - change [_] with (repeat wptr 1). rewrite <- repeat_app. f_equal. lia.
Qed.

Lemma run_app s os1 os2 s1 r1 : run s os1 = Some (s1, r1) ->
  run s (os1 ++ os2) = let? y := run s1 os2 in Some (fst y, r1 ++ snd y).
Proof.
  revert s r1. induction os1 as [|o os IH]; intros s r1 E; cbn [run app] in *.
  - injection E as <- <-. destruct (run s os2) as [(a, b)|]; reflexivity.
  - destruct (step s o) as [(s2, r)|]; [|discriminate]. cbn [bind fst snd] in *.
    destruct (run s2 os) as [(s3, r3)|] eqn:E3; [|discriminate]. cbn in E. injection E as -> <-.
    rewrite (IH s2 r3 E3). destruct (run s1 os2) as [(a, b)|]; reflexivity.
Qed.

Lemma many_run n : N.of_nat n <= 2 ^ 16 -> exists r,
  run (many 0) (repeat (OPointer env_off 1 true false true) n) = Some (many n, r).
Proof.
  induction n as [|n IH]; intros Hn; [exists []; reflexivity|]. destruct (IH ltac:(lia)) as (r & E).
  change (repeat (OPointer env_off 1 true false true) (S n))
    with (repeat (OPointer env_off 1 true false true) 1 ++ repeat (OPointer env_off 1 true false true) n).
  replace (repeat (OPointer env_off 1 true false true) 1 ++ repeat (OPointer env_off 1 true false true) n)
    with (repeat (OPointer env_off 1 true false true) n ++ [OPointer env_off 1 true false true])
    by (change [OPointer env_off 1 true false true] with (repeat (OPointer env_off 1 true false true) 1);
        rewrite <- !repeat_app; f_equal; lia).
  rewrite (run_app _ _ _ _ _ E). cbn [run]. rewrite many_step by lia. cbn [bind fst snd]. eauto.
Qed.

Lemma drop_region L : exists s', 
  step (mkSt (var0 :: region1 0 :: L) fs_init [] [3] 3 [(4096, [7])]) (ODec 1) = Some (s', OUnit) /\
  vars s' = var0 :: set_counter (set_rc (region1 0) 0) 1 :: L /\ heap s' = [].
Proof. eexists. split; [|split]; [vm_compute; reflexivity| |]; vm_compute; reflexivity. Qed.

Lemma se_overflow n : N.of_nat n = 2 ^ 16 -> exists s r,
  run st_init ([OThread; OMemMap env_off 2 7 4096 1 [7]] ++ repeat (OPointer env_off 1 true false true) n
               ++ [ODec 1]) = Some (s, r) /\
  live s 2 /\ operand s 2 1 /\ ~ live s 1 /\ heap s = [].
Proof.
  intros Hn. destruct (many_run n) as (r & E); [lia|].
  assert (E0 : run st_init [OThread; OMemMap env_off 2 7 4096 1 [7]] = Some (many 0, [OUnit; OIndex 1])) by (vm_compute; reflexivity).
  assert (Em : many n = mkSt (var0 :: region1 0 :: repeat wptr n) fs_init [] [3] 3 [(4096, [7])]).
  { unfold many. rewrite Hn. reflexivity. }
  rewrite Em in E. destruct (drop_region (repeat wptr n)) as (s' & Es & Ev & Eh).
  destruct n as [|n]; [cbn in Hn; lia|]. cbn [repeat] in Ev.
  rewrite (run_app _ _ _ _ _ E0), (run_app _ _ _ _ _ E). cbn [run]. rewrite Es. cbn [bind fst snd].
  do 2 eexists. split; [reflexivity|]. unfold live, operand, vget. rewrite Ev.
  change (N.to_nat 2) with 2%nat. change (N.to_nat 1) with 1%nat. cbn [nth_error]. repeat split; auto; try lia.
  - exists wptr. split; [reflexivity|]. left. reflexivity.
  - exists wptr. split; [reflexivity|]. cbn. auto.
  - intros (_ & v & [= <-] & [H|H]); vm_compute in H; discriminate.
Qed.
