From Verif Require Import Base Rb_Model Rb_Spec.
Local Open Scope Z_scope.

Lemma count_nil : forall i, count i [] = 0. Proof. reflexivity. Qed.
Lemma count_cons : forall i j l, count i (j :: l) = (if Nat.eqb i j then 1 else 0) + count i l.
Proof. intros i j l. unfold count. cbn [count_occ]. destruct (Nat.eq_dec j i) as [->|N]; [rewrite Nat.eqb_refl; lia|]. destruct (Nat.eqb_spec i j); [congruence|lia]. Qed.
Lemma count_app : forall i a b, count i (a ++ b) = count i a + count i b.
Proof. intros. unfold count. rewrite count_occ_app. lia. Qed.
Lemma count_perm : forall i a b, Permutation a b -> count i a = count i b.
Proof. intros i a b P. unfold count. f_equal. apply (Permutation_count_occ Nat.eq_dec). exact P. Qed.
Lemma count_rev : forall i l, count i (rev l) = count i l.
Proof. intros i l. symmetry. apply count_perm, Permutation_rev. Qed.

Definition held (s : st) (i : nat) : Z :=
  count i (map fst (effects s)) + count i (roots s) + count i (map fst (filter snd (tasks s))) + count i (map e_var (sched s)) +
  count i (cbs s) + count i (bases s) + count i (caps s) + count i (calls s) + count i (getters s).
Definition inv (f : nat -> Z) (s : st) : Prop := forall i, cnt s i = f i + held s i.

Lemma decs_cnt : forall l s i, cnt (decs l s) i = cnt s i - count i l.
Proof.
  induction l as [|j l IH]; intros s i; cbn [decs]; [rewrite count_nil; lia|]. rewrite IH, count_cons. cbn [dec set_cnt cnt]. unfold add. destruct (Nat.eqb i j); lia.
Qed.
Lemma decs_rest : forall l s, decs l s = set_cnt s (cnt (decs l s)).
Proof. induction l as [|j l IH]; intros s; cbn [decs]; [destruct s; reflexivity|]. rewrite IH at 1. destruct s; reflexivity. Qed.

(** what code generation leaves alone *)
Record same (s s' : st) : Prop := mkSame {
  sm_eff : effects s' = effects s; sm_roots : roots s' = roots s; sm_tasks : tasks s' = tasks s; sm_bases : bases s' = bases s;
  sm_bufs : bufs s' = bufs s; sm_temps : temps s' = temps s; sm_next : next s' = next s; sm_cbs : exists n, cbs s' = cbs s ++ n }.
Lemma same_refl : forall s, same s s.
Proof. intros s. constructor; try reflexivity. exists []. symmetry. apply app_nil_r. Qed.
Lemma same_trans : forall a b c, same a b -> same b c -> same a c.
Proof.
  intros a b c A B. destruct A, B. constructor; try congruence. destruct sm_cbs0 as [n N], sm_cbs1 as [m M]. exists (n ++ m). rewrite M, N, app_assoc. reflexivity.
Qed.
Definition of_res (r : res) : st := match r with Ok s | Raise s => s end.

Section P.
Variable fails : nat -> bool.
Variable has_callback : nat -> bool.

Lemma tick_cases : forall s, tick fails s = Raise s \/ tick fails s = Ok (set_turn s (S (turn s))).
Proof. intros s. unfold tick. destruct (fails (turn s)); auto. Qed.
Lemma inv_turn : forall f s n, inv f s -> inv f (set_turn s n).
Proof. intros f s n I i. exact (I i). Qed.
Lemma same_turn : forall s n, same s (set_turn s n).
Proof. intros. constructor; try reflexivity. exists []. symmetry. apply app_nil_r. Qed.
Ltac inv_solve := let i := fresh in intros i; match goal with I : inv _ ?s |- _ => specialize (I i) end; unfold held in *; cbn in *; unfold add in *; rewrite ?map_app, ?count_app in *; cbn in *; rewrite ?count_cons, ?count_nil in *; destruct (Nat.eqb i _); lia.

Lemma visit_ok : forall l f s, inv f s ->
  let s' := of_res (visit fails l s) in inv f s' /\ same s s' /\ exists n, sched s' = sched s ++ map (fun i => mkEntry i None) n.
Proof.
  induction l as [|j l IH]; intros f s I; cbn [visit].
  - cbn. split; [exact I|]. split; [apply same_refl|]. exists []. symmetry. apply app_nil_r.
  - destruct (tick_cases s) as [-> | ->]; cbn [and_then of_res].
    + split; [exact I|]. split; [apply same_refl|]. exists []. symmetry. apply app_nil_r.
    + set (s1 := inc _ _). assert (I1 : inv f s1).
      { intros i. specialize (I i). unfold held in *. cbn. unfold add. rewrite map_app, count_app. cbn [map]. rewrite count_cons, count_nil. cbn [e_var]. destruct (Nat.eqb i j); lia. }
      destruct (IH f s1 I1) as (A & B & n & C). split; [exact A|]. split.
      * eapply same_trans; [|exact B]. constructor; try reflexivity. exists []. symmetry. apply app_nil_r.
      * exists (j :: n). rewrite C. cbn. rewrite <- app_assoc. reflexivity.
Qed.
Lemma finish_cnt : forall l f s, inv (fun i => f i + count i (map e_var l)) s -> inv f (finish_func has_callback l s) /\ same s (finish_func has_callback l s) /\ sched (finish_func has_callback l s) = sched s.
Proof.
  induction l as [|e l IH]; intros f s I; cbn [finish_func].
  - split; [|split; [apply same_refl|reflexivity]]. intros i. specialize (I i). cbn in I. rewrite count_nil in I. lia.
  - set (s1 := if has_callback (e_var e) then _ else _).
    assert (I1 : inv (fun i => f i + count i (map e_var l)) (dec (e_var e) s1) /\ same s (dec (e_var e) s1) /\ sched (dec (e_var e) s1) = sched s).
    { unfold s1. destruct (has_callback (e_var e)); (split; [|split; [|reflexivity]]).
      - intros i. specialize (I i). unfold held in *. cbn in *. unfold add. rewrite count_cons in I. rewrite count_app, count_cons, count_nil. destruct (Nat.eqb i (e_var e)); lia.
      - constructor; try reflexivity. exists [e_var e]. reflexivity.
      - intros i. specialize (I i). unfold held in *. cbn in *. unfold add. rewrite count_cons in I. destruct (Nat.eqb i (e_var e)); lia.
      - constructor; try reflexivity. exists []. symmetry. apply app_nil_r. }
    destruct I1 as (A & B & C). destruct (IH f _ A) as (D & E & F). split; [exact D|]. split; [exact (same_trans _ _ _ B E)|congruence].
Qed.
Lemma capture_ok : forall l f s, inv f s -> inv f (capture l s) /\ same s (capture l s) /\ sched (capture l s) = sched s.
Proof.
  induction l as [|j l IH]; intros f s I; cbn [capture]; [split; [exact I|split; [apply same_refl|reflexivity]]|].
  set (s1 := inc _ _). assert (I1 : inv f s1).
  { intros i. specialize (I i). unfold held in *. cbn. unfold add. rewrite count_app, count_cons, count_nil. destruct (Nat.eqb i j); lia. }
  destruct (IH f s1 I1) as (A & B & C). split; [exact A|]. split; [|exact C]. eapply same_trans; [|exact B]. constructor; try reflexivity. exists []. symmetry. apply app_nil_r.
Qed.
Lemma restore_ok : forall b f s, inv f s -> inv (fun i => f i - count i (map e_var b)) (restore b s) /\ same s (restore b s) /\ sched (restore b s) = b.
Proof.
  intros b f s I. unfold restore. rewrite decs_rest. split; [|split; [constructor; try reflexivity; exists []; symmetry; apply app_nil_r|reflexivity]].
  intros i. specialize (I i). unfold held in *. cbn. rewrite decs_cnt. lia.
Qed.

Fixpoint code_size (c : code) : nat :=
  match c with
  | CallTo _ _ insts => S ((fix each (l : list (list nat * list code)) : nat :=
      match l with [] => 0 | f :: r => S ((fix all (l : list code) : nat := match l with [] => 0 | c :: r => S (code_size c) + all r end) (snd f) + each r) end) insts)%nat
  | _ => 1%nat
  end.
Fixpoint codes_size (l : list code) : nat := match l with [] => 0 | c :: r => S (code_size c) + codes_size r end%nat.
Fixpoint funcs_size (l : list (list nat * list code)) : nat := match l with [] => 0 | f :: r => S (codes_size (snd f) + funcs_size r) end%nat.
Definition assemble_func (f : list nat * list code) (s : st) : res :=
  and_then (visit fails (fst f) (set_sched s [])) (fun s => and_then (gens fails has_callback (snd f) s) (fun s => Ok (set_sched (finish_func has_callback (sched s) s) []))).
Fixpoint funcs (l : list (list nat * list code)) (s : st) : res :=
  match l with [] => Ok s | f :: r => and_then (assemble_func f s) (funcs r) end.
Lemma code_size_call : forall id slots insts, code_size (CallTo id slots insts) = S (funcs_size insts).
Proof.
  reflexivity.
Qed.
Lemma gen_call : forall id slots insts s, gen fails has_callback (CallTo id slots insts) s =
  let s := capture slots s in
  match and_then (funcs insts s) (fun s => and_then (tick fails s) (fun s => Ok (inc id (set_calls s (calls s ++ [id]))))) with
  | Ok s1 => Ok (restore (sched s) s1) | Raise s1 => Raise (restore (sched s) s1) end.
Proof.
  intros. cbn [gen]. cbv zeta. set (s1 := capture slots s). generalize (sched s1) as b. intros b.
  match goal with |- match and_then (?F insts s1) _ with _ => _ end = _ => assert (E : forall l s, F l s = funcs l s) end.
  { induction l as [|f r IH]; intros s2; [reflexivity|]. cbn [funcs]. unfold assemble_func at 1.
    destruct (visit fails (fst f) (set_sched s2 [])) as [s3|s3]; [|reflexivity]. cbn [and_then].
    match goal with |- and_then (and_then (?G (snd f) s3) _) _ = _ => assert (E2 : forall l s, G l s = gens fails has_callback l s) end.
    { induction l as [|c l IHl]; intros s4; [reflexivity|]. cbn [gens]. destruct (gen fails has_callback c s4); [cbn [and_then]; apply IHl|reflexivity]. }
    rewrite E2. destruct (gens fails has_callback (snd f) s3); [cbn [and_then]; apply IH|reflexivity]. }
  rewrite E. reflexivity.
Qed.
Fixpoint callables (l : list code) : Prop := match l with [] => True | c :: r => callable c /\ callables r end.
Fixpoint func_callable (l : list (list nat * list code)) : Prop := match l with [] => True | f :: r => callables (snd f) /\ func_callable r end.
Lemma callable_call : forall id slots insts, callable (CallTo id slots insts) -> insts <> [] /\ func_callable insts.
Proof.
  intros id slots insts H. cbn [callable] in H. destruct H as [A B]. split; [exact A|]. clear A. revert B. induction insts as [|f r IH]; [auto|]. intros [X Y]. cbn [func_callable]. split; [|exact (IH Y)].
  clear - X. revert X. induction (snd f) as [|c l IHl]; [auto|]. intros [P Q]. split; [exact P|exact (IHl Q)].
Qed.

Lemma gen_all : forall n,
  (forall c f s, (code_size c <= n)%nat -> callable c -> inv f s -> let s' := of_res (gen fails has_callback c s) in inv f s' /\ same s s' /\ sched s' = sched s) /\
  (forall l f s, (codes_size l <= n)%nat -> callables l -> inv f s -> let s' := of_res (gens fails has_callback l s) in inv f s' /\ same s s' /\ sched s' = sched s) /\
  (forall l f s, (funcs_size l <= n)%nat -> func_callable l -> l <> [] -> inv (fun i => f i - count i (map e_var (sched s))) s ->
     let s' := of_res (funcs l s) in inv f s' /\ same s s' /\ (match funcs l s with Ok s1 => sched s1 = [] | _ => True end)).
Proof.
  induction n as [|n (IHc & IHl & IHf)].
  - split; [|split].
    + intros c f s L. destruct c; [cbn in L; lia|cbn in L; lia|rewrite code_size_call in L; lia].
    + intros [|c l] f s L; [|cbn in L; lia]. intros _ I. cbn. split; [exact I|split; [apply same_refl|reflexivity]].
    + intros [|x l] f s L C N; [congruence|cbn in L; lia].
  - split; [|split].
    + intros c f s L C I. destruct c as [|id|id slots insts].
      * cbn [gen]. destruct (tick_cases s) as [-> | ->]; cbn; (split; [|split; [|reflexivity]]); try exact I; try apply same_refl. apply same_turn.
      * cbn [gen]. set (s1 := inc _ _). assert (I1 : inv f s1).
        { intros i. specialize (I i). unfold held in *. cbn. unfold add. rewrite count_app, count_cons, count_nil. destruct (Nat.eqb i id); lia. }
        assert (S1 : same s s1) by (constructor; try reflexivity; exists []; symmetry; apply app_nil_r).
        destruct (tick_cases s1) as [-> | ->]; cbn [of_res]; (split; [|split; [|reflexivity]]); try exact I1; try exact S1. exact (same_trans _ _ _ S1 (same_turn _ _)).
      * rewrite gen_call. cbv zeta. rewrite code_size_call in L. destruct (callable_call _ _ _ C) as [NE FC].
        destruct (capture_ok slots f s I) as (I1 & S1 & E1). set (s1 := capture slots s) in *.
        destruct (IHf insts (fun i => f i + count i (map e_var (sched s1))) s1 ltac:(lia) FC NE) as (I2 & S2 & _).
        { intros i. specialize (I1 i). cbv beta. lia. }
        assert (G : forall s2, inv (fun i => f i + count i (map e_var (sched s1))) s2 -> same s s2 -> inv f (restore (sched s1) s2) /\ same s (restore (sched s1) s2) /\ sched (restore (sched s1) s2) = sched s).
        { intros s2 A B. destruct (restore_ok (sched s1) _ s2 A) as (D & E & F). split; [|split; [exact (same_trans _ _ _ B E)|congruence]]. intros i. specialize (D i). cbv beta in D. lia. }
        pose proof (same_trans _ _ _ S1 S2) as S12.
        destruct (funcs insts s1) as [s2|s2]; cbn [and_then of_res] in *; [|exact (G s2 I2 S12)].
        destruct (tick_cases s2) as [-> | ->]; cbn [and_then of_res]; [exact (G s2 I2 S12)|]. apply G.
        -- intros i. specialize (I2 i). unfold held in *. cbn. unfold add. rewrite count_app, count_cons, count_nil. destruct (Nat.eqb i id); lia.
        -- eapply same_trans; [exact S12|]. constructor; try reflexivity. exists []. symmetry. apply app_nil_r.
    + intros [|c l] f s L C I; [cbn; split; [exact I|split; [apply same_refl|reflexivity]]|]. cbn [codes_size] in L. destruct C as [C1 C2]. cbn [gens].
      destruct (IHc c f s ltac:(lia) C1 I) as (A & B & D). destruct (gen fails has_callback c s) as [s1|s1]; cbn [and_then of_res] in *; [|auto].
      destruct (IHl l f s1 ltac:(lia) C2 A) as (A2 & B2 & D2). split; [exact A2|]. split; [exact (same_trans _ _ _ B B2)|congruence].
    + intros [|x l] f s L C N I; [congruence|]. cbn [funcs_size] in L. destruct C as [C1 C2]. cbn [funcs].
      assert (AF : let s' := of_res (assemble_func x s) in inv f s' /\ same s s' /\ (match assemble_func x s with Ok s1 => sched s1 = [] | _ => True end)).
      { unfold assemble_func. assert (I0 : inv f (set_sched s [])).
        { intros i. specialize (I i). unfold held in *. cbn -[count] in *. rewrite ?count_nil in *. lia. }
        assert (S0 : same s (set_sched s [])) by (constructor; try reflexivity; exists []; symmetry; apply app_nil_r).
        destruct (visit_ok (fst x) f _ I0) as (A & B & _). pose proof (same_trans _ _ _ S0 B) as S1.
        destruct (visit fails (fst x) (set_sched s [])) as [s1|s1]; cbn [and_then of_res] in *; [|auto].
        destruct (IHl (snd x) f s1 ltac:(lia) C1 A) as (A2 & B2 & D2). pose proof (same_trans _ _ _ S1 B2) as S2.
        destruct (gens fails has_callback (snd x) s1) as [s2|s2]; cbn [and_then of_res] in *; [|auto].
        destruct (finish_cnt (sched s2) (fun i => f i - count i (map e_var (sched s2))) s2) as (A3 & B3 & D3).
        { intros i. specialize (A2 i). cbv beta. lia. }
        split; [|split; [|reflexivity]].
        - intros i. specialize (A3 i). unfold held in *. cbn -[count]. rewrite ?count_nil. rewrite D3 in A3. cbv beta in A3. lia.
        - eapply same_trans; [exact (same_trans _ _ _ S2 B3)|]. constructor; try reflexivity. exists []. symmetry. apply app_nil_r. }
      destruct AF as (A & B & D). destruct (assemble_func x s) as [s1|s1]; cbn [and_then of_res] in *; [|auto].
      destruct l as [|y l]; [cbn; auto|].
      destruct (IHf (y :: l) f s1 ltac:(lia) C2 ltac:(discriminate)) as (A2 & B2 & D2).
      { rewrite D. cbn [map]. intros i. specialize (A i). rewrite count_nil. cbv beta. lia. }
      split; [exact A2|]. split; [exact (same_trans _ _ _ B B2)|exact D2].
Qed.
Lemma gens_ok : forall l f s, Forall callable l -> inv f s -> let s' := of_res (gens fails has_callback l s) in inv f s' /\ same s s' /\ sched s' = sched s.
Proof.
  intros l f s C I. apply (proj1 (proj2 (gen_all (codes_size l)))); [lia| |exact I]. induction C; cbn; auto.
Qed.
End P.
