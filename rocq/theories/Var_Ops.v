(** Every operation of a well-behaved client succeeds and keeps the invariant. *)
From Verif Require Import Base FreeSlots_Model FreeSlots_Spec FreeSlots_Proofs Var_Model Var_Spec Var_Inv Var_Count Var_Free Var_New Var_Create.
Local Open Scope N_scope.

Lemma no_dep_on_free s al own ownse todo hx i : INV s al own ownse todo hx -> al i = false -> i <> 0 ->
  forall k, al k = true -> ~ In i (v_dep (V s k)).
Proof.
  intros I Hi H0 k Hk Hin. rewrite (s_dep _ _ _ _ _ _ _ (I_stat _ _ _ _ _ _ I) k i) in Hi; auto. discriminate.
Qed.

Lemma created_cnts s al v sc s' i own ownse hx w s'' :
  INV s al (fun j => own j + cnt v j) (fun j => ownse j + cnt_se v j) [] hx ->
  created s al v sc s' i -> (forall d, In d (v_dep v) -> d <> 0 -> al d = true) -> v_se v = 0 ->
  length (vars s'') = length (vars s') -> (forall j, j <> i -> V s'' j = V s' j) -> V s'' i = w ->
  v_rc w = 1 -> v_se w = 0 -> v_dep w = v_dep v -> v_wptr w = v_wptr v ->
  cnts (V s'') (fupd al i true) (length (vars s'')) (plus1 own i) ownse [].
Proof.
  intros I CR Hd Hse EL EV Ei E1 E2 E3 E4. pose proof (cr_i _ _ _ _ _ _ CR) as Hr.
  rewrite EL. apply (cnts_add (V s) (V s'') al (length (vars s)) (length (vars s')) _ _ _ _ i (I_cnt _ _ _ _ _ _ I)).
  - eapply no_dep_on_free; eauto; [apply CR|lia].
  - apply CR.
  - unfold sz in Hr. lia.
  - destruct (cr_sz _ _ _ _ _ _ CR) as [E|E]; unfold sz in E; lia.
  - intros j Hj. rewrite EV by auto. now apply CR.
  - now rewrite Ei.
  - now rewrite Ei.
  - rewrite Ei, E3. exact Hd.
  - intros j Hj. rewrite Ei. unfold cnt, plus1. rewrite E3, E4. lia.
  - intros j Hj. rewrite Ei. unfold cnt_se. rewrite E3, E4. lia.
Qed.

Lemma created_INV s al v sc s' i own ownse hx hx' :
  INV s al (fun j => own j + cnt v j) (fun j => ownse j + cnt_se v j) [] hx ->
  new_pre s al v sc -> created s al v sc s' i -> v_retain v = false ->
  (is_evaluated v = true /\ hx = v_lit v :: hx' /\ ~ In (v_lit v) hx' /\
     (exists c, In (v_lit v, c) (heap s) /\ v_size v <= N.of_nat (length c)) \/
   is_evaluated v = false /\ hx = hx') ->
  sz s + 1 < 2 ^ 32 ->
  INV s' (fupd al i true) (plus1 own i) ownse [] hx'.
Proof.
  intros I P CR Hret Hh Hsz.
  pose proof (I_stat _ _ _ _ _ _ I) as S. pose proof (cr_i _ _ _ _ _ _ CR) as Hr.
  assert (Vi : core (V s' i) = core (set_vscope v (scope_of v sc))) by (rewrite (cr_V _ _ _ _ _ _ CR); reflexivity).
  constructor.
  - eapply (created_cnts s al v sc s' i own ownse hx (V s' i)); eauto; try apply P;
      rewrite (cr_V _ _ _ _ _ _ CR); try reflexivity. apply P.
  - rewrite (cr_heap _ _ _ _ _ _ CR), (cr_ts _ _ _ _ _ _ CR), (cr_sctr _ _ _ _ _ _ CR).
    eapply (stat_add (V s) (V s')); eauto; try (apply CR; fail); rewrite (cr_V _ _ _ _ _ _ CR);
      cbn [set_rc set_counter set_vscope v_dep v_wptr v_retain v_kind v_lit v_size v_scope].
    + apply P.
    + apply P.
    + apply P.
    + congruence.
    + apply CR.
    + destruct Hh as [(A & B & C & D)|(A & B)]; [left; repeat split; auto|right; auto].
    + unfold scope_of. pose proof (np_sc _ _ _ _ P). pose proof (s_ctr _ _ _ _ _ _ _ S).
      unfold SCOPE_BUFFER. destruct (_ && _); lia.
  - apply CR.
  - destruct (cr_sz _ _ _ _ _ _ CR); lia.
Qed.

(** jitc_var_new in the form used below. *)
Lemma var_new_ok s e sc v dis al own ownse hx hx' :
  INV s al (fun j => own j + cnt v j) (fun j => ownse j + cnt_se v j) [] hx ->
  new_pre s al v sc -> v_retain v = false ->
  (is_evaluated v = true /\ hx = v_lit v :: hx' /\ ~ In (v_lit v) hx' /\
     (exists c, In (v_lit v, c) (heap s) /\ v_size v <= N.of_nat (length c)) \/
   is_evaluated v = false /\ hx = hx') ->
  (forall j, own j + 4 * sz s + 8 < 2 ^ 32) ->
  exists s' i al', var_new_at s e sc v dis = Some (s', i) /\ INV s' al' (plus1 own i) ownse [] hx' /\
    grows s al s' al' /\ al' i = true /\ i <> 0 /\ sz s' <= sz s + 1 /\
    key_of (V s' i) = key_of (set_vscope v (scope_of v sc)) /\
    (al i = false /\ al' = fupd al i true /\ heap s' = heap s /\
       V s' i = set_rc (set_counter (set_vscope v (scope_of v sc)) (v_counter (V s i))) 1 /\
       (forall j, j <> i -> V s' j = V s j) \/
     al i = true /\ al' = al /\ is_evaluated v = false /\ dis = false) /\
    (dis = false -> e_vn e = true -> v_type v <> T_Void -> is_evaluated v = false ->
     find_lvn (key_of (V s' i)) (lvn s') = Some i).
Proof.
  intros I P Hret Hh Hb.
  destruct (var_new_at_ok s e sc v dis al own ownse hx I P Hb) as (s' & i & E & [CR|(A & B & C & D & F & SZ & G)] & L).
  - exists s', i, (fupd al i true). split; [exact E|]. split.
    { eapply created_INV; eauto. specialize (Hb 0). lia. }
    split; [eapply created_grows; eauto|]. split; [apply fupd_eq|].
    split; [pose proof (cr_i _ _ _ _ _ _ CR); lia|].
    split; [destruct (cr_sz _ _ _ _ _ _ CR); lia|].
    split; [rewrite (cr_V _ _ _ _ _ _ CR); reflexivity|]. split; [|exact L].
    left. destruct CR. auto.
  - exists s', i, al. split; [exact E|].
    assert (hx = hx') by (destruct Hh as [(H & _)|(_ & H)]; [congruence|exact H]). subst hx'.
    split; [exact D|]. split; [exact F|]. split; [exact C|].
    split; [pose proof (al_range _ _ _ _ _ _ _ D C); lia|].
    split; [exact SZ|]. split; [|split; [right; auto|exact L]].
    rewrite <- G. apply key_core. now apply F.
Qed.

(** ** What an operation preserves *)
Record trans (s : st) (al : N -> bool) (s' : st) (al' : N -> bool) (o : op) : Prop := {
  t_len : sz s <= sz s';
  t_dead : forall j, al j = false ->
    v_counter (V s' j) = v_counter (V s j) \/
    al' j = false /\ temporary o /\ v_counter (V s' j) = u32 (v_counter (V s j) + 1);
  t_counter : forall j, al j = true ->
    v_counter (V s' j) = if al' j then v_counter (V s j) else u32 (v_counter (V s j) + 1);
  t_lvn : forall i, al i = true -> al' i = true -> ~ touches i o ->
    In (key_of (V s i), i) (lvn s) -> In (key_of (V s' i), i) (lvn s');
  t_core : forall i, al i = true -> al' i = true -> ~ touches i o ->
    core (set_vscope (V s' i) 0) = core (set_vscope (V s i) 0) }.

Lemma core_vscope v w x : core v = core w -> core (set_vscope v x) = core (set_vscope w x).
Proof. destruct v, w. unfold core. cbn. intros E. injection E as; subst. reflexivity. Qed.

Lemma trans_grow s al s' al' o : grows s al s' al' -> trans s al s' al' o.
Proof.
  intros G. constructor.
  - apply G.
  - intros j _. left. apply G.
  - intros j Hj. rewrite (gr_al _ _ _ _ G j Hj). apply G.
  - intros i Hi Hi' _ H. rewrite (key_core (V s' i) (V s i)); [now apply G|now apply G].
  - intros i Hi Hi' _. apply core_vscope. now apply G.
Qed.
Lemma trans_shrink s al s1 al1 s' al' o :
  trans s al s1 al1 o -> (forall j, al j = true -> al1 j = true) ->
  (forall j, al1 j = true -> al j = true \/ temporary o) -> shrinks s1 al1 s' al' -> trans s al s' al' o.
Proof.
  intros T M M' Sh. constructor.
  - pose proof (t_len _ _ _ _ _ T). unfold sz in *. rewrite (sh_len _ _ _ _ Sh). lia.
  - intros j Hj. rewrite (sh_counter _ _ _ _ Sh). destruct (t_dead _ _ _ _ _ T j Hj) as [E|(A & B & E)].
    + rewrite E. destruct (al1 j) eqn:E1; [|auto]. destruct (al' j) eqn:E2; [auto|]. right.
      destruct (M' j E1); [congruence|auto].
    + right. rewrite E, A. cbn. split; auto. destruct (al' j) eqn:E2; auto. apply Sh in E2. congruence.
  - intros j Hj. rewrite (sh_counter _ _ _ _ Sh), (M j Hj), (t_counter _ _ _ _ _ T j Hj), (M j Hj).
    cbn. now destruct (al' j).
  - intros i Hi Hi' Ht H. rewrite (key_core (V s' i) (V s1 i)) by (now apply Sh).
    apply Sh; auto. apply T; auto.
  - intros i Hi Hi' Ht. rewrite <- (t_core _ _ _ _ _ T i Hi (M i Hi) Ht). apply core_vscope. now apply Sh.
Qed.
Lemma trans_grow_shrink s al s1 al1 s' al' o :
  grows s al s1 al1 -> (forall j, al1 j = true -> al j = true \/ temporary o) ->
  shrinks s1 al1 s' al' -> trans s al s' al' o.
Proof. intros G M Sh. eapply trans_shrink; [eapply trans_grow; eauto|apply G|exact M|exact Sh]. Qed.
Lemma trans_refl s al o : trans s al s al o.
Proof. apply trans_grow, grows_refl. Qed.
Lemma trans_shrink0 s al s' al' o : shrinks s al s' al' -> trans s al s' al' o.
Proof. intros. eapply trans_grow_shrink; [apply grows_refl|auto|eauto]. Qed.

(** ** The invariant seen from a client *)
Definition INVh (s : st) (h : held) (al : N -> bool) : Prop := INV s al (occ h) (fun _ => 0) [] [].

Lemma room_bound s h j : room s h -> occ h j + 4 * sz s + 16 < 2 ^ 32.
Proof. unfold room, sz. pose proof (occ_le h j). lia. Qed.

Lemma held_al s h al i : INVh s h al -> In i h -> i <> 0 -> al i = true.
Proof.
  intros I Hi H0. destruct (al i) eqn:E; auto.
  destruct (c_own0 _ _ _ _ _ _ (I_cnt _ _ _ _ _ _ I) i H0 E) as (Z & _). apply occ_pos in Hi. lia.
Qed.

Lemma gain_INV s h al i : i <> 0 -> INV s al (plus1 (occ h) i) (fun _ => 0) [] [] ->
  INVh s (gain h (OIndex i)) al.
Proof.
  intros H0 I. unfold INVh. cbn [gain]. destruct i as [|p]; [congruence|].
  eapply INV_own; [| |exact I]; auto. intros j _. rewrite occ_cons. unfold plus1. lia.
Qed.

Lemma INV_eqown s al own own' ownse ownse' todo hx :
  INV s al own ownse todo hx -> (forall j, j <> 0 -> own' j = own j) -> (forall j, j <> 0 -> ownse' j = ownse j) ->
  INV s al own' ownse' todo hx.
Proof. intros. eapply INV_own; eauto. Qed.

Lemma thread_scope s al own ownse todo hx e : INV s al own ownse todo hx -> thread_ok s e ->
  exists sc, nth_error (tscope s) (e_tid e) = Some sc /\ sc <= sctr s.
Proof.
  intros I T. destruct (nth_error (tscope s) (e_tid e)) as [sc|] eqn:E.
  - exists sc. split; auto. apply (s_ts _ _ _ _ _ _ _ (I_stat _ _ _ _ _ _ I)). eapply nth_error_In; eauto.
  - apply nth_error_None in E. unfold thread_ok in T. lia.
Qed.

Lemma type_size_le t : type_size t <= 8.
Proof.
  unfold type_size.
  destruct (nth_in_or_default (N.to_nat t) [0; 1; 0; 1; 1; 2; 2; 4; 4; 8; 8; 8; 0; 2; 4; 8] 0) as [H| ->]; [|lia].
  revert H. generalize (nth (N.to_nat t) [0; 1; 0; 1; 1; 2; 2; 4; 4; 8; 8; 8; 0; 2; 4; 8] 0) as x.
  intros x H. cbn in H. intuition lia.
Qed.
Lemma trunc_lt t x : trunc t x < 2 ^ 64.
Proof.
  unfold trunc. pose proof (type_size_le t).
  assert (2 ^ (8 * type_size t) <= 2 ^ 64) by (apply N.pow_le_mono_r; lia).
  assert (2 ^ (8 * type_size t) <> 0) by (apply N.pow_nonzero; lia).
  pose proof (N.mod_lt x _ H1). lia.
Qed.

(** ** Nodes *)
Lemma node_ok s e q dis al own hx :
  INV s al own (fun _ => 0) [] hx -> thread_ok s e ->
  length (q_dep q) = 4%nat -> (forall d, In d (q_dep q) -> d = 0 \/ al d = true) ->
  q_kind q <> K_Evaluated -> 0 < q_kind q < 2 ^ 7 -> q_backend q < 4 -> q_type q < 32 ->
  q_size q < 2 ^ 32 -> q_lit q < 2 ^ 64 -> q_alen q < 2 ^ 16 ->
  (forall j, own j + 4 * sz s + 9 < 2 ^ 32) ->
  exists s' i al', new_node s e q dis = Some (s', i) /\ INV s' al' (plus1 own i) (fun _ => 0) [] hx /\
    grows s al s' al' /\ al' i = true /\ i <> 0 /\
    (exists sc, nth_error (tscope s) (e_tid e) = Some sc /\
       key_of (V s' i) = key_of (set_vscope (var_of_req q) sc)) /\ wf (var_of_req q) /\
    (al i = false \/ al i = true /\ al' = al /\ dis = false) /\
    (dis = false -> e_vn e = true -> q_type q <> T_Void -> find_lvn (key_of (V s' i)) (lvn s') = Some i).
Proof.
  intros I T L Hd K1 K2 K3 K4 K5 K6 K7 Hb. unfold new_node.
  destruct (inc_refs_ok (q_dep q) s al own (fun _ => 0) hx I Hd) as (s1 & E1 & I1 & CO & _).
  { intros d Hin. rewrite L. specialize (Hb d). change (N.of_nat 4) with 4. lia. }
  rewrite E1. cbn [bind]. unfold var_new. rewrite (co_ts _ _ CO).
  destruct (thread_scope _ _ _ _ _ _ _ I T) as (sc & Es & Hsc). rewrite Es. cbn [bind].
  assert (W : wf (var_of_req q)) by (unfold wf; cbn; repeat split; auto; lia).
  assert (SZ : sz s1 = sz s) by (unfold sz; now rewrite (co_len _ _ CO)).
  assert (Ne : is_evaluated (var_of_req q) = false) by (unfold is_evaluated; cbn; now apply N.eqb_neq).
  destruct (var_new_ok s1 e sc (var_of_req q) dis al own (fun _ => 0) hx hx)
    as (s' & i & al' & E & I' & G & A & B & _ & F & D & M).
  - eapply INV_own; [| |exact I1]; intros j Hj; unfold cnt, cnt_se, plusl; cbn; lia.
  - constructor; cbn; auto.
    + intros d Hin Hn. destruct (Hd d Hin); [congruence|auto].
    + discriminate.
    + rewrite (co_sctr _ _ CO). exact Hsc.
  - reflexivity.
  - right. auto.
  - intros j. rewrite SZ. specialize (Hb j). lia.
  - exists s', i, al'. split; [exact E|]. split; [exact I'|].
    split; [eapply grows_trans; [apply grows_counts; exact CO|exact G]|].
    split; [exact A|]. split; [exact B|]. split; [|split; [exact W|split]].
    + exists sc. split; [reflexivity|]. rewrite F. unfold scope_of. now rewrite Ne.
    + destruct D as [(D & _)|(D & D' & _ & D'')]; auto.
    + intros Hdis Hvn Hty. apply M; auto.
Qed.

Lemma literal_ok s e b t x n al own hx :
  INV s al own (fun _ => 0) [] hx -> thread_ok s e -> b < 4 -> t < 32 -> 0 < n < 2 ^ 32 ->
  (forall j, own j + 4 * sz s + 9 < 2 ^ 32) ->
  exists s' i al' sc, literal s e b t x n = Some (s', i) /\ INV s' al' (plus1 own i) (fun _ => 0) [] hx /\
    grows s al s' al' /\ al' i = true /\ i <> 0 /\
    key_of (V s' i) = key_of (mkVar 0 0 sc [0; 0; 0; 0] (trunc t x) n 0 K_Literal b t false false false false false 0) /\
    wf (mkVar 0 0 sc [0; 0; 0; 0] (trunc t x) n 0 K_Literal b t false false false false false 0).
Proof.
  intros I T Hb4 Ht Hn Hb. unfold literal. destruct (N.eqb_spec n 0); [lia|]. unfold var_new.
  destruct (thread_scope _ _ _ _ _ _ _ I T) as (sc & Es & Hsc). rewrite Es. cbn [bind].
  pose proof (trunc_lt t x) as Htr.
  set (v := mkVar 0 0 0 [0; 0; 0; 0] (trunc t x) n 0 K_Literal b t false false false false false 0).
  assert (W : wf v) by (unfold wf, K_Literal; cbn; repeat split; auto; lia).
  destruct (var_new_ok s e sc v false al own (fun _ => 0) hx hx)
    as (s' & i & al' & E & I' & G & A & B & _ & F & D & M).
  - eapply INV_own; [| |exact I]; intros j Hj; unfold cnt, cnt_se; cbn [v v_wptr v_dep]; rewrite ?occ_cons, ?occ_nil;
      destruct (N.eqb_spec j 0); (congruence || lia).
  - constructor; cbn; auto.
    + intros d [<-|[<-|[<-|[<-|[]]]]]; congruence.
    + discriminate.
  - reflexivity.
  - right. auto.
  - intros j. specialize (Hb j). lia.
  - exists s', i, al', sc. split; [exact E|]. auto 10.
Qed.

(** Plain creation of a not evaluated variable without operands or with one. *)
Lemma fresh_node_ok s e d lit n k b t co al0 al own hx :
  INV s al (plus1 own d) (fun _ => 0) [] hx -> thread_ok s e -> (d = 0 \/ al d = true) ->
  lit < 2 ^ 64 -> n < 2 ^ 32 -> 0 < k < 2 ^ 7 -> k <> K_Evaluated -> b < 4 -> t < 32 -> al0 < 2 ^ 16 ->
  (forall j, own j + 4 * sz s + 9 < 2 ^ 32) ->
  exists s' i al', var_new s e (mkVar 0 0 0 [d; 0; 0; 0] lit n 0 k b t false false false false co al0) true = Some (s', i) /\
    INV s' al' (plus1 own i) (fun _ => 0) [] hx /\ grows s al s' al' /\ al' i = true /\ i <> 0 /\ al i = false /\
    (exists sc, core (V s' i) = core (mkVar 0 0 sc [d; 0; 0; 0] lit n 0 k b t false false false false co al0)).
Proof.
  intros I T Hd K1 K2 K3 K4 K5 K6 K7 Hb. unfold var_new.
  destruct (thread_scope _ _ _ _ _ _ _ I T) as (sc & Es & Hsc). rewrite Es. cbn [bind].
  set (v := mkVar 0 0 0 [d; 0; 0; 0] lit n 0 k b t false false false false co al0).
  assert (W : wf v) by (unfold wf; cbn; repeat split; auto; lia).
  destruct (var_new_ok s e sc v true al own (fun _ => 0) hx hx)
    as (s' & i & al' & E & I' & G & A & B & _ & F & D & M).
  - eapply INV_own; [| |exact I]; intros j Hj; unfold cnt, cnt_se, plus1; cbn [v v_wptr v_dep]; rewrite ?occ_cons, ?occ_nil;
      destruct (N.eqb_spec j 0); try congruence; lia.
  - constructor; cbn; auto.
    + intros d' [<-|[<-|[<-|[<-|[]]]]] Hn; try congruence. destruct Hd; [congruence|auto].
    + discriminate.
  - reflexivity.
  - right. split; auto. unfold is_evaluated. cbn. now apply N.eqb_neq.
  - intros j. specialize (Hb j). lia.
  - destruct D as [(D1 & D2 & D3 & D4 & D5)|(_ & _ & _ & ?)]; [|discriminate].
    exists s', i, al'. split; [exact E|]. split; [exact I'|]. split; [exact G|]. split; [exact A|].
    split; [exact B|]. split; [exact D1|]. exists (scope_of v sc). rewrite D4. reflexivity.
Qed.

(** ** Memory-backed variables *)
Lemma map_ok s e b t p n c al own :
  INV s al own (fun _ => 0) [] [] -> thread_ok s e -> fresh s p -> b < 4 -> t < 32 -> 0 < n < 2 ^ 32 ->
  n <= N.of_nat (length c) -> (forall j, own j + 4 * sz s + 9 < 2 ^ 32) ->
  exists s1 s' i, mem_alloc s p c = Some s1 /\ mem_map s1 e b t p n true = Some (s', i) /\
    INV s' (fupd al i true) (plus1 own i) (fun _ => 0) [] [] /\ grows s al s' (fupd al i true) /\
    al i = false /\ i <> 0 /\ sz s' <= sz s + 1 /\ heap s' = (p, c) :: heap s /\
    (exists sc, V s' i = mkVar 1 0 sc [0; 0; 0; 0] p n (v_counter (V s i)) K_Evaluated b t false false false false false 0) /\
    (forall j, j <> i -> V s' j = V s j).
Proof.
  intros I T F Hb4 Ht Hn Hc Hb.
  destruct (mem_alloc_ok _ _ _ _ _ _ _ c I F) as (E1 & I1 & G1). exists (with_heap s ((p, c) :: heap s)).
  unfold mem_map. destruct (N.eqb_spec n 0); [lia|]. unfold var_new.
  destruct (thread_scope _ _ _ _ _ _ _ I1 T) as (sc & Es & Hsc). rewrite Es. cbn [bind].
  set (v := mkVar 0 0 0 [0; 0; 0; 0] p n 0 K_Evaluated b t false false (negb true) false false 0).
  destruct F as (F0 & F64 & Fn).
  destruct (var_new_ok (with_heap s ((p, c) :: heap s)) e sc v true al own (fun _ => 0) [p] [])
    as (s' & i & al' & E & I' & G & A & B & SZ & _ & D & _).
  - eapply INV_own; [| |exact I1]; intros j Hj; unfold cnt, cnt_se; cbn [v v_wptr v_dep]; rewrite ?occ_cons, ?occ_nil;
      destruct (N.eqb_spec j 0); (congruence || lia).
  - constructor; cbn; auto.
    + unfold wf, K_Evaluated; cbn; repeat split; auto; lia.
    + intros d [<-|[<-|[<-|[<-|[]]]]]; congruence.
    + discriminate.
  - reflexivity.
  - left. split; [reflexivity|]. split; [reflexivity|]. split; [easy|]. exists c. split; [now left|exact Hc].
  - intros j. change (sz (with_heap s ((p, c) :: heap s))) with (sz s). specialize (Hb j). lia.
  - destruct D as [(D1 & D2 & D3 & D4 & D5)|(_ & _ & ? & _)]; [|discriminate]. subst al'.
    exists s', i. split; [exact E1|]. split; [exact E|]. split; [exact I'|].
    split; [eapply grows_trans; [exact G1|exact G]|]. split; [exact D1|]. split; [exact B|].
    split; [exact SZ|]. split; [exact D3|]. split; [|exact D5].
    exists (scope_of v sc). rewrite D4. reflexivity.
Qed.

(** Memory behind an evaluated variable. *)
Lemma heap_of s al own ownse todo hx j :
  INV s al own ownse todo hx -> al j = true -> is_evaluated (V s j) = true ->
  exists c, find_heap (v_lit (V s j)) (heap s) = Some c /\ v_size (V s j) <= N.of_nat (length c).
Proof.
  intros I. pose proof (I_stat _ _ _ _ _ _ I) as S. destruct (s_rank _ _ _ _ _ _ _ S) as (rk & R).
  assert (G : forall m j, (N.to_nat (rk j) < m)%nat -> al j = true -> is_evaluated (V s j) = true ->
    exists c, find_heap (v_lit (V s j)) (heap s) = Some c /\ v_size (V s j) <= N.of_nat (length c)).
  { induction m as [|m IH]; intros k Hm Hk He; [lia|].
    destruct (v_retain (V s k)) eqn:Er.
    - destruct (s_ret _ _ _ _ _ _ _ S k Hk Er) as (_ & d & Hd & Hd0 & Hde & Hl & Hs).
      assert (In d (v_dep (V s k))) by (rewrite Hd; simpl; auto).
      assert (Had : al d = true) by (eapply (s_dep _ _ _ _ _ _ _ S); eauto).
      destruct (IH d) as (c & Hc & Hlen); auto.
      { specialize (R k d Hk H Hd0). lia. }
      exists c. rewrite <- Hl. split; [exact Hc|lia].
    - destruct (s_hown _ _ _ _ _ _ _ S k Hk He Er) as (_ & c & Hc & Hlen). exists c. split; [|exact Hlen].
      apply in_find_heap; auto. apply S. }
  intros Hj He. eapply G; eauto.
Qed.
