From Verif Require Import Base Axc_Model Axc_Spec.
Local Open Scope N_scope.
#[local] Ltac Zify.zify_post_hook ::= idtac.

(** ** The lane loop *)
Section Code.
Variable w : N.
Hypothesis Bw : w < 2 ^ 31.
Variable mask : N -> bool.
(** Lanes from [i] on *)
Fixpoint from (c : nat) (i : N) : list N := match c with O => [] | S c => i :: from c (i + 1) end.
Lemma from_lanes c : forall i, from c i = map N.of_nat (seq (N.to_nat i) c).
Proof using. clear. induction c as [|c IH]; intros i; cbn [from seq map]; [reflexivity|]. rewrite N2Nat.id. f_equal. rewrite IH. do 2 f_equal. lia. Qed.
Lemma in_from c : forall i k, In k (from c i) -> i <= k < i + N.of_nat c.
Proof using. clear. induction c as [|c IH]; intros i k H; [destruct H|]. destruct H as [->|H]; [lia|]. apply IH in H. lia. Qed.
Lemma loop_ok : forall c i ret ops out fuel, N.of_nat c + i = w -> (4 * c + 2 <= fuel)%nat ->
  exists out', crun1 w false mask fuel {| s_at := Cond; s_i := i; s_ret := ret; s_ops := ops; s_out := out |} = CDone (ops ++ filter mask (from c i)) out' /\
    (forall k, k < i -> out' k = out k) /\
    (forall k, i <= k -> k < w -> mask k = false -> out' k = None) /\
    map out' (filter mask (from c i)) = map Some (seq (length ops) (length (filter mask (from c i)))).
Proof.
  induction c as [|c IH]; intros i ret ops out fuel Bi Bf.
  - destruct fuel as [|[|fuel]]; try lia. assert (i = w) by lia. subst i. cbn [crun1 cstep1 s_at s_i]. unfold slt. rewrite (proj2 (N.ltb_lt _ _) Bw), N.ltb_irrefl.
    cbn [goto s_at s_i s_ops s_out s_ret crun1 cstep1]. exists out. cbn [from filter]. rewrite app_nil_r. split; [reflexivity|]. split; [reflexivity|]. split; [lia|reflexivity].
  - destruct fuel as [|[|[|[|fuel]]]]; try lia. cbn [crun1 cstep1 s_at s_i]. unfold slt. rewrite (proj2 (N.ltb_lt i (2 ^ 31))) by lia. rewrite (proj2 (N.ltb_lt i w)) by lia.
    cbn [goto s_at s_i s_ops s_out s_ret crun1 cstep1]. cbn [from filter].
    assert (Bi1 : u32 (i + 1) = i + 1) by (apply N.mod_small; change (2 ^ 31) with 2147483648 in *; change (2 ^ 32) with 4294967296; lia).
    destruct (mask i) eqn:Mi; cbn [goto s_at s_i s_ops s_out s_ret crun1 cstep1].
    + rewrite (proj2 (N.ltb_lt i w)) by lia. cbn [goto s_at s_i s_ops s_out s_ret crun1 cstep1]. rewrite Bi1.
      destruct (IH (i + 1) (Some (length ops)) (ops ++ [i]) (fun k => if k =? i then Some (length ops) else out k) fuel ltac:(lia) ltac:(lia)) as (out' & E & H1 & H2 & H3).
      exists out'. split; [rewrite E; now rewrite <- app_assoc|]. split; [|split].
      * intros k Hk. rewrite H1 by lia. destruct (N.eqb_spec k i); [lia|reflexivity].
      * intros k K1 K2 K3. apply H2; try assumption. assert (k <> i) by congruence. lia.
      * cbn [map length seq]. f_equal; [rewrite H1 by lia; now rewrite N.eqb_refl|]. rewrite H3, app_length. cbn [length]. do 2 f_equal. lia.
    + rewrite Bi1. destruct fuel as [|fuel]; [lia|].
      destruct (IH (i + 1) None ops (fun k => if k =? i then None else out k) (S (S fuel)) ltac:(lia) ltac:(lia)) as (out' & E & H1 & H2 & H3).
      exists out'. split; [exact E|]. split; [|split].
      * intros k Hk. rewrite H1 by lia. destruct (N.eqb_spec k i); [lia|reflexivity].
      * intros k K1 K2 K3. destruct (N.eq_dec k i) as [->|Ne]; [rewrite H1 by lia; now rewrite N.eqb_refl|apply H2; try assumption; lia].
      * exact H3.
Qed.
Theorem code_ok fuel : (4 * N.to_nat w + 3 <= fuel)%nat -> exists out,
  code w false mask fuel = CDone (filter mask (lanes w)) out /\ (forall k, k < w -> mask k = false -> out k = None) /\
  map out (filter mask (lanes w)) = map Some (seq 0 (length (filter mask (lanes w)))).
Proof.
  intros Bf. unfold code. destruct fuel as [|fuel]; [lia|]. cbn [crun1 cstep1 s_at s_ops goto s_i s_ret s_out].
  destruct (loop_ok (N.to_nat w) 0 None [] (fun _ => None) fuel ltac:(lia) ltac:(lia)) as (out & E & _ & H2 & H3). rewrite from_lanes in *. change (N.to_nat 0) with 0%nat in *. fold (lanes w) in *.
  exists out. split; [exact E|]. split; [intros k; apply H2; lia|exact H3].
Qed.
(** Without a mask the loop runs over the end *)
Lemma unmasked_loop : forall c i ret ops out fuel, N.of_nat c + i = w -> (3 * c + 2 <= fuel)%nat ->
  crun1 w true mask fuel {| s_at := Cond; s_i := i; s_ret := ret; s_ops := ops; s_out := out |} = CUndefined.
Proof.
  induction c as [|c IH]; intros i ret ops out fuel Bi Bf.
  - destruct fuel as [|[|fuel]]; try lia. assert (i = w) by lia. subst i. cbn [crun1 cstep1 s_at s_i goto]. now rewrite N.ltb_irrefl.
  - destruct fuel as [|[|[|fuel]]]; try lia. cbn [crun1 cstep1 s_at s_i goto s_ops s_out s_ret]. rewrite (proj2 (N.ltb_lt i w)) by lia. cbn [crun1 cstep1 s_at s_i goto s_ops s_out s_ret].
    assert (Bi1 : u32 (i + 1) = i + 1) by (apply N.mod_small; change (2 ^ 31) with 2147483648 in *; change (2 ^ 32) with 4294967296; lia). rewrite Bi1. apply IH; [lia|]. clear -Bf. lia.
Qed.
Theorem unmasked_bad fuel : (3 * N.to_nat w + 3 <= fuel)%nat -> code w true mask fuel = CUndefined.
Proof. intros Bf. unfold code. destruct fuel as [|fuel]; [lia|]. cbn [crun1 cstep1 s_at s_ops goto s_i s_ret s_out]. exact (unmasked_loop (N.to_nat w) 0 None [] (fun _ => None) fuel ltac:(lia) ltac:(lia)). Qed.
End Code.

(** ** Results of the lanes are those of the operations *)
Section Threads.
Variable w : N.
Hypothesis Bw : w < 2 ^ 31.
Variable fuel : nat.
Hypothesis Bf : (4 * N.to_nat w + 3 <= fuel)%nat.
Notation vec_asked v := (map (fun k => (v_addr v k, v_op v k)) (filter (v_mask v) (lanes w))).
Lemma vec_ok v : exists out, vec_ops w fuel v = Some (vec_asked v, out) /\ (forall k, k < w -> v_mask v k = false -> out k = None) /\
  forall d rest, map fst d = vec_asked v -> map (fun k => (v_addr v k, v_op v k, lane_old out (d ++ rest) k)) (filter (v_mask v) (lanes w)) = d.
Proof.
  destruct (code_ok w Bw (v_mask v) fuel Bf) as (out & E & H1 & H2). exists out. unfold vec_ops. rewrite E. split; [reflexivity|]. split; [exact H1|].
  generalize (filter (v_mask v) (lanes w)) as ks, H2. clear. intros ks H2 d rest.
  assert (G : forall ks pre d, map out ks = map Some (seq (length pre) (length ks)) -> map fst d = map (fun k => (v_addr v k, v_op v k)) ks ->
    map (fun k => (v_addr v k, v_op v k, lane_old out (pre ++ d ++ rest) k)) ks = d).
  { clear. induction ks as [|k ks IH]; intros pre d Ho Hd; destruct d as [|[[a o] x] d]; cbn [map length seq] in *; try discriminate; [reflexivity|].
    injection Ho as O1 O2. injection Hd as D1 D2 D3. subst a o. f_equal.
    - unfold lane_old. rewrite O1, nth_error_app2, Nat.sub_diag by lia. reflexivity.
    - specialize (IH (pre ++ [(v_addr v k, v_op v k, x)]) d). rewrite <- app_assoc in IH. apply IH; [|assumption]. rewrite app_length. cbn [length]. rewrite O2. f_equal. f_equal. lia. }
  intros Hd. apply (G ks [] d H2 Hd).
Qed.
Lemma thread_ok vs : thread_ops w fuel vs = Some (flat_map (fun v => vec_asked v) vs) /\
  forall d, map fst d = flat_map (fun v => vec_asked v) vs -> thread_results w fuel vs d = Some d.
Proof.
  induction vs as [|v vs [IH1 IH2]]; cbn [thread_ops thread_results flat_map]; [split; [reflexivity|]; intros [|x d]; [reflexivity|discriminate]|].
  destruct (vec_ok v) as (out & -> & _ & Hv). cbn [bind fst snd]. rewrite IH1. split; [reflexivity|]. intros d Hd.
  set (q := vec_asked v) in *. assert (Sp : exists d1 d2, d = d1 ++ d2 /\ map fst d1 = q /\ map fst d2 = flat_map (fun v => vec_asked v) vs).
  { exists (firstn (length q) d), (skipn (length q) d). split; [symmetry; apply firstn_skipn|]. rewrite <- firstn_map, <- skipn_map, Hd, firstn_app, skipn_app, Nat.sub_diag, firstn_all, skipn_all. cbn [firstn skipn]. rewrite app_nil_r. split; reflexivity. }
  destruct Sp as (d1 & d2 & -> & D1 & D2). rewrite <- D1, map_length, skipn_app, Nat.sub_diag, skipn_all. cbn [skipn app]. rewrite (IH2 d2 D2). cbn [bind]. do 2 f_equal. now apply Hv.
Qed.
Lemma all_ok work : all_ops w fuel work = Some (map (fun vs => flat_map (fun v => vec_asked v) vs) work) /\
  forall ts, map (fun t => map fst (at_done t)) ts = map (fun vs => flat_map (fun v => vec_asked v) vs) work -> all_results w fuel work ts = Some (flat_map at_done ts).
Proof.
  induction work as [|vs work [IH1 IH2]]; cbn [all_ops all_results map].
  { split; [reflexivity|]. intros [|t ts] H; [reflexivity|discriminate]. }
  destruct (thread_ok vs) as [T1 T2]. rewrite T1, IH1. split; [reflexivity|]. intros [|t ts] H; cbn [map] in H; [discriminate|]. injection H as H1 H2. rewrite (T2 _ H1). cbn [bind]. rewrite (IH2 _ H2). reflexivity.
Qed.
End Threads.

(** ** Interleavings *)
Lemma done_set : forall ts i t d x, nth_error ts i = Some t -> at_done d = at_done t ++ [x] -> Permutation (flat_map at_done (set_nth i d ts)) (flat_map at_done ts ++ [x]).
Proof.
  induction ts as [|y ts IH]; intros i t d x H E; destruct i as [|i]; try discriminate; cbn [set_nth flat_map].
  - injection H as ->. rewrite E, <- !app_assoc. apply Permutation_app_head. apply Permutation_app_comm.
  - rewrite <- app_assoc. apply Permutation_app_head. eapply IH; eassumption.
Qed.
Lemma filter_perm {A} (f : A -> bool) l l' : Permutation l l' -> Permutation (filter f l) (filter f l').
Proof.
  induction 1 as [|x l l' P IH|x y l|l1 l2 l3 P1 IH1 P2 IH2]; cbn [filter]; auto; [destruct (f x); auto|destruct (f x), (f y); auto using perm_swap|eauto using Permutation_trans].
Qed.
Record ainv (m0 : N -> N) (todos : list (list (N * aop))) (ts : list athread) (m : N -> N) : Prop := {
  ai_ops : map (fun t => map fst (at_done t) ++ at_todo t) ts = todos;
  ai_mem : forall a, Permutation (m a :: removed (at_addr a (flat_map at_done ts))) (m0 a :: inserted (at_addr a (flat_map at_done ts)));
  ai_old : forall a o x, In (a, o, x) (flat_map at_done ts) -> x = m0 a \/ In x (inserted (at_addr a (flat_map at_done ts)))
}.
Lemma map_set_nth {A B} (f : A -> B) : forall l i x y, nth_error l i = Some y -> f x = f y -> map f (set_nth i x l) = map f l.
Proof. induction l as [|z l IH]; intros [|i] x y H E; try discriminate; cbn [set_nth map]; [injection H as ->; now rewrite E|]. f_equal. eapply IH; eassumption. Qed.
Lemma perm_inserted a l l' : Permutation l l' -> Permutation (inserted (at_addr a l)) (inserted (at_addr a l')).
Proof. intros P. apply Permutation_map, filter_perm, filter_perm, P. Qed.
Lemma perm_removed a l l' : Permutation l l' -> Permutation (removed (at_addr a l)) (removed (at_addr a l')).
Proof. intros P. apply Permutation_map, filter_perm, filter_perm, P. Qed.
Lemma stores_success o old : stores o old = if success o old then Some (new_value o) else None.
Proof. destruct o as [v|c v]; cbn; [reflexivity|]. destruct (old =? c); reflexivity. Qed.
Lemma inserted_snoc a l b o x : inserted (at_addr a (l ++ [(b, o, x)])) = inserted (at_addr a l) ++ (if (b =? a) && success o x then [new_value o] else []).
Proof.
  unfold inserted, storing, at_addr. rewrite filter_app. cbn [filter fst snd]. destruct (b =? a); cbn [andb]; [|now rewrite !app_nil_r].
  rewrite filter_app, map_app. cbn [filter fst snd]. destruct (success o x); reflexivity.
Qed.
Lemma removed_snoc a l b o x : removed (at_addr a (l ++ [(b, o, x)])) = removed (at_addr a l) ++ (if (b =? a) && success o x then [x] else []).
Proof.
  unfold removed, storing, at_addr. rewrite filter_app. cbn [filter fst snd]. destruct (b =? a); cbn [andb]; [|now rewrite !app_nil_r].
  rewrite filter_app, map_app. cbn [filter fst snd]. destruct (success o x); reflexivity.
Qed.
Lemma astep_ok m0 todos ts m i t t' m' : ainv m0 todos ts m -> nth_error ts i = Some t -> astep t m = (t', m') -> ainv m0 todos (set_nth i t' ts) m'.
Proof.
  intros I Ht St. unfold astep in St. destruct (at_todo t) as [|[a o] rest] eqn:Td.
  { injection St as <- <-. replace (set_nth i t ts) with ts; [exact I|]. clear -Ht. revert i Ht. induction ts as [|x ts IH]; intros [|i] H; try discriminate; cbn [set_nth]; [now injection H as ->|]. f_equal. now apply IH. }
  injection St as <- <-. set (t1 := {| at_todo := rest; at_done := at_done t ++ [(a, o, m a)] |}).
  pose proof (done_set ts i t t1 (a, o, m a) Ht eq_refl) as P. set (D := flat_map at_done ts) in *. set (D' := flat_map at_done (set_nth i t1 ts)) in *.
  assert (Mb : forall b, match stores o (m a) with Some v => fun b => if b =? a then v else m b | None => m end b = if (a =? b) && success o (m a) then new_value o else m b).
  { intros b. rewrite stores_success, (N.eqb_sym a b). destruct (success o (m a)); [|now rewrite Bool.andb_false_r]. rewrite Bool.andb_true_r. reflexivity. }
  constructor.
  - rewrite <- (ai_ops _ _ _ _ I). apply (map_set_nth _ ts i t1 t Ht). cbn [t1 at_done at_todo]. rewrite Td, map_app, <- app_assoc. reflexivity.
  - intros b. fold D'. rewrite Mb. rewrite (perm_removed b _ _ P), (perm_inserted b _ _ P), removed_snoc, inserted_snoc. pose proof (ai_mem _ _ _ _ I b) as Q. fold D in Q.
    destruct ((a =? b) && success o (m a)) eqn:E; [|now rewrite !app_nil_r]. apply Bool.andb_true_iff in E as [E _]. apply N.eqb_eq in E. subst b.
    transitivity (new_value o :: m a :: removed (at_addr a D)); [apply perm_skip; rewrite Permutation_app_comm; reflexivity|].
    rewrite Q. transitivity ((m0 a :: inserted (at_addr a D)) ++ [new_value o]); [apply Permutation_cons_append|reflexivity].
  - intros b ob x H. fold D' in H |- *. apply (Permutation_in _ P) in H. assert (G : forall y, y = m0 b \/ In y (inserted (at_addr b D)) -> y = m0 b \/ In y (inserted (at_addr b D'))).
    { intros y [->|Hy]; [now left|right]. eapply Permutation_in; [apply Permutation_sym, perm_inserted, P|]. rewrite inserted_snoc. apply in_or_app. now left. }
    apply G. apply in_app_or in H as [H|[H|[]]]; [exact (ai_old _ _ _ _ I b ob x H)|]. injection H as <- _ <-.
    assert (Hm : In (m a) (m0 a :: inserted (at_addr a D))) by (eapply Permutation_in; [apply (ai_mem _ _ _ _ I a)|now left]). destruct Hm as [Hm|Hm]; [now left|now right].
Qed.
Lemma arun_ok m0 todos : forall sched ts m ts' m', ainv m0 todos ts m -> arun sched ts m = (ts', m') -> ainv m0 todos ts' m'.
Proof.
  induction sched as [|i sched IH]; intros ts m ts' m' I R; cbn [arun] in R; [injection R as <- <-; exact I|].
  destruct (nth_error ts i) as [t|] eqn:Ht; [|now apply (IH _ _ _ _ I)]. destruct (astep t m) as [t1 m1] eqn:St. eapply IH; [|exact R]. eapply astep_ok; eassumption.
Qed.
Theorem atomics_ok w fuel work todos sched m ts' m' : w < 2 ^ 31 -> (4 * N.to_nat w + 3 <= fuel)%nat ->
  all_ops w fuel work = Some todos -> arun sched (map astart todos) m = (ts', m') -> (forall t, In t ts' -> at_todo t = []) ->
  exists rs, all_results w fuel work ts' = Some rs /\ map fst rs = asked w work /\
    (forall a, Permutation (m' a :: removed (at_addr a rs)) (m a :: inserted (at_addr a rs))) /\
    (forall a o x, In (a, o, x) rs -> x = m a \/ In x (inserted (at_addr a rs))).
Proof.
  intros Bw Bf E R F. destruct (all_ok w Bw fuel Bf work) as [A1 A2]. rewrite A1 in E. injection E as E.
  assert (I0 : ainv m todos (map astart todos) m).
  { assert (Z : flat_map at_done (map astart todos) = []) by (clear; induction todos; [reflexivity|assumption]). constructor.
    - rewrite map_map. cbn [astart at_done at_todo map app]. apply map_id.
    - intros a. rewrite Z. reflexivity.
    - intros a o x H. rewrite Z in H. destruct H. }
  pose proof (arun_ok m todos sched _ _ _ _ I0 R) as I. assert (Dn : map (fun t => map fst (at_done t)) ts' = todos).
  { rewrite <- (ai_ops _ _ _ _ I). apply map_ext_in. intros t It. now rewrite (F t It), app_nil_r. }
  exists (flat_map at_done ts'). split; [apply A2; now rewrite E|]. split; [|split; apply I].
  transitivity (concat todos); [rewrite <- Dn, flat_map_concat_map, concat_map, map_map; reflexivity|]. rewrite <- E. unfold asked. now rewrite flat_map_concat_map.
Qed.
(** One of several compare-and-swap operations succeeds *)
Lemma count_const c : forall (l : list (N * aop * N)), (forall r, In r l -> snd r = c) -> count_occ N.eq_dec (map snd l) c = length l.
Proof. induction l as [|r l IH]; intros H; cbn [map count_occ length]; [reflexivity|]. rewrite (H r) by now left. destruct (N.eq_dec c c); [|congruence]. rewrite IH; [reflexivity|]. intros; apply H; now right. Qed.
Lemma one_winner (rs : list (N * aop * N)) a c m' : at_addr a rs <> [] ->
  (forall r, In r (at_addr a rs) -> exists v, snd (fst r) = ACas c v /\ v <> c) ->
  Permutation (m' :: removed (at_addr a rs)) (c :: inserted (at_addr a rs)) -> (forall o x, In (a, o, x) rs -> x = c \/ In x (inserted (at_addr a rs))) ->
  length (storing (at_addr a rs)) = 1%nat.
Proof.
  intros Ne Hc P Ho.
  assert (S1 : forall r, In r (storing (at_addr a rs)) -> snd r = c).
  { intros r H. apply filter_In in H as [H1 H2]. destruct (Hc r H1) as (v & E & _). rewrite E in H2. cbn [success] in H2. now apply N.eqb_eq. }
  assert (S2 : count_occ N.eq_dec (inserted (at_addr a rs)) c = 0%nat).
  { apply count_occ_not_In. intros H. apply in_map_iff in H as (r & Er & H). apply filter_In in H as [H1 _]. destruct (Hc r H1) as (v & E & Nv). rewrite E in Er. cbn in Er. congruence. }
  pose proof (proj1 (Permutation_count_occ N.eq_dec _ _) P c) as Q. cbn [count_occ] in Q. destruct (N.eq_dec c c); [|congruence]. rewrite S2 in Q.
  unfold removed in Q. rewrite (count_const c _ S1) in Q.
  destruct (length (storing (at_addr a rs))) as [|[|n]] eqn:L; [|reflexivity|destruct (N.eq_dec m' c); lia].
  exfalso. apply length_zero_iff_nil in L. destruct (at_addr a rs) as [|[[b o] x] l] eqn:El; [congruence|].
  assert (Hin : In (b, o, x) (at_addr a rs)) by (rewrite El; now left). apply filter_In in Hin as [Hin Hb]. cbn [fst] in Hb. apply N.eqb_eq in Hb. subst b.
  destruct (Hc (a, o, x) ltac:(now left)) as (v & Eo & _). cbn [fst snd] in Eo. subst o.
  destruct (Ho _ _ Hin) as [->|Hx]; [|unfold inserted in Hx; rewrite L in Hx; destruct Hx]. unfold storing in L. cbn [filter fst snd success] in L. rewrite N.eqb_refl in L. discriminate.
Qed.
Lemma at_addr_nonempty w work rs a : map fst rs = asked w work -> (exists o, In (a, o) (asked w work)) -> at_addr a rs <> [].
Proof.
  intros E [o H] Z. rewrite <- E in H. apply in_map_iff in H as ([[b p] x] & Ex & H). cbn in Ex. injection Ex as -> ->.
  assert (In (a, o, x) (at_addr a rs)) as Q by (apply filter_In; split; [assumption|apply N.eqb_refl]). rewrite Z in Q. destruct Q.
Qed.
