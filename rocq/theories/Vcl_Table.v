(** Table of callables and shared buffer. *)
From Verif Require Import Base Lay_Model Lay_Spec Lay_Proofs Lay_Scatter Lay_Inst Lay_Call Lay_Upload Lay_Read Vcl_Model Vcl_Spec Vcl_Gen Vcl_Lane Vcl_Vec Vcl_Calls.
Local Open Scope N_scope.

(** ** Keys *)
Lemma insert_in : forall k l x, In x (insert k l) <-> x = k \/ In x l.
Proof.
  induction l as [|a l IH]; intros x; cbn [insert]; [cbn; intuition|]. destruct (N.eqb_spec k a) as [->|]; [cbn [In]; intuition|].
  destruct (k <? a); cbn [In]; [intuition|]. rewrite IH. intuition.
Qed.
Lemma insert_length : forall k l, (length (insert k l) <= S (length l))%nat.
Proof. induction l as [|a l IH]; cbn [insert length]; [lia|]. destruct (k =? a); [cbn [length]; lia|]. destruct (k <? a); cbn [length]; lia. Qed.
Lemma indirect_in : forall g k, In k (indirect g) <-> exists f, In (false, k, f) g.
Proof.
  assert (G : forall g l k, In k (fold_left (fun (l : list N) (x : bool * N * fn) => if fst (fst x) then l else insert (snd (fst x)) l) g l) <-> In k l \/ exists f, In (false, k, f) g).
  { induction g as [|[[s k0] f0] g IH]; intros l k; cbn [fold_left fst snd]; [split; [auto|intros [H|(f & [])]; auto]|].
    rewrite IH. destruct s.
    - split; [intros [H|(f & H)]; [auto|right; exists f; right; auto]|intros [H|(f & [H|H])]; [auto|discriminate|eauto]].
    - rewrite insert_in. split.
      + intros [[->|H]|(f & H)]; [right; exists f0; left; reflexivity|auto|right; exists f; right; auto].
      + intros [H|(f & [H|H])]; [auto|injection H as -> ->; auto|eauto]. }
  intros g k. unfold indirect. rewrite G. cbn [In]. intuition.
Qed.
Lemma indirect_length : forall g, (length (indirect g) <= length g)%nat.
Proof.
  assert (G : forall g l, (length (fold_left (fun (l : list N) (x : bool * N * fn) => if fst (fst x) then l else insert (snd (fst x)) l) g l) <= length l + length g)%nat).
  { induction g as [|[[s k0] f0] g IH]; intros l; cbn [fold_left fst snd length]; [lia|]. destruct s; [specialize (IH l); lia|].
    specialize (IH (insert k0 l)). pose proof (insert_length k0 l). lia. }
  intros g. apply (G g []).
Qed.
Lemma position_nth : forall k l, In k l -> nth_error l (N.to_nat (position k l)) = Some k.
Proof.
  induction l as [|a l IH]; intros H; [destruct H|]. cbn [position]. destruct (N.eqb_spec k a) as [->|NE]; [reflexivity|].
  destruct H as [H|H]; [congruence|]. replace (N.to_nat (1 + position k l)) with (S (N.to_nat (position k l))) by lia. cbn [nth_error]. auto.
Qed.
Lemma position_le : forall k l, position k l <= N.of_nat (length l).
Proof. induction l as [|a l IH]; cbn [position length]; [lia|]. destruct (k =? a); lia. Qed.

Definition keys_ok (g : list (bool * N * fn)) : Prop := forall s k f f', In (s, k, f) g -> In (s, k, f') g -> f = f'.
Lemma defined_ok : forall g s k f, keys_ok g -> In (s, k, f) g -> defined g s k = Some f.
Proof.
  intros g s k f K I. unfold defined. destruct (find _ g) as [[[s' k'] f']|] eqn:E.
  - apply find_some in E. destruct E as [IF E]. cbn [fst snd] in E. apply andb_true_iff in E. destruct E as [E1 E2]. apply Bool.eqb_prop in E1. apply N.eqb_eq in E2. subst. cbn [option_map snd]. f_equal. eapply K; eauto.
  - apply (find_none _ _ E) in I. cbn [fst snd] in I. rewrite Bool.eqb_reflx, N.eqb_refl in I. discriminate.
Qed.
Lemma callable_ok : forall llvm g k f, keys_ok g -> In (false, k, f) g ->
  callable llvm g (callable_index llvm g k) = Some f /\ (llvm = true -> callable_index llvm g k <> 0) /\ callable_index llvm g k <= 1 + N.of_nat (length g).
Proof.
  intros llvm g k f K I. assert (IK : In k (indirect g)) by (apply indirect_in; eauto).
  pose proof (position_le k (indirect g)). pose proof (indirect_length g). unfold callable, callable_index. destruct llvm.
  - split; [|split; [intros _; lia|lia]]. destruct (N.eqb_spec (1 + position k (indirect g)) 0); [lia|]. cbn [bind].
    replace (1 + position k (indirect g) - 1) with (position k (indirect g)) by lia. rewrite (position_nth _ _ IK). cbn [bind]. apply defined_ok; auto.
  - split; [|split; [discriminate|lia]]. cbn [bind]. replace (0 + position k (indirect g)) with (position k (indirect g)) by lia. rewrite (position_nth _ _ IK). cbn [bind]. apply defined_ok; auto.
Qed.
Lemma index_bound : forall llvm g k, callable_index llvm g k <= 1 + N.of_nat (length g).
Proof. intros. pose proof (position_le k (indirect g)). pose proof (indirect_length g). unfold callable_index. destruct llvm; lia. Qed.

Section Keys.
Variable hash : fn -> N.
Variable merge : bool.
Lemma keyed_length : forall l count, length (keyed hash merge count l) = length l.
Proof. induction l as [|[s f] l IH]; intros count; cbn [keyed length]; [reflexivity|]. rewrite IH. reflexivity. Qed.
Lemma keyed_in : forall l count s k f, In (s, k, f) (keyed hash merge count l) -> In (s, f) l /\ (merge = true -> k = hash f).
Proof.
  induction l as [|[s0 f0] l IH]; intros count s k f H; cbn [keyed] in H; [destruct H|]. destruct H as [H|H].
  - injection H as <- <- <-. split; [left; reflexivity|]. intros ->. reflexivity.
  - apply IH in H. destruct H. split; [right; auto|auto].
Qed.
Lemma keyed_nth : forall l count n s f, nth_error l n = Some (s, f) -> exists k, nth_error (keyed hash merge count l) n = Some (s, k, f).
Proof.
  induction l as [|[s0 f0] l IH]; intros count n s f H; [destruct n; discriminate|]. cbn [keyed]. destruct n; cbn [nth_error] in *; [injection H as -> ->; eauto|eauto].
Qed.
Lemma keyed_off : merge = false -> forall l count, Forall (fun x : bool * fn => fst x = false) l ->
  Forall (fun x => count <= snd (fst x)) (keyed hash merge count l) /\ keys_ok (keyed hash merge count l).
Proof.
  intros M l. induction l as [|[s f] l IH]; intros count F; cbn [keyed]; [split; [constructor|intros s k f f' []]|]. apply Forall_cons_iff in F. destruct F as [H1 H2]. cbn [fst] in H1. subst s.
  destruct (IH (count + 1) H2) as [L K]. rewrite M in *. split.
  - constructor; [cbn [fst snd]; lia|]. eapply Forall_impl; [|exact L]. cbn beta. lia.
  - rewrite Forall_forall in L. intros s k g g' [I|I] [J|J]; [congruence| | |eapply K; eauto].
    + injection I as <- <- <-. apply L in J. cbn [fst snd] in J. lia.
    + injection J as <- <- <-. apply L in I. cbn [fst snd] in I. lia.
Qed.
Lemma functions_in : forall cs is s f, In (s, f) (functions cs is) -> In f (flat_map i_fns is) /\ exists c, In c cs /\ s = single c.
Proof.
  intros cs is s f H. unfold functions in H. apply in_flat_map in H. destruct H as ([c i] & IC & H). cbn [fst snd] in H. apply in_map_iff in H. destruct H as (f' & E & IF). injection E as <- <-.
  split; [apply in_flat_map; exists i; split; [eapply in_combine_r; eauto|exact IF]|exists c; split; [eapply in_combine_l; eauto|reflexivity]].
Qed.
Lemma functions_length : forall cs is, length cs = length is -> length (functions cs is) = length (flat_map i_fns is).
Proof.
  unfold functions. induction cs as [|c cs IH]; intros [|i is] L; try discriminate; [reflexivity|]. cbn [combine flat_map fst snd]. rewrite !app_length, map_length. injection L as L. rewrite (IH is L). reflexivity.
Qed.
Lemma keys_merge : forall cs is, merge = true -> hash_ok hash is -> keys_ok (keyed hash merge 0 (functions cs is)).
Proof.
  intros cs is M H s k f f' I J. apply keyed_in in I, J. destruct I as [I E1], J as [J E2]. apply functions_in in I, J. apply H; [apply I|apply J|]. rewrite <- E1, <- E2; auto.
Qed.
Lemma keys_nomerge : forall cs is, merge = false -> Forall (fun c => n_inst c <> 1%nat) cs -> keys_ok (keyed hash merge 0 (functions cs is)).
Proof.
  intros cs is M F. apply (keyed_off M). apply Forall_forall. intros [s f] I. apply functions_in in I. destruct I as (_ & c & IC & ->). cbn [fst].
  rewrite Forall_forall in F. unfold single. apply Nat.eqb_neq. auto.
Qed.

(** Keys per call *)
Lemma split_nth : forall (is : list info) (keys : list N) j i, nth_error is j = Some i ->
  nth_error (split_keys is keys) j = Some (firstn (length (i_fns i)) (skipn (length (flat_map i_fns (firstn j is))) keys)).
Proof.
  induction is as [|i0 is IH]; intros keys j i E; [destruct j; discriminate|]. destruct j; cbn [nth_error split_keys firstn flat_map] in *.
  - injection E as ->. reflexivity.
  - rewrite (IH _ _ _ E). rewrite app_length. f_equal. f_equal. clear. revert keys. generalize (length (i_fns i0)) as a. induction a; intros keys; cbn [skipn plus]; [reflexivity|]. destruct keys; [rewrite !skipn_nil; reflexivity|auto].
Qed.
Lemma split_length : forall is keys, length (split_keys is keys) = length is.
Proof. induction is; intros; cbn [split_keys length]; [reflexivity|]. rewrite IHis. reflexivity. Qed.
Lemma functions_nth : forall cs is j c i n f, length cs = length is -> nth_error cs j = Some c -> nth_error is j = Some i -> nth_error (i_fns i) n = Some f ->
  nth_error (functions cs is) (length (flat_map i_fns (firstn j is)) + n) = Some (single c, f).
Proof.
  unfold functions. induction cs as [|c0 cs IH]; intros [|i0 is] j c i n f L EC EI EF; try discriminate; [destruct j; discriminate|]. cbn [combine flat_map fst snd].
  destruct j; cbn [nth_error firstn flat_map length plus] in *.
  - injection EC as ->. injection EI as ->. rewrite nth_error_app1 by (rewrite map_length; apply nth_error_Some; rewrite EF; discriminate). rewrite nth_error_map, EF. reflexivity.
  - rewrite nth_error_app2 by (rewrite map_length, app_length; lia). rewrite map_length, app_length.
    replace (length (i_fns i0) + length (flat_map i_fns (firstn j is)) + n - length (i_fns i0))%nat with (length (flat_map i_fns (firstn j is)) + n)%nat by lia. apply (IH is j c i n f); auto.
Qed.
Lemma key_nth : forall cs is j c i n f, length cs = length is -> nth_error cs j = Some c -> nth_error is j = Some i -> nth_error (i_fns i) n = Some f ->
  exists ks k, nth_error (split_keys is (map (fun x => snd (fst x)) (keyed hash merge 0 (functions cs is)))) j = Some ks /\ length ks = length (i_fns i) /\
    nth_error ks n = Some k /\ In (single c, k, f) (keyed hash merge 0 (functions cs is)).
Proof.
  intros cs is j c i n f L EC EI EF. pose proof (functions_nth cs is j c i n f L EC EI EF) as FN.
  destruct (keyed_nth _ 0 _ _ _ FN) as [k EK]. set (g := keyed hash merge 0 (functions cs is)) in *.
  rewrite (split_nth _ _ _ _ EI). eexists. exists k. split; [reflexivity|].
  assert (NL : (n < length (i_fns i))%nat) by (apply nth_error_Some; rewrite EF; discriminate).
  assert (LG : length g = length (flat_map i_fns is)) by (unfold g; rewrite keyed_length, functions_length by auto; reflexivity).
  assert (SP : (length (flat_map i_fns is) >= length (flat_map i_fns (firstn j is)) + length (i_fns i))%nat).
  { clear - EI. revert j EI. induction is as [|i0 is IH]; intros j EI; [destruct j; discriminate|]. destruct j; cbn [nth_error firstn flat_map] in *.
    - injection EI as ->. rewrite app_length. cbn [length]. lia.
    - rewrite !app_length. specialize (IH j EI). lia. }
  split; [rewrite firstn_length, skipn_length, map_length; lia|]. split; [|eapply nth_error_In; exact EK].
  assert (FS : forall A (l : list A) a b, (b < a)%nat -> nth_error (firstn a l) b = nth_error l b).
  { clear. intros A l a. revert l. induction a; intros l b H; [lia|]. destruct l; [destruct b; reflexivity|]. destruct b; cbn [firstn nth_error]; [reflexivity|]. apply IHa. lia. }
  rewrite FS by exact NL. rewrite nth_error_skip. rewrite nth_error_map, EK. reflexivity.
Qed.
End Keys.

(** ** Buffer *)
Lemma assemble_items : forall items fo fd, map (fun x => fst (fst x)) (fst (fst (assemble items fo fd))) = items.
Proof.
  induction items as [|it items IH]; intros fo fd; cbn [assemble]; [reflexivity|].
  match goal with |- context [assemble items ?a ?b] => specialize (IH a b); destruct (assemble items a b) as [[xs a'] b'] end. cbn [fst map] in *. rewrite IH. reflexivity.
Qed.
Lemma nth_combine : forall A B (l : list A) (r : list B) n a b, nth_error l n = Some a -> nth_error r n = Some b -> nth_error (combine l r) n = Some (a, b).
Proof. induction l as [|x l IH]; intros [|y r] n a b E1 E2; destruct n; try discriminate; cbn [nth_error combine] in *; [congruence|auto]. Qed.

Section Table.
Variable llvm : bool.
Variables (alignment cap : N).
Variable bk : N -> N.
Variable data : N -> list N.
Variable cs : list vcall.
Variable is : list info.
Variable hash : fn -> N.
Variable merge : bool.
Variable mem0 : N -> N.
Hypothesis SZ : sizes_ok llvm alignment cap bk data cs is.
Hypothesis BUILD : build llvm alignment cap bk 0 cs = Some is.
Hypothesis WF : calls_wf cs.
Let g := keyed hash merge 0 (functions cs is).
Hypothesis KEYS : keys_ok g.
Let ks := split_keys is (map (fun x => snd (fst x)) g).
Let items := items_of llvm is ks g.
Let xs := fst (fst (assemble items 0 0)).
Let x := assembled llvm alignment hash merge data cs is mem0.
Let m := x_mem x.
Definition obs (j : nat) : N := match nth_error xs j with Some e => snd (fst e) | None => 0 end.

Lemma t_len : length is = length cs.
Proof. destruct SZ as (_ & D & _). destruct (build_inv llvm alignment cap bk data D cs 0 is BUILD) as [H _]. exact H. Qed.
Lemma t_info : forall j c i, nth_error cs j = Some c -> nth_error is j = Some i -> call_info llvm alignment cap bk (skipn (S j) is) j c i.
Proof. intros j c i EC EI. destruct SZ as (_ & D & _). destruct (build_inv llvm alignment cap bk data D cs 0 is BUILD) as [_ H]. destruct (H j c EC) as (i' & E & G). rewrite E in EI. injection EI as <-. exact G. Qed.
Lemma t_glen : length g = length (flat_map i_fns is).
Proof. unfold g. rewrite keyed_length, functions_length; [reflexivity|]. symmetry. exact t_len. Qed.
Lemma t_keys : forall j c i, nth_error cs j = Some c -> nth_error is j = Some i -> exists kl, nth_error ks j = Some kl /\ length kl = length (i_fns i) /\
  forall n f, nth_error (i_fns i) n = Some f -> exists k, nth_error kl n = Some k /\ In (single c, k, f) g.
Proof.
  intros j c i EC EI. pose proof (t_info j c i EC EI) as G. destruct (WF j c EC) as (LO & NE & _).
  assert (L0 : (0 < length (i_fns i))%nat). { rewrite (g_len _ _ _ _ _ _ _ _ G), LO. destruct (k_ids c); [contradiction NE; reflexivity|cbn [length]; lia]. }
  destruct (nth_error (i_fns i) 0) as [f0|] eqn:E0; [|apply nth_error_None in E0; lia].
  destruct (key_nth hash merge cs is j c i 0 f0 (eq_sym t_len) EC EI E0) as (kl & k0 & EK & LK & _). fold g in EK. fold ks in EK.
  exists kl. split; [exact EK|]. split; [exact LK|]. intros n f EF.
  destruct (key_nth hash merge cs is j c i n f (eq_sym t_len) EC EI EF) as (kl' & k & EK' & _ & NK & IK). fold g in EK', IK. fold ks in EK'. rewrite EK in EK'. injection EK' as <-. eauto.
Qed.
Lemma t_item : forall j c i kl, nth_error cs j = Some c -> nth_error is j = Some i -> nth_error ks j = Some kl ->
  exists db, nth_error xs j = Some (ICall (i_lay i) (map (callable_index llvm g) kl), obs j, db).
Proof.
  intros j c i kl EC EI EK.
  assert (E : nth_error items j = Some (ICall (i_lay i) (map (callable_index llvm g) kl))).
  { unfold items, items_of. rewrite nth_error_map, (nth_combine _ _ _ _ _ _ _ EI EK). reflexivity. }
  pose proof (assemble_items items 0 0) as A. fold xs in A.
  rewrite <- A in E. rewrite nth_error_map in E. destruct (nth_error xs j) as [[[it o] db]|] eqn:EX; [|discriminate]. cbn [option_map fst] in E. injection E as ->.
  exists db. unfold obs. rewrite EX. reflexivity.
Qed.
Lemma sum_app : forall f l, sum_of f l = fold_right (fun it n => f it + n) 0 l.
Proof. reflexivity. Qed.
Lemma t_kernel : kernel_ok data llvm alignment cap items.
Proof.
  destruct SZ as (BK & D & CO & NF & SUM). split; [exact BK|]. split.
  - apply Forall_forall. intros it II. apply In_nth_error in II. destruct II as [j E]. unfold items, items_of in E. rewrite nth_error_map in E.
    destruct (nth_error (combine is ks) j) as [[i kl]|] eqn:EC2; [|discriminate]. cbn [option_map fst snd] in E. injection E as <-.
    assert (X : nth_error is j = Some i /\ nth_error ks j = Some kl).
    { revert EC2. clear. revert j. generalize ks as r. generalize is as l. induction l as [|a l IH]; intros r j E; [destruct j; discriminate|]. destruct r as [|b r]; [destruct j; discriminate|].
      destruct j; cbn [combine nth_error] in *; [injection E as -> ->; auto|auto]. }
    destruct X as [EI EK]. destruct (nth_error cs j) as [c|] eqn:EC; [|apply nth_error_None in EC; pose proof t_len; assert (j < length is)%nat by (apply nth_error_Some; rewrite EI; discriminate); lia].
    destruct (t_keys j c i EC EI) as (kl' & EK' & LK & _). rewrite EK in EK'. injection EK' as <-.
    pose proof (t_info j c i EC EI) as G. destruct (WF j c EC) as (LO & NE & ND & IDS & _).
    cbn [item_ok]. exists (caps_of bk c), (k_ids c). split; [apply (g_lay _ _ _ _ _ _ _ _ G)|].
    split; [eapply caps_buckets; exact D|]. split; [rewrite Forall_forall in CO; apply CO; eapply nth_error_In; eauto|].
    unfold caps_of at 1 2. rewrite !map_length. split; [congruence|]. split; [rewrite LK; apply (g_len _ _ _ _ _ _ _ _ G)|]. split; [exact ND|].
    split; [eapply Forall_impl; [|exact IDS]; cbn beta; lia|]. split.
    + apply Forall_forall. intros k IK. apply in_map_iff in IK. destruct IK as (k0 & <- & _). pose proof (index_bound llvm g k0). rewrite t_glen in H. lia.
    + apply Forall_forall. intros [v b] IV. apply in_concat in IV. destruct IV as (ss & I1 & I2). unfold caps_of in I1. apply in_map_iff in I1. destruct I1 as (os & <- & _).
      apply in_map_iff in I2. destruct I2 as (v' & E & _). injection E as -> <-. apply D.
  - assert (S2 : sum_of header_bytes items + sum_of data_bytes items = fold_right (fun i n => c_offset_count (i_lay i) * 8 + c_data_size (i_lay i) + n) 0 is).
    { unfold items, items_of. assert (LK : length ks = length is) by (unfold ks; apply split_length). revert LK. clear. generalize ks as r. generalize is as l.
      induction l as [|i l IH]; intros r L; destruct r as [|k r]; try discriminate; [reflexivity|]. cbn [combine map sum_of fold_right fst snd header_bytes data_bytes]. injection L as L. specialize (IH r L). unfold sum_of in IH. lia. }
    lia.
Qed.
Lemma t_mem : m = aggregate mem0 (fst (upload data alignment items)).
Proof. reflexivity. Qed.
Lemma lay_ids : forall insts ids, c_inst_id (layout_call llvm alignment cap insts ids) = ids.
Proof. intros. unfold layout_call. destruct (layout_from _ _ _ _ _ _) as [[? ?] ?]. reflexivity. Qed.
Lemma t_lays : forall c, In c cs -> length (c_layouts (lay_of llvm alignment cap bk c)) = length (k_outs c).
Proof.
  intros c IC. destruct SZ as (BK & D & CO & _). rewrite Forall_forall in CO. destruct (layout_call_ok llvm alignment cap BK (caps_of bk c) (k_ids c) (caps_buckets bk data D c) (CO c IC)) as (hi & IN & _).
  apply instances_length in IN. unfold lay_of. rewrite IN. unfold caps_of. apply map_length.
Qed.
Lemma t_read : forall j c i n id f, nth_error cs j = Some c -> nth_error is j = Some i -> nth_error (k_ids c) n = Some id -> nth_error (i_fns i) n = Some f ->
  exists k l, In (single c, k, f) g /\ nth_error (c_layouts (lay_of llvm alignment cap bk c)) n = Some l /\
    value m (obs j + 8 * id) 4 = callable_index llvm g k /\
    forall q r o b, l_start l <= N.of_nat q < l_start l + l_count l -> nth_error (c_slots (lay_of llvm alignment cap bk c)) q = Some (r, o, b) ->
      read m (value m (obs j + 8 * id + 4) 4 + (o - l_offset l)) (length (data r)) = data r.
Proof.
  intros j c i n id f EC EI EN EF. destruct (t_keys j c i EC EI) as (kl & EK & LK & NK). destruct (NK n f EF) as (k & KN & IK).
  destruct (t_item j c i kl EC EI EK) as (db & EX). pose proof (t_info j c i EC EI) as G.
  assert (EL : exists l, nth_error (c_layouts (lay_of llvm alignment cap bk c)) n = Some l).
  { destruct (nth_error (c_layouts (lay_of llvm alignment cap bk c)) n) as [l|] eqn:E; [eauto|]. apply nth_error_None in E. rewrite t_lays in E by (eapply nth_error_In; eauto).
    destruct (WF j c EC) as (LO & _). assert (n < length (k_ids c))%nat by (apply nth_error_Some; rewrite EN; discriminate). lia. }
  destruct EL as [l EL]. exists k, l. split; [exact IK|]. split; [exact EL|]. rewrite (g_lay _ _ _ _ _ _ _ _ G) in EX.
  destruct (upload data alignment items) as [es total] eqn:EU.
  pose proof (call_readback data llvm alignment cap items t_kernel es total es mem0 _ _ _ _ EU (Permutation_refl _) (nth_error_In _ _ EX) n id l (callable_index llvm g k)) as RB.
  assert (MM : m = aggregate mem0 es) by (rewrite t_mem, EU; reflexivity). rewrite <- MM in RB. apply RB.
  - unfold lay_of. rewrite lay_ids. exact EN.
  - exact EL.
  - rewrite nth_error_map, KN. reflexivity.
Qed.
Lemma tab_slot : forall j c n id v r sz, nth_error cs j = Some c -> nth_error (k_ids c) n = Some id ->
  slot_of (lay_of llvm alignment cap bk c) n v = Some (r, sz) -> value m (value m (obs j + 8 * id + 4) 4 + r) sz = number (data v).
Proof.
  intros j c n id v r sz EC EN ES. pose proof SZ as (BK & D & CO & _).
  destruct (slot_of_ok llvm alignment cap bk data cs BK D CO c n v r sz (nth_error_In _ _ EC) ES) as (l & q & o & EL & R & EQ & -> & ->).
  destruct (nth_error is j) as [i|] eqn:EI; [|apply nth_error_None in EI; rewrite t_len in EI; assert (j < length cs)%nat by (apply nth_error_Some; rewrite EC; discriminate); lia].
  pose proof (t_info j c i EC EI) as G. destruct (WF j c EC) as (LO & _).
  destruct (nth_error (i_fns i) n) as [f|] eqn:EF.
  2:{ apply nth_error_None in EF. rewrite (g_len _ _ _ _ _ _ _ _ G), LO in EF. assert (n < length (k_ids c))%nat by (apply nth_error_Some; rewrite EN; discriminate). lia. }
  destruct (t_read j c i n id f EC EI EN EF) as (k & l' & _ & EL' & _ & RD). rewrite EL in EL'. injection EL' as <-.
  unfold value at 1. rewrite (RD q v o (bk v) R EQ). reflexivity.
Qed.
Lemma t_tab : forall j c i, nth_error cs j = Some c -> nth_error is j = Some i ->
  exists keys has, nth_error (x_calls x) j = Some (single c, keys, obs j) /\ nth_error (x_has x) j = Some has /\
    (c_slots (i_lay i) <> [] -> has = true) /\
    if single c then exists key f, nth_error keys 0 = Some key /\ nth_error (i_fns i) 0 = Some f /\ defined (x_globals x) true key = Some f
    else forall n id f, nth_error (k_ids c) n = Some id -> nth_error (i_fns i) n = Some f ->
      callable llvm (x_globals x) (value m (obs j + 8 * id) 4) = Some f /\ (llvm = true -> value m (obs j + 8 * id) 4 <> 0).
Proof.
  intros j c i EC EI. destruct (t_keys j c i EC EI) as (kl & EK & LK & NK). destruct (t_item j c i kl EC EI EK) as (db & EX).
  exists kl. eexists. split; [|split; [|split]].
  - unfold x, assembled. cbn [x_calls]. fold g. fold ks. fold items. fold xs. rewrite nth_error_map.
    rewrite (nth_combine _ _ (combine cs ks) xs j (c, kl) _ (nth_combine _ _ _ _ _ _ _ EC EK) EX). reflexivity.
  - unfold x, assembled. cbn [x_has]. rewrite nth_error_map, EI. reflexivity.
  - cbn beta. destruct (c_slots (i_lay i)); [intros H; contradiction H; reflexivity|reflexivity].
  - replace (x_globals x) with g by reflexivity. destruct (single c) eqn:ES.
    + destruct (WF j c EC) as (LO & _). pose proof (t_info j c i EC EI) as G. unfold single, n_inst in ES. apply Nat.eqb_eq in ES.
      destruct (nth_error (i_fns i) 0) as [f|] eqn:E0; [|apply nth_error_None in E0; rewrite (g_len _ _ _ _ _ _ _ _ G), LO in E0; lia].
      destruct (NK O f E0) as (k & K0 & IK). exists k, f. split; [exact K0|]. split; [reflexivity|]. apply defined_ok; auto.
    + intros n id f EN EF. destruct (t_read j c i n id f EC EI EN EF) as (k & l & IK & _ & EV & _). rewrite EV. rewrite ES in IK. destruct (callable_ok llvm g k f KEYS IK) as (A & B & _). auto.
Qed.
End Table.

(** ** Kernel *)
Lemma live_ret cs is t : live_ok cs is t -> forall t', (t' = t \/ (exists i f, In i is /\ In f (i_fns i) /\ In (Some t') f)) ->
  forall j o c, In (j, o) (refers t') -> nth_error cs j = Some c -> is_ret c o = true.
Proof.
  intros L t' H j o c I E. unfold is_ret. destruct (k_opt c) eqn:EO; [|apply orb_true_r]. rewrite (L t' H j o c I E EO). reflexivity.
Qed.
Theorem execute_ok : forall llvm alignment cap bk data opsem cs is hash merge mem0 lanes vars active e t fuel,
  build llvm alignment cap bk 0 cs = Some is -> gen is 0 (fun c => Some (TVar c)) e = Some t ->
  calls_wf cs -> wf cs 0 0 e -> sizes_ok llvm alignment cap bk data cs is -> live_ok cs is t ->
  keys_ok (keyed hash merge 0 (functions cs is)) -> (llvm = false -> exists l, lanes = [l]) ->
  (forall l, In l lanes -> active l = true -> exists y,
     val opsem (callee opsem cs (fun v => number (data v)) fuel) {| a_in := fun _ => None; a_self := 0; a_var := fun v => vars v l |} e = Some y) ->
  exists f, execute llvm alignment cap bk hash merge data opsem lanes cs mem0 vars active e = Some f /\
    forall l, In l lanes -> active l = true ->
      val opsem (callee opsem cs (fun v => number (data v)) fuel) {| a_in := fun _ => None; a_self := 0; a_var := fun v => vars v l |} e = Some (f l).
Proof.
  intros llvm alignment cap bk data opsem cs is hash merge mem0 lanes vars active e t fuel BUILD GEN WF WE SZ LIVE KEYS LANES V.
  pose proof SZ as (BK & D & CO & _).
  unfold execute. rewrite BUILD. cbn [bind]. rewrite GEN. cbn [bind].
  set (x := assembled llvm alignment hash merge data cs is mem0).
  set (ob := obs llvm cs is hash merge).
  assert (RET : forall i f t, In i is -> In f (i_fns i) -> In (Some t) f -> forall j o c, In (j, o) (refers t) -> nth_error cs j = Some c -> is_ret c o = true).
  { intros i f t' II IF IT. apply (live_ret cs is t LIVE). right. exists i, f. auto. }
  assert (SLOT := tab_slot llvm alignment cap bk data cs is hash merge mem0 SZ BUILD WF).
  assert (TAB := t_tab llvm alignment cap bk data cs is hash merge mem0 SZ BUILD WF KEYS). fold x in SLOT, TAB. fold ob in SLOT, TAB.
  set (tc := fun l : nat => {| t_in := fun _ => None; t_self := 0; t_var := fun v => vars v l; t_slot := fun _ _ => 0 |}).
  assert (INS : forall k, ~ In k (ins t)).
  { intros k IK. assert (k < 0)%nat by (eapply (ins_wf cs); [|exact GEN|exact WE|exact IK]; intros v t' E; injection E as <-; reflexivity). lia. }
  assert (LANE : forall l y, val opsem (callee opsem cs (fun v => number (data v)) fuel) {| a_in := fun _ => None; a_self := 0; a_var := fun v => vars v l |} e = Some y ->
            tval opsem (tcall opsem cs is (x_mem x) ob fuel) (tc l) t = Some y).
  { intros l y H. eapply (tval_ok opsem cs is) with (nin := O) (base := O) (e := e); [| | | | |exact GEN|exact WE| | |exact H].
    - intros j c i EC EI. eapply g_lost. eapply (t_info llvm alignment cap bk data cs is SZ BUILD); eauto.
    - eapply (tcall_ok llvm alignment cap bk data opsem cs is (x_mem x) ob); eauto.
    - intros j i _ E. rewrite Nat.sub_0_r in E. exact E.
    - intros v t' E. injection E as <-. reflexivity.
    - reflexivity.
    - intros k IK. contradiction (INS k IK).
    - apply (live_ret cs is t LIVE). auto. }
  destruct (tev_ok opsem cs is (x_mem x) lanes (tcall opsem cs is (x_mem x) ob fuel) (docall llvm opsem lanes (S (length cs)) x) 0
      {| v_in := fun _ => None; v_var := vars; v_self := fun _ => 0; v_off := fun _ => 0; v_mask := active |} tc) with (t := t) as (f & EF & FF); cbn [v_in v_var v_self v_off v_mask].
  - intros j o mask self vs c i B. eapply (docall_ok llvm alignment cap bk data opsem cs is (x_mem x) ob BK D CO BUILD WF RET); auto; [lia].
  - intros l I A. split; reflexivity.
  - eapply (okt_gen cs is is); [| | |exact GEN|exact WE].
    + intros j c i EC EI. eapply g_lost. eapply (t_info llvm alignment cap bk data cs is SZ BUILD); eauto.
    + intros j i _ E. rewrite Nat.sub_0_r in E. exact E.
    + intros v t' E. injection E as <-. exact I.
  - intros k IK. contradiction (INS k IK).
  - intros r s l IS. exfalso. assert (NS : slots t = []).
    { clear - GEN. revert t GEN. induction e using expr_ind'; intros t G; cbn [gen] in G; try (injection G as <-; reflexivity).
      - destruct (all (map _ es)) as [ts|] eqn:EG; cbn [bind] in G; [|discriminate]. injection G as <-. cbn [slots]. apply all_inv in EG.
        destruct (flat_map slots ts) as [|q r] eqn:EF; [reflexivity|]. assert (IX : In q (flat_map slots ts)) by (rewrite EF; left; reflexivity).
        apply in_flat_map in IX. destruct IX as (t & IT & IX). assert (X : In (Some t) (map (gen is 0 (fun c => Some (TVar c))) es)) by (rewrite EG; apply in_map; exact IT).
        apply in_map_iff in X. destruct X as (e & E & IE). rewrite Forall_forall in H. rewrite (H e IE t E) in IX. destruct IX.
      - destruct (gen is 0 _ e1) as [s'|] eqn:E1; cbn [bind] in G; [|discriminate]. destruct (gen is 0 _ e2) as [m'|] eqn:E2; cbn [bind] in G; [|discriminate]. injection G as <-.
        cbn [slots]. rewrite (IHe1 s' eq_refl), (IHe2 m' eq_refl). reflexivity.
      - destruct (Nat.ltb j 0); [discriminate|].
        destruct (nth_error is (j - 0)) as [i|] eqn:EI; cbn [bind] in G; [|discriminate].
        destruct (gen is 0 _ e1) as [s'|] eqn:E1; cbn [bind] in G; [|discriminate]. destruct (gen is 0 _ e2) as [m'|] eqn:E2; cbn [bind] in G; [|discriminate].
        destruct (pass i 0 _) as [ts|] eqn:EP; cbn [bind] in G; [|discriminate]. injection G as <-. cbn [slots]. rewrite (IHe1 s' eq_refl), (IHe2 m' eq_refl). cbn [app].
        destruct (flat_map _ ts) as [|q r] eqn:EF; [reflexivity|]. assert (IX : In q (flat_map (fun t => match t with Some t => slots t | None => [] end) ts)) by (rewrite EF; left; reflexivity).
        apply in_flat_map in IX. destruct IX as ([t|] & IT & IX); [|destruct IX]. apply pass_inv in EP. destruct EP as [LT NT]. rewrite map_length in LT. apply In_nth_error in IT. destruct IT as [n EN].
        destruct (nth_error args n) as [a|] eqn:EA; [|apply nth_error_None in EA; assert (n < length ts)%nat by (apply nth_error_Some; rewrite EN; discriminate); lia].
        specialize (NT n (fst a) (gen is 0 (fun c => Some (TVar c)) (snd a))). rewrite nth_error_map, EA in NT. specialize (NT eq_refl).
        destruct (_ && _); [|congruence]. destruct NT as (t' & T1 & T2). rewrite T2 in EN. injection EN as ->.
        rewrite Forall_forall in H. rewrite (H a (nth_error_In _ _ EA) t T1) in IX. destruct IX. }
    rewrite NS in IS. destruct IS.
  - apply (live_ret cs is t LIVE). auto.
  - intros l I A. destruct (V l I A) as [y EY]. exists y. apply LANE. exact EY.
  - exists f. split; [exact EF|]. intros l I A. destruct (V l I A) as [y EY]. rewrite EY. pose proof (LANE l y EY) as E1. rewrite (FF l I A) in E1. symmetry. exact E1.
Qed.
