(** C21: bucket permutation. *)
From Verif Require Import Base Arith_Model Par_Model Par_Proofs Red_Model Red_Plan
  Mkperm_Model Mkperm_Spec Mkperm_Sort Mkperm_Proofs Mkperm_Run.
Local Open Scope N_scope.

(** Groups of [bs] elements, [B] buckets; restricted to the case that every group has
    the full size or is handled by one task (see the refutation below). *)
Theorem C21_mkperm_partial :
  forall workers ideal fresh (xs : list N) bs B src perm offsets uc m,
  1 <= workers <= 2 ^ 28 -> 16 <= ideal <= 2 ^ 31 ->
  0 < bs < 2 ^ 31 -> 0 < N.of_nat (length xs) ->
  N.of_nat (length xs) + N.max ideal bs < 2 ^ 32 ->
  0 < B < 2 ^ 32 -> Forall (fun x => x < B) xs ->
  workers = 1 \/ bs <= ideal \/ N.of_nat (length xs) mod bs = 0 ->
  src < fresh -> perm < fresh -> uc < fresh ->
  (forall o, offsets = Some o -> o < fresh /\ o <> src /\ o <> perm /\ o <> uc /\ 4 * B < 2 ^ 32) ->
  src <> perm -> src <> uc -> perm <> uc ->
  fresh_from m fresh -> holds m src xs ->
  (forall i, i < N.of_nat (length xs) -> m (perm, i) <> None) ->
  m (uc, 0) <> None ->
  (forall o k, offsets = Some o ->
     k < N.of_nat (length (bucket_table xs B 0 (N.of_nat (length xs)))) -> m (o, k) <> None) ->
  exists cs,
    block_mkperm workers ideal fresh (N.of_nat (length xs)) bs B src perm offsets uc = Cmds cs /\
    ensures cs (permuted_to xs bs B perm offsets uc m) m.
Proof.
  intros workers ideal fresh xs bs B src perm offsets uc m Hw Hi Hbs Hs Hsz HB HV HR.
  intros. unfold block_mkperm.
  destruct (N.eqb_spec (N.of_nat (length xs)) 0); [lia|].
  destruct (N.eqb_spec B 0); [lia|].
  destruct (mk_plan_ok workers ideal xs bs B) as (nb & tpg & task & -> & OK); auto; try lia.
  eexists. split; [reflexivity|]. apply mk_cmds_ok; auto.
Qed.

(** What the reference list is: a permutation of the group's indices, ordered by
    bucket and, within a bucket, by index. *)
Theorem C21_bucket_sorted_spec :
  forall xs B s e, (forall i, s <= i < e -> nth (N.to_nat i) xs 0 < B) ->
  Permutation (bucket_sorted xs B s e) (range_lt s e) /\
  StronglySorted (fun i j => let k i := nth (N.to_nat i) xs 0 in k i < k j \/ k i = k j /\ i < j)
    (bucket_sorted xs B s e).
Proof.
  intros xs B s e H. split; [apply (group_perm (fun i => nth (N.to_nat i) xs 0)); auto|].
  change (bucket_sorted xs B s e)
    with (sorted (fun i => nth (N.to_nat i) xs 0) B (range_lt s e)).
  set (f := fun i => nth (N.to_nat i) xs 0). cbv zeta. clear H.
  assert (App : forall (R : N -> N -> Prop) l1 l2, StronglySorted R l1 -> StronglySorted R l2 ->
            (forall x y, In x l1 -> In y l2 -> R x y) -> StronglySorted R (l1 ++ l2)).
  { intros R l1 l2 S1 S2 X. induction S1 as [|a l1 S1 IH F1]; cbn; auto. constructor.
    - apply IH. intros; apply X; auto. right; auto.
    - apply Forall_app. split; auto. apply Forall_forall. intros; apply X; auto. left; auto. }
  assert (Filt : forall b, StronglySorted (fun i j => f i < f j \/ f i = f j /\ i < j)
            (filter (fun i => f i =? b) (range_lt s e))).
  { intros b. unfold range_lt. generalize (N.to_nat (e - s)) as n, 0%nat as a. induction n as [|n IH]; intros a.
    - constructor.
    - cbn [seq map filter]. destruct (N.eqb_spec (f (s + N.of_nat a)) b) as [E|E]; auto.
      constructor; auto. apply Forall_forall. intros j Hj. apply filter_In in Hj.
      destruct Hj as [Hj Ej]. apply N.eqb_eq in Ej. apply in_map_iff in Hj.
      destruct Hj as (t & <- & Ht). apply in_seq in Ht. right. split; [congruence|lia]. }
  induction B as [|b IH] using N.peano_ind.
  - constructor.
  - rewrite <- N.add_1_r, sorted_succ. apply App; auto.
    intros x y Hx Hy. apply filter_In in Hy. destruct Hy as [_ Ey]. apply N.eqb_eq in Ey.
    apply (Permutation_in _ (sorted_perm f b _)) in Hx. apply filter_In in Hx.
    destruct Hx as [_ Ex]. apply N.ltb_lt in Ex. left. rewrite Ey. exact Ex.
Qed.

Lemma range_ne_cons s e : s < 2 ^ 32 -> e < s -> exists r, range_ne s e = s :: r.
Proof.
  intros H1 H2. unfold range_ne. assert (E : exists k, sub32 e s = N.succ k).
  { exists (N.pred (sub32 e s)). rewrite N.succ_pred; auto.
    unfold sub32. rewrite u32_small; lia. }
  destruct E as [k ->]. rewrite N2Nat.inj_succ. cbn [seq map]. eexists. f_equal.
  rewrite N.add_0_r. apply u32_small. lia.
Qed.

(** Finding: two groups of 49152 elements, the last one with 100 elements only, with
    the default block size and 8 threads: a task of the second group starts behind
    the end of the array and its loop reads out of bounds. *)
Theorem C21_partial_group_refuted :
  exists size bs, bs < size /\ size < 2 ^ 20 /\
    forall (xs : list N) (m : mem N) Q, N.of_nat (length xs) = size -> holds m 0 xs ->
    exists cs, block_mkperm 8 16384 3 size bs 1 0 1 None 2 = Cmds cs /\ ~ ensures cs Q m.
Proof.
  exists 49252, 49152. split; [lia|]. split; [lia|].
  intros xs m Q Hlen Hh. eexists. split.
  { unfold block_mkperm. replace (mk_plan 8 16384 49252 49152) with (Some (2, 3, 16384))
      by (vm_compute; reflexivity). reflexivity. }
  unfold mk_cmds. replace (total_tasks 2 3) with 6 by reflexivity.
  replace (range_lt 0 6) with [0; 1; 2; 3; 4; 5] by reflexivity.
  cbn [map app]. cbn [ensures]. intros H.
  (* some content of the fresh buffers *)
  set (al := fun (m : mem N) b n => fun l : loc =>
         if fst l =? b then if snd l <? n then Some 0 else None else m l).
  assert (HA : forall m b n, allocated m b n (al m b n)).
  { intros m1 b n. unfold al. repeat split; cbn [fst snd].
    - intros i Hi. rewrite N.eqb_refl. replace (i <? n) with true by lia. eauto.
    - intros i Hi. rewrite N.eqb_refl. replace (i <? n) with false by lia. auto.
    - intros l Hl. destruct (N.eqb_spec (fst l) b); congruence. }
  specialize (H _ (HA m 3 6)).
  specialize (H _ (HA _ _ _)). specialize (H _ (HA _ _ _)). specialize (H _ (HA _ _ _)).
  specialize (H _ (HA _ _ _)). specialize (H _ (HA _ _ _)). specialize (H _ (HA _ _ _)).
  destruct H as [_ H].
  set (m1 := al (al _ (local 3 4) 1) (local 3 5) 1) in H.
  set (ps := units 6 (hist_kernel 0 3 49252 49152 1 3 16384)) in H.
  assert (E4 : exists k, nth_error ps 4 = Some (Wr (local 3 4, 0) 0 (Rd (0, 65536) k))).
  { unfold ps, units. replace (N.to_nat 6) with 6%nat by reflexivity. cbn [seq map nth_error].
    unfold hist_kernel. replace (task_range 49252 49152 3 16384 (N.of_nat 4)) with (65536, 49252)
      by (vm_compute; reflexivity).
    replace (range_lt 0 1) with [0] by reflexivity. cbn [loop].
    assert (R : exists r, range_ne 65536 49252 = 65536 :: r).
    { apply range_ne_cons; lia. }
    destruct R as [r ->]. cbn [loop]. eexists. reflexivity. }
  destruct E4 as [k E4].
  assert (Al : m1 (local 3 4, 0) = Some 0) by reflexivity.
  destruct (H (set_nth 4 (Rd (0, 65536) k) ps) (mset m1 (local 3 4, 0) 0)) as [Safe _].
  { eapply steps_step; [|apply steps_refl]. eapply step_wr; [exact E4|]. rewrite Al. discriminate. }
  destruct Safe as (_ & Oob & _).
  apply (Oob 4%nat (Rd (0, 65536) k) false (0, 65536)).
  - apply nth_error_set_nth_eq. apply nth_error_Some. congruence.
  - reflexivity.
  - cbn [snd]. rewrite mset_neq by discriminate.
    assert (E : m1 (0, 65536) = m (0, 65536)) by (unfold m1, al; cbn [fst snd]; reflexivity).
    rewrite E, Hh. apply nth_error_None. lia.
Qed.

Definition ex_vals : list N := map (fun i => N.of_nat ((i * i + 3 * i) mod 7)) (seq 0 40).
Definition ex_perm bs :=
  match block_mkperm 2 16 4 40 bs 7 0 1 (Some 2) 3 with
  | Cmds cs => match exec 0 cs (mem_of [(0, ex_vals); (1, repeat 0 40); (2, repeat 9 30); (3, [5])]) with
               | Some m => Some (contents m 1 40, contents m 2 20, contents m 3 1)
               | None => None
               end
  | _ => None
  end.
Example C21_ex : ex_perm 40 =
  Some (map Some (bucket_sorted ex_vals 7 0 40),
        map Some [0; 0; 12; 0; 3; 12; 6; 0; 4; 18; 12; 0; 5; 30; 10; 0; 9; 9; 9; 9], [Some 4]).
Proof. vm_compute. reflexivity. Qed.
Example C21_ex_plan : mk_plan 2 16 40 40 = Some (1, 3, 16).
Proof. vm_compute. reflexivity. Qed.
Example C21_ex_groups : ex_perm 20 =
  Some (map Some (bucket_sorted ex_vals 7 0 20 ++ bucket_sorted ex_vals 7 20 40),
        repeat (Some 9) 20, [Some 0]).
Proof. vm_compute. reflexivity. Qed.

Print Assumptions C21_mkperm_partial.
Print Assumptions C21_bucket_sorted_spec.
Print Assumptions C21_partial_group_refuted.
