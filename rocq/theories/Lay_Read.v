From Verif Require Import Base Lay_Model Lay_Spec Lay_Proofs Lay_Scatter Lay_Inst Lay_Call Lay_Upload.
Local Open Scope N_scope.

Lemma shift_word : forall d k, d < 2 ^ 32 -> k < 2 ^ 32 ->
  u32 (u64 (N.lor (u64 (N.shiftl d 32)) k)) = k /\ u32 (N.shiftr (u64 (N.lor (u64 (N.shiftl d 32)) k)) 32) = d.
Proof.
  intros d k D K.
  assert (S : N.shiftl d 32 = d * 2 ^ 32) by apply N.shiftl_mul_pow2.
  assert (E : N.lor (d * 2 ^ 32) k = d * 2 ^ 32 + k).
  { rewrite <- S. symmetry. rewrite N.add_nocarry_lxor.
    - apply N.lxor_lor. apply N.bits_inj_0. intros n. rewrite N.land_spec. destruct (N.lt_ge_cases n 32) as [L|L].
      + rewrite N.shiftl_spec_low by exact L. reflexivity.
      + rewrite (N.bits_above_log2 k n); [apply andb_false_r|]. destruct (N.eq_dec k 0) as [->|]; [cbn; lia|]. apply N.log2_lt_pow2; [lia|].
        eapply N.lt_le_trans; [exact K|]. apply N.pow_le_mono_r; lia.
    - apply N.bits_inj_0. intros n. rewrite N.land_spec. destruct (N.lt_ge_cases n 32) as [L|L].
      + rewrite N.shiftl_spec_low by exact L. reflexivity.
      + rewrite (N.bits_above_log2 k n); [apply andb_false_r|]. destruct (N.eq_dec k 0) as [->|]; [cbn; lia|]. apply N.log2_lt_pow2; [lia|].
        eapply N.lt_le_trans; [exact K|]. apply N.pow_le_mono_r; lia. }
  rewrite S. rewrite (u64_small (d * 2 ^ 32)) by lia. rewrite E. rewrite u64_small by lia. unfold u32. split.
  - rewrite N.add_comm, N.mod_add by lia. apply N.mod_small. exact K.
  - rewrite N.shiftr_div_pow2, N.div_add_l by lia. rewrite (N.div_small k) by exact K. rewrite N.add_0_r. apply N.mod_small. exact D.
Qed.

Section Read.
Variables (data : N -> list N) (llvm : bool) (alignment cap : N) (items : list item).
Hypothesis OK : kernel_ok data llvm alignment cap items.

Theorem entries_ok : forall es total, upload data alignment items = (es, total) ->
  Forall (fun e => fst e + N.of_nat (length (snd e)) <= total) es /\
  ForallOrdPairs (fun a b => disjoint (range_of a) (range_of b)) es.
Proof.
  intros es total E. destruct (upload_ok data llvm alignment cap (proj1 OK) items es total OK E) as (xs & f & d & _ & _ & _ & _ & P & A & _).
  split.
  - eapply Permutation_Forall; [apply Permutation_sym; exact P|]. apply Forall_forall. intros e I. exact (proj2 (asc_in _ _ _ _ A I)).
  - eapply pairs_perm; [exact disjoint_sym|apply Permutation_sym; exact P|]. eapply asc_pairs; eauto.
Qed.

Lemma entry_read : forall es total es' m e, upload data alignment items = (es, total) -> Permutation es es' -> In e es ->
  read (aggregate m es') (fst e) (length (snd e)) = snd e.
Proof.
  intros es total es' m e E P I. destruct (entries_ok es total E) as [_ D]. apply aggregate_in.
  - eapply pairs_perm; [exact disjoint_sym|exact P|exact D].
  - eapply Permutation_in; eauto.
Qed.

Theorem call_readback : forall es total es' m c ks ob db,
  upload data alignment items = (es, total) -> Permutation es es' ->
  In (ICall c ks, ob, db) (fst (fst (assemble items 0 0))) ->
  forall i id l k, nth_error (c_inst_id c) i = Some id -> nth_error (c_layouts c) i = Some l -> nth_error ks i = Some k ->
  number (read (aggregate m es') (ob + 8 * id) 4) = k /\
  forall j r o b, l_start l <= N.of_nat j < l_start l + l_count l -> nth_error (c_slots c) j = Some (r, o, b) ->
    read (aggregate m es') (number (read (aggregate m es') (ob + 8 * id + 4) 4) + (o - l_offset l)) (length (data r)) = data r.
Proof.
  intros es total es' m c ks ob db E P I i id l k E1 E2 E3.
  destruct (upload_ok data llvm alignment cap (proj1 OK) items es total OK E) as (xs & f & d & AS & TE & _ & _ & PE & A & MX & FX).
  rewrite AS in I. cbn [fst] in I.
  assert (IT : In (ICall c ks) items) by (rewrite <- MX; apply in_map_iff; exists (ICall c ks, ob, db); auto).
  assert (IO : item_ok data llvm alignment cap (ICall c ks)) by (destruct OK as (_ & F & _); rewrite Forall_forall in F; auto).
  rewrite Forall_forall in FX. specialize (FX _ I). cbn [fst snd header_bytes data_bytes] in FX.
  destruct (call_facts data llvm alignment cap (proj1 OK) c ks IO) as (PK & DL & IL & OC).
  destruct IO as (insts & inst_id & EC & F & FIT & L1 & L2 & ND & IDS & K & _).
  destruct (layout_call_ok llvm alignment cap (proj1 OK) insts inst_id F FIT) as (hi & IN & HI & _). rewrite <- EC in IN, HI.
  assert (CID : c_inst_id c = inst_id) by (rewrite EC; unfold layout_call; destruct (layout_from _ _ _ _ _ _) as [[? ?] ?]; reflexivity).
  assert (LL : (i < length insts)%nat) by (rewrite <- L1, <- CID; apply nth_error_Some; rewrite E1; discriminate).
  destruct (nth_error insts i) as [ss|] eqn:ES; [|apply nth_error_None in ES; lia].
  destruct (instances_nth _ _ _ _ _ _ _ _ _ IN i ss l ES E2) as (pre & out & post & h & EO & LS & LC & _ & PO & HH & _).
  pose proof (packed_le _ _ _ PO) as LH.
  set (ds := align_up f alignment) in *.
  assert (KL : k < 2 ^ 32) by (rewrite Forall_forall in K; apply K; eapply nth_error_In; eauto).
  assert (DL32 : ds + db + l_offset l < 2 ^ 32) by lia.
  assert (W : nth_error (table_words ds db c ks) (N.to_nat id) = Some (u64 (N.lor (u64 (N.shiftl (ds + db + l_offset l) 32)) k))).
  { eapply table_words_nth; eauto. rewrite CID. exact ND. }
  destruct (shift_word (ds + db + l_offset l) k DL32 KL) as [W1 W2].
  pose proof (table_words_length ds db c ks) as TL.
  destruct (word_entries_in (table_words ds db c ks) ob (N.to_nat id) _ ltac:(rewrite TL; lia) W) as [B1 B2].
  rewrite W1 in B1. rewrite W2 in B2. rewrite N2Nat.id in B1, B2.
  assert (HE : forall e, In e (word_entries ob (table_words ds db c ks)) -> In e es).
  { intros e X. eapply Permutation_in; [apply Permutation_sym; exact PE|]. apply in_app_iff. left. apply in_flat_map. exists (ICall c ks, ob, db).
    split; [exact I|]. unfold head. apply in_app_iff. left. exact X. }
  apply HE in B1. apply HE in B2.
  pose proof (entry_read _ _ _ m _ E P B1) as R1. pose proof (entry_read _ _ _ m _ E P B2) as R2. cbn [fst snd] in R1, R2.
  rewrite le_bytes_length in R1, R2. rewrite R1, R2.
  split; [apply number_le; change (256 ^ N.of_nat 4) with (2 ^ 32); exact KL|].
  rewrite number_le by (change (256 ^ N.of_nat 4) with (2 ^ 32); exact DL32).
  intros j r o b J SJ.
  assert (OG : l_offset l <= o).
  { rewrite EO in SJ. rewrite nth_error_app2 in SJ by lia. rewrite nth_error_app1 in SJ by lia. apply nth_error_In in SJ.
    exact (proj1 (packed_in _ _ _ _ _ _ PO SJ)). }
  apply nth_error_In in SJ. pose proof (packed_in _ _ _ _ _ _ PK SJ) as [_ OB]. pose proof (bsize_pos b).
  assert (SE : In (u32 (u32 (db + o) + ds), data r) es).
  { eapply Permutation_in; [apply Permutation_sym; exact PE|]. apply in_app_iff. right. apply in_flat_map. exists (ICall c ks, ob, db).
    split; [exact I|]. cbn [slot_entries]. apply in_map_iff. exists (r, o, b). auto. }
  rewrite (u32_small (db + o)) in SE by lia. rewrite u32_small in SE by lia.
  pose proof (entry_read _ _ _ m _ E P SE) as R3. cbn [fst snd] in R3.
  replace (ds + db + l_offset l + (o - l_offset l)) with (db + o + ds) by lia. exact R3.
Qed.

Theorem getter_readback : forall es total es' m t vs ob db,
  upload data alignment items = (es, total) -> Permutation es es' ->
  In (IGetter t vs, ob, db) (fst (fst (assemble items 0 0))) ->
  forall i v, nth_error vs i = Some v -> read (aggregate m es') (ob + t * (N.of_nat i + 1)) (length v) = v.
Proof.
  intros es total es' m t vs ob db E P I i v V.
  destruct (upload_ok data llvm alignment cap (proj1 OK) items es total OK E) as (xs & f & d & AS & TE & _ & _ & PE & A & MX & FX).
  rewrite AS in I. cbn [fst] in I. rewrite Forall_forall in FX. specialize (FX _ I). cbn [fst snd header_bytes data_bytes] in FX.
  assert (IE : In (ob + t * N.of_nat (S i), v) es).
  { eapply Permutation_in; [apply Permutation_sym; exact PE|]. apply in_app_iff. left. apply in_flat_map. exists (IGetter t vs, ob, db).
    split; [exact I|]. unfold head. apply in_app_iff. right. cbn [getter_entries]. apply getter_rows_in; [|exact V].
    cbn [length]. rewrite Nat2N.inj_succ, N.mul_succ_r. lia. }
  pose proof (entry_read _ _ _ m _ E P IE) as R. cbn [fst snd] in R. rewrite Nat2N.inj_succ in R. rewrite <- N.add_1_r in R. exact R.
Qed.
End Read.
