(** Writes, queries and whole histories. *)
From Verif Require Import Base Par_Model Mkperm_Spec Mkperm_Sort Registry_Model Registry_Spec Registry_Proofs
  Crd_Model Crd_Spec Crd_Inv Crd_Grow Crd_Buckets Crd_Steps.
Local Open Scope N_scope.
#[local] Ltac Zify.zify_post_hook ::= idtac.

Lemma content n s c i v l off x : CI n s c -> In i (c_held c) -> get s i = Some v ->
  ~ In i (cidx s) -> ~ In i (deps s) -> bufs s (x_buf v) = Some l -> off < x_len v ->
  let s' := set_bufs s (fupd (bufs s) (x_buf v) (Some (set_nth (N.to_nat (x_off v + off)) x l))) in
  CI n s' {| c_held := c_held c; c_lent := c_lent c;
             c_val := fset (c_val c) i (set_nth (N.to_nat off) x (c_val c i));
             c_first := c_first c; c_reg := c_reg c |} /\
  (forall j, j <> i -> In j (c_held c ++ cidx s) -> data s' j = data s j).
Proof.
  intros C IH G NC ND B LO s'. pose proof (k_inv _ _ _ C) as H.
  assert (H' : Inv s' (c_held c) []) by (eapply bufs_inv; [exact H|exact B|apply set_nth_length]).
  assert (OTH : forall j, j <> i -> In j (c_held c ++ cidx s) -> data s' j = data s j).
  { intros j NE J. assert (LV : get s j <> None).
    { eapply live_in; [exact H|]. rewrite !in_app_iff in *. tauto. }
    destruct (get s j) as [u|] eqn:GJ; [|congruence].
    unfold data. change (get s' j) with (get s j). rewrite GJ. cbn [bind s' bufs set_bufs]. unfold fupd.
    destruct (N.eqb_spec (x_buf u) (x_buf v)) as [EB|]; [|reflexivity]. rewrite EB, B. cbn [bind]. f_equal.
    destruct (x_own v) eqn:OV, (x_own u) eqn:OU.
    - destruct NE. eapply (i_own1 _ _ _ H j i u v); eauto.
    - exfalso. destruct (i_sub _ _ _ H j u GJ OU) as (p & w & m & W1 & W2 & W3 & W4 & _).
      assert (p = i) by (eapply (i_own1 _ _ _ H p i w v); eauto; congruence). subst p.
      apply ND. apply in_deps. eauto.
    - exfalso. destruct (i_sub _ _ _ H i v G OV) as (p & w & m & W1 & W2 & W3 & W4 & _).
      assert (p = j) by (eapply (i_own1 _ _ _ H p j w u); eauto; congruence). subst p.
      assert (P : In j (deps s)) by (apply in_deps; eauto). destruct (k_perm _ _ _ C _ P) as (P1 & P2 & _).
      rewrite in_app_iff in J. tauto.
    - apply sub_set_out. destruct (i_apart _ _ _ H j i u v GJ G NE OU OV EB); lia. }
  split; [|exact OTH].
  assert (VI : data s i = Some (c_val c i)) by (apply (k_val _ _ _ C); apply in_or_app; now left).
  split; cbn [c_held c_lent c_val c_first c_reg].
  - exact H'.
  - intros j J. change (cidx s') with (cidx s) in J. unfold fset. destruct (Nat.eqb_spec j i) as [->|NE].
    + unfold data in *. change (get s' i) with (get s i). rewrite G in *. cbn [bind s' bufs set_bufs] in *.
      unfold fupd. rewrite N.eqb_refl. rewrite B in VI. cbn [bind] in *. injection VI as <-.
      rewrite sub_set_in by lia. do 2 f_equal. lia.
    + rewrite OTH by auto. apply (k_val _ _ _ C _ J).
  - apply (k_lent _ _ _ C).
  - intros y a Y. destruct (k_cache _ _ _ C _ _ Y) as (t & ys & rs & bs & F1 & F2 & F3). exists t, ys, rs, bs.
    split; [exact F1|]. split; [exact F2|].
    replace (map (view _) bs) with (map (view (c_val c)) bs); [exact F3|].
    apply map_ext_in. intros b Ib. unfold view, fset. destruct (Nat.eqb_spec (b_index b) i) as [EB|]; [|reflexivity].
    exfalso. apply NC. rewrite <- EB. eapply cidx_in; eauto. now apply in_map.
  - apply (k_first _ _ _ C).
  - apply (k_perm _ _ _ C).
  - apply (k_rank _ _ _ C).
  - apply (k_reg _ _ _ C).
Qed.

Lemma cached_data n s c s' i a bs : CI n s c -> In (i, a) (cache s) -> blocks s a = Some bs -> keeps s s' ->
  Forall (fun b => data s' (b_index b) = data s (b_index b)) bs.
Proof.
  intros C I B K. apply Forall_forall. intros b Ib. apply (keeps_data _ _ _ _ _ K (k_inv _ _ _ C)).
  eapply live_in; [apply (k_inv _ _ _ C)|]. apply in_or_app; right. apply in_or_app; left.
  eapply cidx_in; eauto. now apply in_map.
Qed.

Lemma first_cached n s c i : CI n s c -> In i (c_held c) -> c_first c i <> None ->
  exists a bs, In (i, a) (cache s) /\ blocks s a = Some bs.
Proof.
  intros C I N1. assert (X : In i (map fst (cache s))) by (apply (k_first _ _ _ C); [apply in_or_app; now left|exact N1]).
  apply in_map_iff in X as ([y a] & EY & X). cbn in EY. subst y.
  destruct (k_cache _ _ _ C _ _ X) as (t & ys & rs & bs & _ & B & _). eauto.
Qed.

Section RUN.
Variable sort : list ibucket -> list ibucket.
Hypothesis SORT : sorts sort.

Lemma again s t i a ext : Inv s ext [] -> In (i, a) (cache s) -> call_reduce sort s t i = Ret (s, Some a).
Proof.
  intros H I. destruct (position_in i a (cache s) (i_cnd _ _ _ H) I) as (k & K1 & K2).
  unfold call_reduce. now rewrite K1, K2.
Qed.

(** [kept] from the cache entries *)
Lemma kept_of n s c s' c' : CI n s c -> CI n s' c' ->
  (forall i a bs, In i (c_held c) -> In i (c_held c') -> In (i, a) (cache s) -> blocks s a = Some bs ->
     In (i, a) (cache s') /\ blocks s' a = Some bs /\ Forall (fun b => data s' (b_index b) = data s (b_index b)) bs) ->
  kept sort s c s' c'.
Proof.
  intros C C' X i t I I' N1. destruct (first_cached _ _ _ _ C I N1) as (a & bs & A & B).
  destruct (X i a bs I I' A B) as (A' & B' & D). exists a, bs.
  split; [eapply again; [apply (k_inv _ _ _ C)|exact A]|].
  split; [eapply again; [apply (k_inv _ _ _ C')|exact A']|]. auto.
Qed.

Lemma kept_keeps n s c s' c' : CI n s c -> CI n s' c' -> keeps s s' -> kept sort s c s' c'.
Proof.
  intros C C' K. apply (kept_of n); auto. intros i a bs _ _ A B. rewrite (ke_cache _ _ K), (ke_blocks _ _ K).
  split; [exact A|]. split; [exact B|]. eapply cached_data; eauto.
Qed.

(** ** A first query *)
Lemma ordpairs {A} (P : A -> A -> Prop) (g : A -> N) (l : list A) : NoDup (map g l) ->
  (forall x y, In x l -> In y l -> g x <> g y -> P x y) -> ForallOrdPairs P l.
Proof.
  induction l as [|x l IH]; intros ND H; constructor.
  - cbn in ND. inversion ND as [|? ? N1 N2]; subst. apply Forall_forall. intros y I. apply H; [now left|now right|].
    intros E. apply N1. rewrite E. now apply in_map.
  - inversion ND; subst. apply IH; auto. intros; apply H; auto; now right.
Qed.

Lemma f2_map {A B C} (R : A -> B -> Prop) (g : A -> C) (h : B -> C) l m :
  Forall2 R l m -> (forall a b, R a b -> g a = h b) -> map g l = map h m.
Proof. intros F H. induction F; cbn; [reflexivity|]. f_equal; auto. Qed.

Lemma f2_in {A B} (R : A -> B -> Prop) l m a : Forall2 R l m -> In a l -> exists b, In b m /\ R a b.
Proof. intros F. induction F; intros I; [destruct I|]. destruct I as [->|I]; [exists y; split; [now left|auto]|].
  destruct (IHF I) as (b & X & Y). exists b. split; [now right|auto]. Qed.

Lemma f2_sorted {A B} (R : A -> B -> Prop) (P : A -> A -> Prop) (Q : B -> B -> Prop) l m :
  Forall2 R l m -> StronglySorted Q m -> (forall a b c d, R a b -> R c d -> Q b d -> P a c) -> StronglySorted P l.
Proof.
  intros F. induction F as [|x y l m XY F IH]; intros S1 H; [constructor|]. inversion S1 as [|? ? S2 S3]; subst.
  constructor; [auto|]. apply Forall_forall. intros a I. destruct (f2_in _ _ _ _ F I) as (b & Ib & Rb).
  rewrite Forall_forall in S3. eapply H; eauto.
Qed.

Lemma sorted_map {A B} (P : A -> A -> Prop) (Q : B -> B -> Prop) (g : A -> B) l :
  StronglySorted P l -> (forall a b, P a b -> Q (g a) (g b)) -> StronglySorted Q (map g l).
Proof.
  intros X H. induction X as [|b bs X IHX FX]; cbn [map]; constructor; auto.
  apply Forall_forall. intros y I. apply in_map_iff in I as (d & <- & I). rewrite Forall_forall in FX. auto.
Qed.

Lemma query n s c t i : CI n s c -> n + 1 < 2 ^ 32 - 1 -> legal c (Reduce t i) ->
  exists s' a c', call_reduce sort s t i = Ret (s', a) /\ effect c (blocks s') (Reduce t i) (ABuckets a) c' /\
    kept sort s c s' c' /\ CI n s' c'.
Proof.
  intros C HN [IH LG]. pose proof (k_inv _ _ _ C) as H.
  assert (VI : data s i = Some (c_val c i)) by (apply (k_val _ _ _ C); apply in_or_app; now left).
  destruct (position i (cache s)) as [k|] eqn:PK.
  { (* cached *)
    destruct (position_some _ _ _ PK) as [KL KI].
    assert (A : In (i, snd (nth k (cache s) (0%nat, 0))) (cache s)).
    { rewrite <- KI at 1. rewrite <- surjective_pairing. now apply nth_In. }
    set (a := snd (nth k (cache s) (0%nat, 0))) in *.
    destruct (k_cache _ _ _ C _ _ A) as (t0 & xs0 & rs0 & bs & F1 & F2 & F3).
    exists s, (Some a). eexists. split; [eapply again; eauto|]. split; [eapply ef_reduce_again; eauto|].
    match goal with |- kept _ _ _ _ ?c' /\ _ => assert (C' : CI n s c') end.
    { split; cbn [c_held c_lent c_val c_first c_reg]; try apply C.
      intros x y I. apply in_app_or in I as [I|I]; [|apply (k_lent _ _ _ C _ _ I)].
      apply in_map_iff in I as (b & EB & I). injection EB as <- <-. split; [exact IH|]. exists a, bs.
      split; [exact A|]. split; [exact F2|]. now apply in_map. }
    split; [|exact C']. apply (kept_keeps n); auto. apply keeps_refl. }
  assert (FN : c_first c i = None).
  { destruct (c_first c i) eqn:E; [|reflexivity]. exfalso. apply (position_none _ _ PK).
    apply (k_first _ _ _ C); [apply in_or_app; now left|congruence]. }
  unfold call_reduce. rewrite PK.
  destruct (bound_ok n (registry s) (c_reg c) t (k_reg _ _ _ C) HN) as (m & BM & LM & IM).
  match goal with |- context [obind ?x _] => change x with (bound_of (registry s) t) end.
  rewrite BM. cbn [obind]. destruct (N.eqb_spec m 0) as [->|NZ].
  { exists s, None, c. split; [reflexivity|]. split; [now constructor|]. split; [|exact C].
    apply (kept_keeps n); auto. apply keeps_refl. }
  destruct (LG FN m LM) as (LIM & FX). rewrite VI. set (xs := c_val c i) in *.
  rewrite (u32_small (m + 1)) by lia. set (B := m + 1).
  assert (FXB : Forall (fun y => y < B) xs) by (eapply Forall_impl; [|exact FX]; cbn; intros; unfold B; lia).
  assert (EX : (B =? 0) || existsb (fun x => B <=? x) xs = false).
  { apply orb_false_iff. split; [apply N.eqb_neq; unfold B; lia|].
    destruct (existsb (fun x => B <=? x) xs) eqn:E; [|reflexivity]. apply existsb_exists in E as (y & Y1 & Y2).
    rewrite Forall_forall in FXB. apply FXB in Y1. apply N.leb_le in Y2. lia. }
  rewrite EX. set (big := bucket_sorted xs B 0 (N.of_nat (length xs))).
  destruct (new_array s big) as [s1 p] eqn:E1.
  destruct (new_array_ok _ _ _ _ _ _ H E1) as (H1 & K1 & PD & (pv & GP & OP & BP) & _ & B1 & B0 & GJ1).
  set (tab := quads (bucket_table xs B 0 (N.of_nat (length xs)))).
  destruct (SORT tab) as [SP SS]. set (l := sort tab) in *.
  set (f := fun k : N => nth (N.to_nat k) xs 0). set (L := range_lt 0 (N.of_nat (length xs))).
  assert (TI : forall e, In e l -> exists b, b < B /\ cnt f b L <> 0 /\ e = (b, clt f b L, cnt f b L)).
  { intros e I. apply (Permutation_in _ SP) in I. apply table_in in I as (b & IB & Q1 & Q2). exists b. split; [|auto].
    unfold range_lt in IB. apply in_map_iff in IB as (q & <- & IQ). apply in_seq in IQ. lia. }
  assert (TN : NoDup (map e_id l)).
  { eapply Permutation_NoDup; [apply Permutation_map; symmetry; exact SP|]. apply table_ids. }
  assert (MB := mb_ok t p (next s) big (instance (c_reg c) t) l s1 (p :: c_held c) [] pv H1 GP OP BP B1).
  destruct MB as (s2 & bs & E2 & H2 & K2 & BF2 & ND2 & DD2 & SH2 & F2).
  { apply Forall_forall. intros e I. destruct (TI e I) as (b & Q1 & Q2 & ->). cbn [e_off e_size fst snd].
    apply (slice_bound xs B b Q1). }
  { apply (ordpairs _ e_id); [exact TN|]. intros x y IX IY NE.
    destruct (TI x IX) as (b1 & _ & _ & ->). destruct (TI y IY) as (b2 & _ & _ & ->). cbn [e_id e_off e_size fst snd] in *.
    unfold disjoint. cbn [e_off e_size fst snd]. apply (slice_apart xs b1 b2 NE). }
  { intros e j u _ G O EB. exfalso. assert (NJ : j <> p) by congruence. rewrite GJ1 in G by exact NJ.
    destruct (has_buf _ _ _ _ _ H G) as (z & Z & _). congruence. }
  { apply Forall_forall. intros e I. destruct (TI e I) as (b & Q1 & Q2 & ->). cbn [e_id fst]. rewrite (ke_reg _ _ K1).
    apply IM. unfold B in Q1. lia. }
  rewrite E2. cbn [obind].
  set (idx := map b_index bs) in *.
  assert (H2' : Inv s2 (p :: idx ++ c_held c) []).
  { eapply Inv_ext; [|exact H2]. intros j. rewrite count_cons, !count_app, count_cons. lia. }
  destruct (dec_ref_ok _ _ _ _ H2') as (s3 & E3 & H3 & F3). rewrite E3. cbn [obind].
  set (o := next s3). set (s4 := set_cache _ _).
  assert (K12 : keeps s s2) by (eapply keeps_trans; eauto).
  assert (BO : blocks s3 o = None).
  { destruct (blocks s3 o) eqn:Z; [|reflexivity]. pose proof (i_nextb _ _ _ H3 o) as Q. rewrite Z in Q.
    specialize (Q ltac:(discriminate)). unfold o in Q. lia. }
  assert (OC : forall e, In e (cache s3) -> snd e <> o).
  { intros e I E. assert (X : blocks s3 (snd e) <> None).
    { apply (i_block _ _ _ H3). apply in_or_app. left. now apply in_map. } congruence. }
  assert (C3 : forall e, In e (cache s3) -> In e (cache s)).
  { intros e I. rewrite <- (ke_cache _ _ K12). apply (fr_cache _ _ F3 _ I). }
  assert (IDX4 : cidx s4 = cidx s3 ++ idx).
  { unfold cidx, s4. cbn [cache set_cache]. rewrite flat_map_app. cbn [flat_map]. rewrite app_nil_r. f_equal.
    - assert (X : forall l0, (forall e, In e l0 -> snd e <> o) ->
        flat_map (idx_of s4) l0 = flat_map (idx_of s3) l0).
      { induction l0 as [|e l0 IHl]; intros Q; cbn [flat_map]; [reflexivity|]. rewrite IHl by (intros; apply Q; now right). f_equal.
        unfold idx_of, s4. cbn [blocks set_cache set_next set_blocks]. unfold fupd.
        destruct (N.eqb_spec (snd e) o) as [EO|]; [|reflexivity]. destruct (Q e); [now left|exact EO]. }
      apply X. exact OC.
    - unfold idx_of. cbn [blocks set_cache set_next set_blocks snd]. unfold fupd. rewrite N.eqb_refl. reflexivity. }
  assert (I3 : get s3 i <> None).
  { eapply live_in; [exact H3|]. apply in_or_app. left. apply in_or_app. now right. }
  assert (H4 : Inv s4 (c_held c) []).
  { split; try apply H3.
    - intros j. change (refs_of s4 j) with (refs_of s3 j). change (deps s4) with (deps s3). rewrite IDX4.
      rewrite (i_refs _ _ _ H3 j). rewrite !count_app. lia.
    - unfold s4. cbn [cache set_cache]. rewrite map_app. cbn [map fst]. eapply Permutation_NoDup; [apply Permutation_cons_append|].
      constructor; [|apply (i_cnd _ _ _ H3)]. intros X. apply (position_none _ _ PK).
      apply in_map_iff in X as (e & EE & X). rewrite <- EE. apply in_map. auto.
    - intros j a. unfold s4. cbn [cache set_cache]. intros X. apply in_app_or in X as [X|[X|[]]].
      + apply (i_clive _ _ _ H3 _ _ X).
      + injection X as <- <-. exact I3.
    - unfold s4. cbn [cache set_cache]. rewrite map_app, app_nil_r. cbn [map snd].
      eapply Permutation_NoDup; [apply Permutation_cons_append|]. constructor.
      + intros X. apply in_map_iff in X as (e & EE & X). apply (OC e X EE).
      + pose proof (i_bnd _ _ _ H3) as Q. rewrite app_nil_r in Q. exact Q.
    - intros a. unfold s4. cbn [cache set_cache blocks set_next set_blocks]. rewrite map_app, !in_app_iff. cbn [map snd In]. unfold fupd.
      pose proof (i_block _ _ _ H3 a) as Q. rewrite in_app_iff in Q. cbn [In] in Q.
      destruct (N.eqb_spec a o) as [->|NO]; [split; [auto|discriminate]|]. rewrite Q. intuition congruence.
    - intros a. unfold s4. cbn [blocks next set_cache set_next set_blocks]. unfold fupd. fold o.
      destruct (N.eqb_spec a o) as [->|NO]; [lia|]. intros Q. pose proof (i_nextb _ _ _ H3 a Q). unfold o. lia.
    - intros a Q. pose proof (i_next _ _ _ H3 a Q). unfold s4. cbn [next set_cache set_next]. unfold o. lia. }
  assert (LIVE3 : forall j, In j (idx ++ c_held c ++ cidx s3) -> get s3 j <> None).
  { intros j J. eapply live_in; [exact H3|]. rewrite !in_app_iff in *. tauto. }
  assert (D32 : forall j, get s3 j <> None -> data s3 j = data s2 j) by (intros j J; eapply frame_data; eauto).
  assert (D2 : forall j, get s j <> None -> data s2 j = data s j) by (intros j J; eapply keeps_data; [exact K12|exact H|exact J]).
  assert (C32 : forall j, In j (cidx s3) -> In j (cidx s)).
  { intros j J. rewrite <- (keeps_cidx _ _ K12). eapply frame_cidx; eauto. }
  assert (DEAD : forall j, In j idx -> get s j = None).
  { intros j J. apply in_map_iff in J as (b & <- & J). pose proof (DD2 b J) as Q.
    destruct (get s (b_index b)) as [v|] eqn:G; [|reflexivity]. destruct (ke_get _ _ K1 _ _ G) as (u & U & _). congruence. }
  assert (OLD : forall j, In j (c_held c ++ cidx s) -> ~ In j idx).
  { intros j J X. apply DEAD in X. revert X. eapply live_in; [exact H|]. rewrite !in_app_iff in *. tauto. }
  assert (NP : ~ In p idx).
  { intros X. apply in_map_iff in X as (b & EB & X). pose proof (DD2 b X). congruence. }
  set (val' := fun j => if in_dec Nat.eq_dec j idx then match data s4 j with Some z => z | None => [] end else c_val c j).
  set (first' := fun j => if in_dec Nat.eq_dec j idx then None
                          else if Nat.eqb j i then Some (t, xs, c_reg c) else c_first c j).
  assert (VB : Forall2 (fun b e => In b bs /\ b_id b = e_id e /\ instance (c_reg c) t (b_id b) (b_ptr b) /\
                 val' (b_index b) = positions xs (b_id b) /\ data s4 (b_index b) = Some (val' (b_index b)) /\
                 N.of_nat (length (val' (b_index b))) = e_size e /\ e_size e <> 0) bs l).
  { assert (X : forall bs0 l0, (forall b, In b bs0 -> In b bs) -> (forall e, In e l0 -> In e l) ->
      Forall2 (fun b e => b_id b = e_id e /\ instance (c_reg c) t (e_id e) (b_ptr b) /\
                        data s2 (b_index b) = Some (sub (e_off e) (e_size e) big)) bs0 l0 ->
      Forall2 (fun b e => In b bs /\ b_id b = e_id e /\ instance (c_reg c) t (b_id b) (b_ptr b) /\
                 val' (b_index b) = positions xs (b_id b) /\ data s4 (b_index b) = Some (val' (b_index b)) /\
                 N.of_nat (length (val' (b_index b))) = e_size e /\ e_size e <> 0) bs0 l0).
    { intros bs0 l0 S1 S2 FF. induction FF as [|b e bs0 l0 (Q1 & Q2 & Q3) FF IHF]; constructor.
      - assert (Ib : In b bs) by (apply S1; now left). split; [exact Ib|]. split; [exact Q1|]. split; [congruence|].
        destruct (TI e (S2 e (or_introl eq_refl))) as (id & W1 & W2 & ->). cbn [e_id e_off e_size fst snd] in *.
        assert (DV : data s4 (b_index b) = Some (positions xs id)).
        { change (data s4 (b_index b)) with (data s3 (b_index b)). rewrite D32, Q3.
          - f_equal. apply (slice xs B id W1).
          - apply LIVE3. apply in_or_app. left. now apply in_map. }
        assert (VV : val' (b_index b) = positions xs id).
        { unfold val'. destruct (in_dec Nat.eq_dec (b_index b) idx) as [_|NI]; [now rewrite DV|].
          destruct NI. now apply in_map. }
        rewrite VV, Q1. split; [reflexivity|]. split; [exact DV|]. split; [|exact W2]. apply positions_length.
      - apply IHF; intros; [apply S1|apply S2]; now right. }
    apply X; auto. }
  assert (EFV : forall j, ~ In j idx -> val' j = c_val c j).
  { intros j J. unfold val'. destruct (in_dec Nat.eq_dec j idx); [contradiction|reflexivity]. }
  assert (SPL : splits (c_reg c) t xs (map (view val') bs)).
  { split.
    - rewrite map_map. change (map (fun x0 => snd (fst (view val' x0))) bs) with (map b_id bs). rewrite (f2_map _ b_id e_id _ _ VB) by (intros a b Q; apply Q). exact TN.
    - intros q id z I. apply in_map_iff in I as (b & EB & I). unfold view in EB. injection EB as <- <- <-.
      destruct (f2_in _ _ _ _ VB I) as (e & _ & (_ & Q2 & Q3 & Q4 & Q5 & Q6 & Q7)). split; [exact Q4|]. split; [|exact Q3].
      intros Z. rewrite Z in Q6. cbn [length] in Q6. lia.
    - intros x I. rewrite map_map. change (map (fun x0 => snd (fst (view val' x0))) bs) with (map b_id bs). rewrite (f2_map _ b_id e_id _ _ VB) by (intros a b Q; apply Q).
      eapply Permutation_in; [apply Permutation_map; symmetry; exact SP|]. apply (table_all xs B x FXB I).
    - assert (X : StronglySorted (fun b d => (length (val' (b_index d)) <= length (val' (b_index b)))%nat) bs).
      { eapply f2_sorted; [exact VB|exact SS|]. intros a b d e Q1 Q2 Q3. destruct Q1 as (_ & _ & _ & _ & _ & Q1 & _).
        destruct Q2 as (_ & _ & _ & _ & _ & Q2 & _). unfold e_size in *. lia. }
      eapply sorted_map; [exact X|]. intros a b Q. exact Q. }
  exists s4, (Some o), {| c_held := c_held c; c_lent := map (fun b => (i, b_index b)) bs ++ c_lent c;
         c_val := val'; c_first := first'; c_reg := c_reg c |}.
  assert (BS4 : blocks s4 o = Some bs).
  { unfold s4. cbn [blocks set_cache set_next set_blocks]. unfold fupd. now rewrite N.eqb_refl. }
  assert (CS4 : forall e, In e (cache s4) <-> In e (cache s3) \/ e = (i, o)).
  { intros e. unfold s4. cbn [cache set_cache]. rewrite in_app_iff. cbn. intuition congruence. }
  assert (BLK : forall x a, In (x, a) (cache s3) -> blocks s4 a = blocks s a).
  { intros x a X. unfold s4. cbn [blocks set_cache set_next set_blocks]. unfold fupd.
    destruct (N.eqb_spec a o) as [EO|NO]; [destruct (OC _ X EO)|]. rewrite <- (ke_blocks _ _ K12). apply (fr_block _ _ F3).
    apply (i_block _ _ _ H3). apply in_or_app. left. change a with (snd (x, a)). now apply in_map. }
  assert (STAY : forall x a, In x (c_held c ++ cidx s3) -> In (x, a) (cache s) -> In (x, a) (cache s3)).
  { intros x a X A. apply (fr_stay _ _ F3); [rewrite (ke_cache _ _ K12); exact A|]. cbn [fst]. apply LIVE3. apply in_or_app. now right. }
  split; [reflexivity|]. split.
  { eapply ef_reduce_new; eauto.
    - intros b Ib. assert (X : In (b_index b) idx) by now apply in_map. split.
      + intros Y. apply (OLD (b_index b)); [apply in_or_app; now left|exact X].
      + intros j _ Y. apply (OLD (b_index b)); [apply in_or_app; right; eapply lent_cidx; eauto|exact X].
    }
  assert (C4 : CI n s4 {| c_held := c_held c; c_lent := map (fun b => (i, b_index b)) bs ++ c_lent c;
         c_val := val'; c_first := first'; c_reg := c_reg c |}).
  { split; cbn [c_held c_lent c_val c_first c_reg].
    - exact H4.
    - intros j J. rewrite IDX4 in J. destruct (in_dec Nat.eq_dec j idx) as [X|X].
      + apply in_map_iff in X as (b & <- & X). destruct (f2_in _ _ _ _ VB X) as (e & _ & Q). apply Q.
      + rewrite EFV by exact X. assert (J2 : In j (c_held c ++ cidx s)).
        { rewrite !in_app_iff in *. destruct J as [J|[J|J]]; [tauto|right; auto|contradiction]. }
        change (data s4 j) with (data s3 j). rewrite D32, D2.
        * apply (k_val _ _ _ C _ J2).
        * eapply live_in; [exact H|]. rewrite !in_app_iff in *. tauto.
        * apply LIVE3. rewrite !in_app_iff in *. tauto.
    - intros x y I. apply in_app_or in I as [I|I].
      + apply in_map_iff in I as (b & EB & I). injection EB as <- <-. split; [exact IH|]. exists o, bs.
        split; [apply CS4; now right|]. split; [exact BS4|]. now apply in_map.
      + destruct (k_lent _ _ _ C _ _ I) as (X0 & a & bs0 & X1 & X2 & X3). split; [exact X0|].
        assert (Y : In (x, a) (cache s3)) by (apply STAY; [apply in_or_app; now left|exact X1]).
        exists a, bs0. split; [apply CS4; now left|]. rewrite (BLK _ _ Y). auto.
    - intros x a I. apply CS4 in I as [I|I].
      + pose proof (C3 _ I) as I0. destruct (k_cache _ _ _ C _ _ I0) as (t0 & ys & rs & bs0 & Q1 & Q2 & Q3).
        exists t0, ys, rs, bs0. rewrite (BLK _ _ I).
        assert (XI : ~ In x idx). { intros X. apply DEAD in X. destruct (i_clive _ _ _ H _ _ I0 X). }
        assert (XN : x <> i).
        { intros ->. apply (position_none _ _ PK). change i with (fst (i, a)). now apply in_map. }
        split; [|split; [exact Q2|]].
        * unfold first'. destruct (in_dec Nat.eq_dec x idx); [contradiction|]. destruct (Nat.eqb_spec x i); [congruence|exact Q1].
        * replace (map (view val') bs0) with (map (view (c_val c)) bs0); [exact Q3|].
          apply map_ext_in. intros b Ib. unfold view. rewrite EFV; [reflexivity|]. apply OLD. apply in_or_app. right.
          eapply cidx_in; eauto. now apply in_map.
      + injection I as -> ->. exists t, xs, (c_reg c), bs. split; [|auto]. unfold first'.
        destruct (in_dec Nat.eq_dec i idx) as [X|_]; [|now rewrite Nat.eqb_refl].
        destruct (OLD i); [apply in_or_app; now left|exact X].
    - intros j J N1. unfold first' in N1. destruct (in_dec Nat.eq_dec j idx) as [X|X]; [congruence|].
      apply in_map_iff. destruct (Nat.eqb_spec j i) as [->|NE]; [exists (i, o); split; [reflexivity|apply CS4; now right]|].
      rewrite IDX4 in J. assert (J2 : In j (c_held c ++ cidx s3)) by (rewrite !in_app_iff in *; tauto).
      assert (J3 : In j (c_held c ++ cidx s)) by (rewrite in_app_iff in *; destruct J2; auto).
      pose proof (k_first _ _ _ C _ J3 N1) as Y. apply in_map_iff in Y as ([x a] & EX2 & Y). cbn in EX2. subst x.
      exists (j, a). split; [reflexivity|]. apply CS4. left. apply STAY; auto.
    - intros q Q. change (deps s4) with (deps s3) in Q. apply in_deps in Q as (j & u & G & D).
      destruct (fr_get _ _ F3 _ _ G) as (v & G2 & _ & _ & _ & _ & S5). rewrite IDX4.
      assert (QX : (q = p \/ In q (deps s))).
      { destruct (SH2 _ _ G2) as [[_ Y]|(w & W & (_ & _ & _ & _ & S6))]; [left; congruence|right].
        assert (NJ : j <> p). { intros ->. assert (w = pv) by congruence. subst w.
          destruct (i_own _ _ _ H1 _ _ GP OP) as [Y _]. congruence. }
        rewrite GJ1 in W by exact NJ. apply in_deps. exists j, w. split; congruence. }
      assert (QL : ~ In q (c_held c) /\ ~ In q (cidx s) /\ ~ In q (map fst (cache s)) /\ ~ In q idx).
      { destruct QX as [->|Q].
        - pose proof (dead_not_in _ _ _ _ H PD) as ND. rewrite !in_app_iff in ND. split; [tauto|]. split; [tauto|]. split; [|exact NP].
          intros Y. apply in_map_iff in Y as ([x a] & EE & Y). cbn in EE. subst x. destruct (i_clive _ _ _ H _ _ Y PD).
        - destruct (k_perm _ _ _ C _ Q) as (P1 & P2 & P3). split; [exact P1|]. split; [exact P2|]. split; [exact P3|].
          intros Y. apply DEAD in Y. revert Y. eapply live_in; [exact H|]. rewrite !in_app_iff. tauto. }
      destruct QL as (L1 & L2 & L3 & L4). split; [exact L1|]. split.
      + rewrite in_app_iff. intros [Y|Y]; [apply L2; auto|contradiction].
      + intros Y. apply in_map_iff in Y as (e & EE & Y). apply CS4 in Y as [Y| ->].
        * apply L3. rewrite <- EE. apply in_map. auto.
        * cbn in EE. congruence.
    - destruct (k_rank _ _ _ C) as (rk & mx & R1 & R2).
      exists (fun j => if in_dec Nat.eq_dec j idx then mx else rk j), (S mx). split.
      { intros j. destruct (in_dec Nat.eq_dec j idx); [lia|]. pose proof (R1 j). lia. }
      intros x a bs0 b I Bb Ib. apply CS4 in I as [I|I].
      + pose proof (C3 _ I) as I0. rewrite (BLK _ _ I) in Bb.
        destruct (in_dec Nat.eq_dec x idx) as [X|_]; [apply DEAD in X; destruct (i_clive _ _ _ H _ _ I0 X)|].
        destruct (in_dec Nat.eq_dec (b_index b) idx) as [X|_]; [|apply (R2 x a bs0 b); auto].
        destruct (OLD (b_index b)); [|exact X]. apply in_or_app. right. eapply cidx_in; eauto. now apply in_map.
      + injection I as -> ->. rewrite BS4 in Bb. injection Bb as <-.
        destruct (in_dec Nat.eq_dec i idx) as [X|_]; [destruct (OLD i); [apply in_or_app; now left|exact X]|].
        destruct (in_dec Nat.eq_dec (b_index b) idx) as [_|X]; [apply R1|]. destruct X. now apply in_map.
    - change (registry s4) with (registry s3). rewrite (fr_reg _ _ F3), (ke_reg _ _ K12). apply (k_reg _ _ _ C). }
  split; [|exact C4]. apply (kept_of n); auto. intros x a bs0 X _ A Bb.
  assert (Y : In (x, a) (cache s3)) by (apply STAY; [apply in_or_app; now left|exact A]).
  split; [apply CS4; now left|]. rewrite (BLK _ _ Y). split; [exact Bb|].
  apply Forall_forall. intros b Ib.
  assert (Z : In (b_index b) (cidx s)) by (eapply cidx_in; eauto; now apply in_map).
  assert (Z3 : In (b_index b) (cidx s3)).
  { eapply cidx_in; [exact Y| |apply in_map; exact Ib]. rewrite <- Bb, <- (BLK _ _ Y). unfold s4.
    cbn [blocks set_cache set_next set_blocks]. unfold fupd. destruct (N.eqb_spec a o) as [EO|]; [destruct (OC _ Y EO)|reflexivity]. }
  change (data s4 (b_index b)) with (data s3 (b_index b)). rewrite D32, D2; [reflexivity| |].
  - eapply live_in; [exact H|]. rewrite !in_app_iff. tauto.
  - apply LIVE3. rewrite !in_app_iff. tauto.
Qed.

(** ** All operations *)
Lemma good_of n s c : CI n s c -> good s c.
Proof.
  intros C. pose proof (k_inv _ _ _ C) as H. split.
  - intros i I. apply (k_val _ _ _ C). apply in_or_app. now left.
  - intros i j _ I. apply (k_val _ _ _ C). apply in_or_app. right. eapply lent_cidx; eauto.
  - intros E. rewrite E in H. destruct (k_rank _ _ _ C) as (rk & m & R1 & R2).
    assert (X : forall r j, rk j = r -> ~ In j (cidx s)).
    { intros r. induction r as [r IHr] using (well_founded_induction lt_wf). intros j EJ J.
      unfold cidx in J. apply in_flat_map in J as ([i a] & A & J). unfold idx_of in J. cbn [snd] in J.
      destruct (blocks s a) as [bs|] eqn:B; [|destruct J]. apply in_map_iff in J as (b & EB & J).
      pose proof (R2 i a bs b A B J) as R. rewrite EB in R.
      pose proof (i_clive _ _ _ H _ _ A) as LV. destruct (get s i) as [v|] eqn:G; [|congruence].
      pose proof (in_live _ _ _ _ _ H G) as L. cbn [app] in L. apply in_app_or in L as [L|L].
      - apply (IHr (rk i)) with (j := i); auto. lia.
      - destruct (k_perm _ _ _ C _ L) as (_ & _ & P). apply P. change i with (fst (i, a)). now apply in_map. }
    assert (NL : forall i, get s i = None).
    { intros i. destruct (get s i) as [v|] eqn:G; [|reflexivity]. exfalso.
      pose proof (in_live _ _ _ _ _ H G) as L. cbn [app] in L. apply in_app_or in L as [L|L]; [eapply X; eauto|].
      apply in_deps in L as (j & u & GJ & D). pose proof (in_live _ _ _ _ _ H GJ) as L2. cbn [app] in L2.
      apply in_app_or in L2 as [L2|L2]; [eapply X; eauto|]. apply in_deps in L2 as (k & w & GK & DK).
      destruct (x_own w) eqn:OW; [destruct (i_own _ _ _ H _ _ GK OW); congruence|].
      destruct (i_sub _ _ _ H _ _ GK OW) as (p & y & l & Y1 & Y2 & Y3 & _). assert (p = j) by congruence. subst p.
      assert (y = u) by congruence. subst y. destruct (i_own _ _ _ H _ _ GJ Y3). congruence. }
    assert (CE : cache s = []).
    { destruct (cache s) as [|[i a] r] eqn:CE; [reflexivity|]. exfalso.
      apply (i_clive _ _ _ H i a); [rewrite CE; now left|apply NL]. }
    split; [exact NL|]. split; [|split; [|exact CE]].
    + intros a. destruct (bufs s a) eqn:B; [|reflexivity]. destruct (i_used _ _ _ H a) as (i & v & G & _); [congruence|].
      rewrite NL in G. discriminate.
    + intros a. destruct (blocks s a) eqn:B; [|reflexivity]. exfalso.
      assert (I : blocks s a <> None) by congruence. apply (i_block _ _ _ H) in I. rewrite CE in I. destruct I.
Qed.

Lemma set_registry_keeps s r ext pb : Inv s ext pb -> Inv (set_registry s r) ext pb.
Proof. intros H. split; apply H. Qed.

Lemma step_ok n s c o : CI n s c -> n + 1 < 2 ^ 32 - 1 -> legal c o ->
  exists s' a c', step sort s o = Ret (s', a) /\ effect c (blocks s') o a c' /\ kept sort s c s' c' /\ CI (n + 1) s' c'.
Proof.
  intros C HN LG. assert (C1 := CI_mono _ _ _ C).
  assert (K : forall s' c', CI n s' c' -> keeps s s' -> kept sort s c s' c' /\ CI (n + 1) s' c').
  { intros s' c' C' KE. split; [exact (kept_keeps n s c s' c' C C' KE)|now apply CI_mono]. }
  destruct o as [xs|i|i|i off x|t i|o]; cbn [step].
  - destruct (new_array s xs) as [s' i] eqn:E. destruct (grown n s c xs s' i C E) as (A & B & C').
    exists s', (AVar i). eexists. split; [reflexivity|]. split; [now constructor|]. apply K; [exact C'|].
    eapply new_array_ok; [apply (k_inv _ _ _ C)|exact E].
  - assert (I : In i (c_held c ++ cidx s)).
    { cbn [legal] in LG. apply in_or_app. destruct LG as [I|(j & _ & I)]; [now left|right; eapply lent_cidx; eauto]. }
    destruct (more n s c i C I) as (s' & E & KE & C' & _). rewrite E. cbn [obind].
    exists s', ANone. eexists. split; [reflexivity|]. split; [constructor|]. now apply K.
  - cbn [legal] in LG. destruct (fewer n s c i C LG) as (s' & E & F & H' & C'). rewrite E. cbn [obind].
    exists s', ANone. eexists. split; [reflexivity|]. split; [constructor|]. split; [|now apply CI_mono].
    eapply kept_of; [exact C|exact C'|]. cbn [c_held]. intros j a bs I I' A B.
    assert (A' : In (j, a) (cache s')).
    { apply (fr_stay _ _ F _ A). eapply live_in; [exact H'|]. apply in_or_app. now left. }
    split; [exact A'|].
    assert (B' : blocks s' a = Some bs).
    { rewrite <- B. apply (fr_block _ _ F). apply (i_block _ _ _ H'). apply in_or_app. left. change a with (snd (j, a)). now apply in_map. }
    split; [exact B'|]. apply Forall_forall. intros b Ib. eapply frame_data; [exact F|exact H'|].
    eapply live_in; [exact H'|]. apply in_or_app. right. apply in_or_app. left. eapply cidx_in; eauto. now apply in_map.
  - cbn [legal] in LG. destruct LG as [I LO]. pose proof (k_inv _ _ _ C) as H.
    assert (VI : data s i = Some (c_val c i)) by (apply (k_val _ _ _ C); apply in_or_app; now left).
    pose proof (held_live _ _ _ _ C I) as LV. unfold write. destruct (get s i) as [v|] eqn:G; [|congruence].
    destruct (has_buf _ _ _ _ _ H G) as (l & B & RB).
    assert (LEN : x_len v = N.of_nat (length (c_val c i))).
    { unfold data in VI. rewrite G in VI. cbn [bind] in VI. rewrite B in VI. cbn [bind] in VI. injection VI as <-.
      rewrite sub_length by exact RB. lia. }
    destruct (N.leb_spec (x_len v) off); [lia|].
    destruct (N.ltb_spec 1 (x_refs v)) as [RV|RV].
    + rewrite VI. cbn [obind fst snd]. destruct (new_array s (set_nth (N.to_nat off) x (c_val c i))) as [s' r] eqn:E.
      destruct (grown n s c _ s' r C E) as (A1 & A2 & C'). exists s', (AVar r). eexists. split; [reflexivity|].
      split; [apply ef_write_copy; auto|]. apply K; [exact C'|]. eapply new_array_ok; [exact H|exact E].
    + rewrite B. assert (CT : count i (c_held c ++ cidx s ++ deps s) = 1%nat).
      { pose proof (i_refs _ _ _ H i) as R. unfold refs_of in R. rewrite G in R. pose proof (i_pos _ _ _ H _ _ G). lia. }
      rewrite !count_app in CT. pose proof (proj1 (count_In i (c_held c)) I) as CH.
      assert (NC : ~ In i (cidx s)) by (rewrite count_In; lia). assert (ND : ~ In i (deps s)) by (rewrite count_In; lia).
      destruct (more n s c i C) as (s1 & E & KE & C' & GJ & BE); [apply in_or_app; now left|]. rewrite E. cbn [obind fst snd].
      destruct (ke_get _ _ KE _ _ G) as (v1 & G1 & (S1 & S2 & S3 & S4 & S5)).
      rewrite <- S1, <- S2.
      destruct (content n s1 _ i v1 l off x C') as (C2 & OTH).
      { now left. } { exact G1. } { rewrite (keeps_cidx _ _ KE). exact NC. }
      { intros D. apply (k_perm _ _ _ C') in D. destruct D as (D & _). apply D. now left. }
      { rewrite BE, S1. exact B. } { congruence. }
      cbn [c_held c_lent c_val c_first c_reg] in C2, OTH.
      eexists _, (AVar i). eexists. split; [reflexivity|]. split.
      { apply ef_write_here; [lia|]. intros j _ J. apply NC. eapply lent_cidx; eauto. }
      split; [|apply CI_mono; exact C2]. eapply kept_of; [exact C|exact C2|]. cbn [c_held]. intros j a bs J _ A Bb.
      split; [cbn [cache set_bufs]; rewrite (ke_cache _ _ KE); exact A|].
      split; [cbn [blocks set_bufs]; rewrite (ke_blocks _ _ KE); exact Bb|].
      apply Forall_forall. intros b Ib. assert (Z : In (b_index b) (cidx s)) by (eapply cidx_in; eauto; now apply in_map).
      rewrite OTH.
      * apply (keeps_data _ _ _ _ _ KE H). eapply live_in; [exact H|]. rewrite !in_app_iff. tauto.
      * intros EB. rewrite EB in Z. contradiction.
      * apply in_or_app. right. rewrite (keeps_cidx _ _ KE). exact Z.
  - destruct (query n s c t i C HN LG) as (s' & a & c' & E & EF & KP & C'). rewrite E. cbn [obind fst snd].
    exists s', (ABuckets a), c'. split; [reflexivity|]. split; [exact EF|]. split; [exact KP|now apply CI_mono].
  - cbn [legal] in LG.
    assert (OK : op_ok o = true).
    { destruct o; try reflexivity; cbn [op_ok]; [|destruct LG]. destruct (N.eqb_spec p 0); [congruence|reflexivity]. }
    destruct (reg_step_ok n n (registry s) (c_reg c) o (k_reg _ _ _ C) HN ltac:(lia) OK) as (r & x & rs & E & SP & HR).
    rewrite E. assert (NF : x <> OFail).
    { intros ->. inversion SP; subst; cbn in LG; try contradiction; intuition discriminate. }
    assert (C' : CI (n + 1) (set_registry s r) {| c_held := c_held c; c_lent := c_lent c; c_val := c_val c; c_first := c_first c; c_reg := rs |}).
    { pose proof (set_registry_keeps s r _ _ (k_inv _ _ _ C)) as HI. destruct C. split; cbn [c_held c_lent c_val c_first c_reg]; auto. }
    exists (set_registry s r), (AReg x). eexists. split; [destruct x; try reflexivity; congruence|].
    split; [constructor; exact SP|]. split; [|exact C'].
    eapply kept_of; [exact C1|exact C'|]. cbn [c_held]. intros j a bs _ _ A B. split; [exact A|]. split; [exact B|].
    apply Forall_forall. reflexivity.
Qed.

Lemma served_ok os : forall n s c, CI n s c -> n + N.of_nat (length os) < 2 ^ 32 - 1 -> served sort s c os.
Proof.
  induction os as [|o os IH]; intros n s c C HN; [constructor; eapply good_of; eauto|]. cbn [length] in HN.
  constructor; [eapply good_of; eauto|]. intros LG.
  destruct (step_ok n s c o C ltac:(lia) LG) as (s' & a & c' & E & EF & KP & C').
  exists s', a, c'. split; [exact E|]. split; [exact EF|]. split; [exact KP|]. apply (IH (n + 1)); [exact C'|lia].
Qed.
End RUN.
