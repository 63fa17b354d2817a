(** Scatter-reductions. *)
From Verif Require Import Base Bits Par_Model Red_Model Red_Spec Red_Proofs Red_Laws Sred_Model Sred_Spec.
Local Open Scope N_scope.

Lemma in_lanes w k : In k (lane_list w) <-> k < w.
Proof.
  unfold lane_list. rewrite in_map_iff. split.
  - intros (x & <- & I). apply in_seq in I. lia.
  - intros B. exists (N.to_nat k). split; [lia|]. apply in_seq. lia.
Qed.
Lemma bits_spec w f k : N.testbit (bits w f) k = (k <? w) && f k.
Proof.
  unfold bits.
  assert (G : forall l, N.testbit (fold_right (fun k acc => if f k then N.lor (N.shiftl 1 k) acc else acc) 0 l) k = existsb (fun x => (x =? k) && f k) l).
  { induction l as [|x l IH]; [apply N.bits_0|]. cbn [fold_right existsb]. destruct (N.eqb_spec x k) as [->|Ne]; cbn [andb].
    - destruct (f k) eqn:E; cbn [orb]; [|exact IH]. rewrite N.lor_spec, N.shiftl_1_l, N.pow2_bits_true. reflexivity.
    - cbn [orb]. destruct (f x); [|exact IH]. rewrite N.lor_spec, N.shiftl_1_l, N.pow2_bits_false by assumption. exact IH. }
  rewrite G. destruct (N.ltb_spec k w) as [B|B]; cbn [andb].
  - destruct (f k) eqn:E.
    + apply existsb_exists. exists k. split; [now apply in_lanes|]. rewrite N.eqb_refl. reflexivity.
    + apply Bool.not_true_iff_false. intros H. apply existsb_exists in H as (x & _ & H). rewrite Bool.andb_false_r in H. discriminate.
  - apply Bool.not_true_iff_false. intros H. apply existsb_exists in H as (x & I & H). apply in_lanes in I. apply Bool.andb_true_iff in H as [H _]. apply N.eqb_eq in H. lia.
Qed.
Lemma land_bit i m : N.land (N.shiftl 1 i) m =? 0 = negb (N.testbit m i).
Proof.
  rewrite N.shiftl_1_l. destruct (N.testbit m i) eqn:E; cbn [negb].
  - apply N.eqb_neq. intros H. assert (X : N.testbit (N.land (2 ^ i) m) i = true) by (rewrite N.land_spec, N.pow2_bits_true; exact E). rewrite H, N.bits_0 in X. discriminate.
  - apply N.eqb_eq. apply N.bits_inj. intros k. rewrite N.land_spec, N.bits_0. destruct (N.eq_dec i k) as [->|Ne]; [rewrite E; apply Bool.andb_false_r|].
    rewrite N.pow2_bits_false by assumption. reflexivity.
Qed.
Lemma nonzero_bit x : x <> 0 -> exists k, N.testbit x k = true.
Proof. intros H. exists (N.log2 x). now apply N.bit_log2. Qed.

Section At.
Context {V : Type}.
Definition at_addr (a : N) (us : list (N * V)) : list V := map snd (filter (fun u => fst u =? a) us).
Lemma at_app a us vs : at_addr a (us ++ vs) = at_addr a us ++ at_addr a vs.
Proof. unfold at_addr. now rewrite filter_app, map_app. Qed.
Lemma at_cons a p v us : at_addr a ((p, v) :: us) = (if p =? a then [v] else []) ++ at_addr a us.
Proof. unfold at_addr. cbn [filter fst]. destruct (p =? a); reflexivity. Qed.
End At.

(** ** Kernels *)
Section Kernels.
Context {V : Type}.
Variable w : N.
Variable ok : V -> Prop.
Variables (op : V -> V -> V) (ident : V) (differs : V -> V -> bool) (shift : N).
Hypothesis E : exact_op ok op ident.
Hypothesis Dif : forall v, ok v -> differs ident v = false -> v = ident.
Notation block := (block (V := V)).
Notation sum xs := (fold_left op xs ident).

Lemma direct_ok (b : block) a : at_addr a (direct w (b_ptr b) (b_val b) (b_active b)) = contribs w b a.
Proof using. clear -w.
  unfold direct, contribs. generalize 0. generalize (N.to_nat w) as c. induction c as [|c IH]; intros i; cbn [direct_loop contrib]; [reflexivity|].
  rewrite land_bit. destruct (N.testbit (b_active b) i); cbn [negb andb]; [|apply IH]. rewrite at_cons, IH. reflexivity.
Qed.
Lemma direct_addr (b : block) p v : In (p, v) (direct w (b_ptr b) (b_val b) (b_active b)) -> exists k, k < w /\ N.testbit (b_active b) k = true /\ p = b_ptr b k /\ v = b_val b k.
Proof using. clear -w.
  unfold direct. intros H. assert (G : forall c i, In (p, v) (direct_loop c i (b_ptr b) (b_val b) (b_active b)) -> exists k, i <= k < i + N.of_nat c /\ N.testbit (b_active b) k = true /\ p = b_ptr b k /\ v = b_val b k).
  { induction c as [|c IH]; intros i; cbn [direct_loop]; [intros []|]. rewrite land_bit. destruct (N.testbit (b_active b) i) eqn:Ei; cbn [negb].
    - intros [H'|H']; [injection H' as <- <-; exists i; repeat split; auto; lia|]. destruct (IH _ H') as (k & B & R). exists k. split; [lia|exact R].
    - intros H'. destruct (IH _ H') as (k & B & R). exists k. split; [lia|exact R]. }
  destruct (G _ _ H) as (k & B & R). exists k. split; [lia|exact R].
Qed.

Lemma contrib_filter (b : block) a : contribs w b a = map (b_val b) (filter (fun k => N.testbit (b_active b) k && (b_ptr b k =? a)) (lane_list w)).
Proof using. clear -w.
  unfold contribs, lane_list. change (seq 0 (N.to_nat w)) with (seq (N.to_nat 0) (N.to_nat w)). generalize 0. generalize (N.to_nat w) as c. induction c as [|c IH]; intros i; cbn [contrib seq map filter]; [reflexivity|].
  rewrite N2Nat.id. rewrite IH. replace (N.to_nat (i + 1)) with (S (N.to_nat i)) by lia. destruct (N.testbit (b_active b) i && _); reflexivity.
Qed.
Lemma sum_ids (l : list N) (f : N -> bool) (val : N -> V) : Forall (fun k => ok (val k)) l -> forall x, ok x ->
  fold_left op (map (fun k => if f k then ident else val k) l) x = fold_left op (map val (filter (fun k => negb (f k)) l)) x.
Proof.
  induction 1 as [|k l Hk HF IH]; intros x Hx; [reflexivity|]. cbn [map fold_left filter]. destruct (f k); cbn [negb].
  - rewrite (eo_r _ _ _ E x Hx). now apply IH.
  - cbn [map fold_left]. apply IH. apply E; assumption.
Qed.
Lemma vreduce_sum l : Forall ok l -> vreduce op ident l = sum l.
Proof. intros H. destruct H as [|x l Hx HF]; [reflexivity|]. cbn [vreduce fold_left]. now rewrite (eo_l _ _ _ E x Hx). Qed.

Section Block.
Variable b : block.
Notation act k := (N.testbit (b_active b) k).
Notation lo k := (u32 (N.shiftr (b_ptr b k) shift)).
Hypothesis Vok : forall k, k < w -> ok (b_val b k).
Hypothesis Inj : forall k k', k < w -> k' < w -> act k = true -> act k' = true -> lo k = lo k' -> b_ptr b k = b_ptr b k'.
Hypothesis Zero : forall k k', k < w -> k' < w -> act k = true -> act k' = false -> lo k <> 0.
Let lo3 (k : N) := if act k then lo k else 0.

Definition group (A a : N) : V := if existsb (fun k => N.testbit A k && (b_ptr b k =? a)) (lane_list w) then sum (contribs w b a) else ident.
Lemma contribs_all a : Forall ok (contribs w b a).
Proof. rewrite contrib_filter. apply Forall_map, Forall_forall. intros k I. apply filter_In in I as [I _]. apply Vok. now apply in_lanes. Qed.

Lemma loop_ok : forall fuel A i, (N.to_nat (w - i) < fuel)%nat -> i <= w -> (forall k, N.testbit A k = true -> i <= k < w /\ act k = true) ->
  exists us, local_loop w op ident shift fuel (b_ptr b) (b_val b) lo3 A (if i <? w then 2 ^ i else 0) i = Some us /\
    (forall a, sum (at_addr a us) = group A a) /\
    (forall p v, In (p, v) us -> ok v /\ exists k, k < w /\ act k = true /\ p = b_ptr b k).
Proof.
  induction fuel as [|fuel IH]; intros A i Bf Bi HA; [lia|]. cbn [local_loop]. destruct (N.eqb_spec A 0) as [->|NA].
  { exists []. split; [reflexivity|]. split; [|intros ? ? []]. intros a. unfold group. rewrite (proj1 (Bool.not_true_iff_false _)); [reflexivity|].
    intros H. apply existsb_exists in H as (k & _ & H). rewrite N.bits_0 in H. discriminate. }
  destruct (nonzero_bit A NA) as [k0 H0]. pose proof (HA k0 H0) as [B0 _].
  destruct (N.ltb_spec i w) as [Lt|]; [|lia].
  assert (Nx : N.land (N.shiftl (2 ^ i) 1) (N.ones w) = if i + 1 <? w then 2 ^ (i + 1) else 0).
  { rewrite N.land_ones, N.shiftl_mul_pow2. change (2 ^ 1) with 2. replace (2 ^ i * 2) with (2 ^ (i + 1)) by (rewrite N.pow_add_r; reflexivity).
    destruct (N.ltb_spec (i + 1) w) as [L|L].
    - apply N.mod_small. apply N.pow_lt_mono_r; lia.
    - replace (i + 1) with w by lia. apply N.mod_same. apply N.pow_nonzero. discriminate. }
  rewrite Nx. clear Nx. rewrite <- (N.shiftl_1_l i), land_bit.
  destruct (N.testbit A i) eqn:Ai; cbn [negb].
  2: { apply IH; [lia|lia|]. intros k Hk. destruct (HA k Hk) as [Bk Hk']. split; [|assumption]. assert (k <> i) by (intros ->; congruence). lia. }
  destruct (N.leb_spec w i); [lia|]. destruct (HA i Ai) as [_ Acti].
  set (diff := fun k => negb (lo i =? lo3 k)). set (A' := N.land A (bits w diff)).
  assert (Same : forall k, k < w -> diff k = negb (act k && (b_ptr b k =? b_ptr b i))).
  { intros k Bk. unfold diff, lo3. f_equal. destruct (act k) eqn:Ek; cbn [andb].
    - destruct (N.eqb_spec (b_ptr b k) (b_ptr b i)) as [->|Ne]; [apply N.eqb_refl|]. apply N.eqb_neq. intros H'. apply Ne. symmetry. now apply Inj.
    - apply N.eqb_neq. now apply (Zero i k). }
  assert (HA' : forall k, N.testbit A' k = N.testbit A k && negb (b_ptr b k =? b_ptr b i)).
  { intros k. unfold A'. rewrite N.land_spec, bits_spec. destruct (N.testbit A k) eqn:Ek; cbn [andb]; [|reflexivity]. destruct (HA k Ek) as [[_ Bk] Hk].
    destruct (N.ltb_spec k w); [|lia]. cbn [andb]. rewrite Same by assumption. rewrite Hk. reflexivity. }
  destruct (IH A' (i + 1) ltac:(lia) ltac:(lia)) as (us & -> & Hs & Hu).
  { intros k Hk. rewrite HA' in Hk. apply Bool.andb_true_iff in Hk as [Hk Hn]. destruct (HA k Hk) as [Bk Hk']. split; [|assumption].
    assert (k <> i) by (intros ->; rewrite N.eqb_refl in Hn; discriminate). lia. }
  cbn [bind]. match goal with |- context [vreduce op ident ?l] => change l with (map (fun k => if diff k then ident else b_val b k) (lane_list w)) end.
  set (ro := vreduce op ident _). eexists. split; [reflexivity|].
  assert (Rok : Forall ok (map (fun k => if diff k then ident else b_val b k) (lane_list w))).
  { apply Forall_map, Forall_forall. intros k I. apply in_lanes in I. destruct (diff k); [apply E|now apply Vok]. }
  assert (Red : ro = sum (contribs w b (b_ptr b i))).
  { unfold ro. rewrite vreduce_sum by assumption. rewrite sum_ids; [|apply Forall_forall; intros k I; apply Vok; now apply in_lanes|apply E].
    rewrite contrib_filter. do 2 f_equal. apply filter_ext_in. intros k I. apply in_lanes in I. rewrite Same by assumption. apply Bool.negb_involutive. }
  assert (Oks : Forall ok (map snd us)). { apply Forall_map, Forall_forall. intros [p v] I. apply (Hu p v I). }
  split.
  - intros a. rewrite at_cons. rewrite fold_left_app. rewrite (fold_from ok op ident E).
    2: { unfold at_addr. apply Forall_map, Forall_forall. intros [p v] I. apply filter_In in I as [I _]. apply (Hu p v I). }
    2: { destruct (_ =? a); [cbn [fold_left]; apply E; [apply E|rewrite Red; apply (fold_ok ok op ident E); [apply contribs_all|apply E]]|apply E]. }
    rewrite Hs. unfold group. destruct (N.eqb_spec (b_ptr b i) a) as [<-|Ne].
    + cbn [fold_left]. rewrite Red.
      rewrite (proj1 (Bool.not_true_iff_false (existsb (fun k => N.testbit A' k && _) _))).
      2: { intros H'. apply existsb_exists in H' as (k & _ & H'). rewrite HA' in H'. destruct (b_ptr b k =? b_ptr b i); cbn [negb] in H'; rewrite ?Bool.andb_false_r in H'; discriminate. }
      rewrite (proj2 (existsb_exists (fun k => N.testbit A k && (b_ptr b k =? b_ptr b i)) (lane_list w))).
      2: { exists i. split; [now apply in_lanes|]. rewrite Ai, N.eqb_refl. reflexivity. }
      rewrite (eo_l _ _ _ E); [|apply (fold_ok ok op ident E); [apply contribs_all|apply E]]. apply (eo_r _ _ _ E). apply (fold_ok ok op ident E); [apply contribs_all|apply E].
    + cbn [fold_left]. rewrite (eo_l _ _ _ E); [|destruct (existsb _ _); [apply (fold_ok ok op ident E); [apply contribs_all|apply E]|apply E]].
      replace (existsb (fun k => N.testbit A' k && (b_ptr b k =? a)) (lane_list w)) with (existsb (fun k => N.testbit A k && (b_ptr b k =? a)) (lane_list w)); [reflexivity|].
      clear -HA' Ne. induction (lane_list w) as [|k l IH]; [reflexivity|]. cbn [existsb]. rewrite IH. apply (f_equal2 orb); [|reflexivity]. rewrite HA'.
      destruct (N.eqb_spec (b_ptr b k) a) as [->|]; [|now rewrite !Bool.andb_false_r]. destruct (N.eqb_spec a (b_ptr b i)); [congruence|]. cbn [negb]. now destruct (N.testbit A k).
  - intros p v [I|I]; [|now apply Hu]. injection I as <- <-. split; [|now exists i]. rewrite Red. apply (fold_ok ok op ident E); [apply contribs_all|apply E].
Qed.

Theorem local_ok : exists us, local w op ident differs shift (S (N.to_nat w)) (b_ptr b) (b_val b) (b_active b) = Some us /\
    (forall a, sum (at_addr a us) = sum (contribs w b a)) /\
    (forall p v, In (p, v) us -> ok v /\ exists k, k < w /\ act k = true /\ p = b_ptr b k).
Proof.
  unfold local. set (A := N.land (bits w (fun k => differs ident (b_val b k))) (b_active b)).
  assert (HA : forall k, N.testbit A k = (k <? w) && differs ident (b_val b k) && act k) by (intros k; unfold A; now rewrite N.land_spec, bits_spec).
  replace (N.land 1 (N.ones w)) with (if 0 <? w then 2 ^ 0 else 0).
  2: { rewrite N.land_ones. destruct (N.ltb_spec 0 w) as [B|B]; [symmetry; apply N.mod_small; apply N.pow_gt_1; lia|replace w with 0 by lia; reflexivity]. }
  destruct (loop_ok (S (N.to_nat w)) A 0 ltac:(lia) ltac:(lia)) as (us & Eq & Hs & Hu).
  { intros k Hk. rewrite HA in Hk. apply Bool.andb_true_iff in Hk as [Hk Ha]. apply Bool.andb_true_iff in Hk as [Hk _]. apply N.ltb_lt in Hk. split; [lia|assumption]. }
  exists us. split; [exact Eq|]. split; [|exact Hu]. intros a. rewrite Hs. unfold group. destruct (existsb _ _) eqn:Ex; [reflexivity|].
  (* all contributions are neutral *)
  assert (Id : Forall (fun v => v = ident) (contribs w b a)).
  { rewrite contrib_filter. apply Forall_map, Forall_forall. intros k I. apply filter_In in I as [I C]. apply Bool.andb_true_iff in C as [C1 C2].
    apply in_lanes in I as Bk. apply Dif; [now apply Vok|]. destruct (differs ident (b_val b k)) eqn:D; [exfalso|reflexivity].
    apply Bool.not_true_iff_false in Ex. apply Ex. apply existsb_exists. exists k. split; [assumption|]. rewrite HA, D, C1, C2. apply N.ltb_lt in Bk. rewrite Bk. reflexivity. }
  clear -Id E. induction Id as [|v l -> _ IH]; [reflexivity|]. cbn [fold_left]. rewrite (eo_l _ _ _ E) by apply E. exact IH.
Qed.
End Block.
End Kernels.
