(** Work units of launches, independence of the text from the data, kernel cache *)
From Verif Require Import Base Arith_Model Arith_Proofs Launch_Model Launch_Proofs Asm_Model Asm_Spec.
Local Open Scope N_scope.

Lemma nseq_seq : forall n a, map N.of_nat (seq a n) = nseq (N.of_nat a) n.
Proof.
  induction n as [|n IH]; intros a; [reflexivity|]. cbn [seq map nseq]. f_equal. rewrite IH. f_equal. lia.
Qed.

Lemma work_units w param : forall idxs pk, run_units w param idxs = Some pk ->
  exists us, llvm_work w param idxs = Some us /\ concat (map fst us) = pk /\
    forall ps e, In (ps, e) us -> exists i, In i idxs /\ launch_callback w param i = Some ps /\ e = unit_end param i.
Proof.
  induction idxs as [|i r IH]; intros pk H; cbn [run_units llvm_work] in *.
  - injection H as <-. exists []. split; [reflexivity|]. split; [reflexivity|]. intros ps e [].
  - destruct (launch_callback w param i) as [ps|] eqn:C; [|discriminate]. cbn [bind] in *.
    destruct (run_units w param r) as [q|]; [|discriminate]. cbn [bind] in *. injection H as <-.
    destruct (IH q eq_refl) as (us & -> & E & K). exists ((ps, unit_end param i) :: us). cbn [bind].
    split; [reflexivity|]. cbn [map fst concat]. split; [now rewrite E|].
    intros ps' e [Q|Q].
    + injection Q as <- <-. exists i. split; [now left|auto].
    + destruct (K _ _ Q) as (i' & I & R). exists i'. split; [now right|exact R].
Qed.

Lemma steps_NoDup w n : 0 < w -> forall a, NoDup (steps w a n).
Proof.
  intros W. induction n as [|n IH]; intros a; cbn [steps]; constructor; [|apply IH].
  intros Q. apply steps_In in Q as (j & _ & Q). lia.
Qed.

Lemma llvm_units_ok w desired cores size k :
  0 < w < 2 ^ 32 -> desired = k * w -> 0 < desired -> 0 < size ->
  size + desired <= 2 ^ 32 -> size + 2 * cores * w + w <= 2 ^ 32 ->
  exists units, llvm_units w desired cores size = Some units /\ units_ok LLVM size w units.
Proof.
  intros Hw Hd Hd0 Hs H1 H2.
  destruct (plan_ok w desired cores size k ltac:(lia) Hd Hd0 Hs H1 H2) as (blocks & bs & E & Hb & Hcov & Hcase).
  assert (P : Permutation (map N.of_nat (seq 0 (N.to_nat blocks))) (nseq 0 (N.to_nat blocks))).
  { rewrite nseq_seq. apply Permutation_refl. }
  destruct (launch_exactly_once w desired cores size k _ Hw Hd Hd0 Hs H1 H2 _ _ E P) as (pk & L & PK).
  destruct (launch_hits w desired cores size k _ Hw Hd Hd0 Hs H1 H2 _ _ E P) as (pk' & L' & HIT & LT).
  rewrite L in L'. injection L' as <-.
  unfold launch in L. rewrite E in L. cbn [bind snd] in L.
  destruct (work_units _ _ _ _ L) as (us & U1 & U2 & U3).
  exists us. unfold llvm_units. rewrite E. cbn [bind fst snd]. split; [exact U1|]. constructor.
  - rewrite U2. apply (Permutation_NoDup (Permutation_sym PK)). apply steps_NoDup. lia.
  - intros lane LN. rewrite U2. specialize (HIT lane LN). unfold hits in HIT.
    destruct (filter (fun p => (p <=? lane) && (lane <? p + w)) pk) as [|p l] eqn:F; [discriminate|].
    assert (I : In p (filter (fun p => (p <=? lane) && (lane <? p + w)) pk)) by (rewrite F; now left).
    apply filter_In in I as [I Q]. exists p. split; [exact I|]. lia.
  - intros ps e p I Q.
    assert (PI : In p pk). { rewrite <- U2. apply in_concat. exists ps. split; [apply in_map_iff; exists (ps, e); auto|exact Q]. }
    destruct (LT p PI) as [PS PM]. split; [exact PM|]. split.
    + unfold lanes. apply N.mod_divide in PM; [|lia]. destruct PM as [a ->].
      replace (a * w + w) with ((a + 1) * w) by lia. apply N.mul_le_mono_r.
      apply N.div_le_lower_bound; lia.
    + intros _. destruct (U3 _ _ I) as (i & II & C & ->).
      apply in_map_iff in II as (i0 & <- & II). apply in_seq in II.
      unfold unit_end. destruct (launch_param_lo bs size Hb ltac:(lia)) as [-> ->].
      split; [lia|].
      assert (NW : N.of_nat i0 * bs < 2 ^ 32 /\ (N.of_nat i0 * bs < size -> N.of_nat i0 * bs + bs < 2 ^ 32)).
      { destruct Hcase as [[-> ->]|[_ Hi]]; [|apply Hi; lia].
        assert (i0 = 0)%nat by lia. subst i0. lia. }
      destruct NW as [NW1 NW2]. rewrite callback_steps in C by (trivial; lia).
      injection C as C. destruct (N.ltb_spec (N.of_nat i0 * bs) size) as [LI|]; [|subst ps; destruct Q].
      rewrite (u32_small (N.of_nat i0 * bs)) by exact NW1. rewrite u32_small by auto.
      destruct (N.le_gt_cases size (N.of_nat i0 * bs + bs)) as [GE|GE]; [right; lia|]. left.
      rewrite N.min_l by lia. split; [|lia]. rewrite N.min_l in C by lia. subst ps.
      apply steps_In in Q as (j & J & ->). rewrite N2Nat.id in J.
      destruct Hcase as [[-> ->]|[[k' ->] _]]; [lia|].
      replace (N.of_nat i0 * (k' * w) + k' * w - N.of_nat i0 * (k' * w)) with (k' * w) in J by lia.
      rewrite cdiv_mul_small in J by lia.
      assert ((j + 1) * w <= k' * w) by (apply N.mul_le_mono_r; lia). lia.
Qed.

(** Threads of a GPU launch *)
Lemma gpu_units_ok b size params threads : b <> LLVM -> 0 < size < 2 ^ 32 -> nth 0 params 0 = size ->
  NoDup threads -> (forall i, i < size -> In i threads) -> units_ok b size 1 (gpu_units params threads).
Proof.
  intros NB SZ P0 ND COV. unfold gpu_units. rewrite P0.
  assert (U : u32 size = size) by (unfold u32; apply N.mod_small; lia). rewrite U.
  assert (E : forall l, concat (map fst (map (fun i => (if size <=? i then [] else [i], 0)) l)) = filter (fun i => i <? size) l).
  { induction l as [|i l IH]; [reflexivity|]. cbn [map concat fst filter]. rewrite IH.
    destruct (N.leb_spec size i), (N.ltb_spec i size); try lia; reflexivity. }
  constructor.
  - rewrite E. now apply NoDup_filter.
  - intros lane L. rewrite E. exists lane. split; [|lia]. apply filter_In. split; [auto|]. now apply N.ltb_lt.
  - intros ps e p I Q. apply in_map_iff in I as (i & X & _). injection X as <- <-.
    destruct (N.leb_spec size i); [destruct Q|]. destruct Q as [<-|[]].
    split; [apply N.mod_1_r|]. split; [|intros; congruence].
    unfold lanes. destruct b; [congruence|lia|lia].
Qed.

(** * The text does not depend on the data. *)
Section SHAPE.
Variable b : backend.
Variable w size1 size2 cb1 cb2 : N.
Variable malloc1 malloc2 : nat -> N -> option N.
Variable f : N -> N.
Hypothesis INJ : forall x y, f x = f y -> x = y.
Hypothesis Z1 : 0 < size1.
Hypothesis Z2 : 0 < size2.

Notation shape := (same_shape size1 size2 f).
Definition plain (v : var) : Prop :=
  (v_type v = T_Pointer -> v_out v = false /\ v_size v = 1) /\ (v_size v = 1 \/ v_size v = size1).

Definition same_slot (s1 s2 : slot) : Prop :=
  shape (s_var s1) (s_var s2) /\ plain (s_var s1) /\ s_ptype s2 = s_ptype s1 /\ s_off s2 = s_off s1 /\
  s_reg s2 = s_reg s1 /\ (v_size (s_var s2) = 1 \/ v_size (s_var s2) = size2) /\
  (s_ptype s1 <> Input -> is_lit (s_var s1) = true -> v_type (s_var s1) <> T_Pointer).

Definition same_state (s1 s2 : state) : Prop :=
  length (a_params s2) = length (a_params s1) /\ a_write s2 = a_write s1 /\ a_regs s2 = a_regs s1 /\
  length (a_bufs s2) = length (a_bufs s1) /\ Forall2 same_slot (a_slots s1) (a_slots s2).

Lemma same_eqb v1 v2 : shape v1 v2 -> (v_size v2 =? 1) = (v_size v1 =? 1) /\ (v_size v2 =? size2) = (v_size v1 =? size1).
Proof.
  intros (_ & _ & _ & _ & _ & A & B & _). split.
  - destruct (N.eqb_spec (v_size v2) 1), (N.eqb_spec (v_size v1) 1); tauto.
  - destruct (N.eqb_spec (v_size v2) size2), (N.eqb_spec (v_size v1) size1); tauto.
Qed.

Lemma same_add s1 s2 v1 v2 p o q1 q2 b1 b2 : same_state s1 s2 -> shape v1 v2 -> plain v1 ->
  (v_size v2 = 1 \/ v_size v2 = size2) -> map snd q2 = map snd q1 -> length b2 = length b1 ->
  (p <> Input -> is_lit v1 = true -> v_type v1 <> T_Pointer) ->
  same_state (add_slot s1 v1 p o q1 b1) (add_slot s2 v2 p o q2 b2).
Proof.
  intros (A & B & C & D & E) S P ZZ Q L R. unfold add_slot, same_state.
  cbn [a_params a_write a_regs a_bufs a_slots]. rewrite !app_length, !map_length.
  assert (length q2 = length q1) by (rewrite <- (map_length snd q2), Q; apply map_length).
  split; [lia|]. split; [congruence|]. split; [congruence|]. split; [lia|].
  apply Forall2_app; [exact E|]. constructor; [|constructor]. unfold same_slot.
  cbn [s_var s_ptype s_off s_reg]. auto 10.
Qed.

Lemma same_place s1 s2 v1 v2 t1 t2 : same_state s1 s2 -> shape v1 v2 ->
  (v_type v1 = T_Pointer -> v_out v1 = false /\ v_size v1 = 1) ->
  place b w size1 malloc1 s1 v1 = Done t1 -> place b w size2 malloc2 s2 v2 = Done t2 -> same_state t1 t2.
Proof.
  intros ST S P H1 H2. unfold place in H1, H2.
  destruct (same_eqb _ _ S) as [E1 E2]. rewrite E1, E2 in H2.
  destruct ((v_size v1 =? 1) || (v_size v1 =? size1)) eqn:SZ; cbn [negb] in H1, H2; [|discriminate].
  assert (PL : plain v1). { split; [exact P|]. apply orb_prop in SZ as [Q|Q]; apply N.eqb_eq in Q; auto. }
  assert (ZZ : v_size v2 = 1 \/ v_size v2 = size2).
  { rewrite <- E1, <- E2 in SZ. apply orb_prop in SZ as [Q|Q]; apply N.eqb_eq in Q; auto. }
  assert (EO : length (a_params s2) = length (a_params s1)) by apply ST. rewrite EO in H2.
  pose proof S as (_ & TY & OUT & _ & _ & _ & _ & KD). rewrite OUT, TY in H2.
  assert (NP : v_out v1 = true -> v_type v1 <> T_Pointer).
  { intros O TP. destruct (P TP). congruence. }
  destruct (v_kind v1) as [d1|l1| |c1|o1 d1 c1] eqn:K1; destruct (v_kind v2) as [d2|l2| |c2|o2 d2 c2] eqn:K2;
    try contradiction;
    [injection H1 as <-; injection H2 as <-; apply same_add; trivial; congruence | | | |];
    (destruct (v_out v1 && (v_size v1 =? size1)) eqn:OO;
     [destruct (malloc1 _ _) as [p1|]; [|discriminate]; destruct (malloc2 _ _) as [p2|]; [|discriminate];
      injection H1 as <-; injection H2 as <-; apply same_add; trivial;
      intros _ _; apply NP; now apply andb_prop in OO as [OO _]|]).
  - destruct (N.eqb_spec (v_type v1) T_Pointer) as [TP|TP]; injection H1 as <-; injection H2 as <-;
      apply same_add; trivial; congruence.
  - injection H1 as <-; injection H2 as <-; apply same_add; trivial. intros _. unfold is_lit. rewrite K1. discriminate.
  - injection H1 as <-; injection H2 as <-; apply same_add; trivial. intros _. unfold is_lit. rewrite K1. discriminate.
  - injection H1 as <-; injection H2 as <-; apply same_add; trivial. intros _. unfold is_lit. rewrite K1. discriminate.
Qed.

Lemma same_place_all g1 g2 : Forall2 shape g1 g2 ->
  (forall v, In v g1 -> v_type v = T_Pointer -> v_out v = false /\ v_size v = 1) ->
  forall s1 s2 t1 t2, same_state s1 s2 ->
  place_all b w size1 malloc1 s1 g1 = Done t1 -> place_all b w size2 malloc2 s2 g2 = Done t2 -> same_state t1 t2.
Proof.
  induction 1 as [|v1 v2 g1 g2 S F IH]; intros P s1 s2 t1 t2 ST H1 H2; cbn [place_all] in H1, H2.
  - injection H1 as <-. now injection H2 as <-.
  - destruct (place b w size1 malloc1 s1 v1) as [u1| |] eqn:E1; try discriminate.
    destruct (place b w size2 malloc2 s2 v2) as [u2| |] eqn:E2; try discriminate.
    eapply IH; [intros v V; apply P; now right| |exact H1|exact H2].
    eapply same_place; eauto. apply P. now left.
Qed.

Lemma same_calls g1 g2 : Forall2 shape g1 g2 -> needs_calls g2 = needs_calls g1.
Proof.
  unfold needs_calls. induction 1 as [|v1 v2 g1 g2 S F IH]; [reflexivity|]. cbn [existsb]. rewrite IH. f_equal.
  destruct S as (_ & _ & _ & _ & _ & _ & _ & KD). unfold is_call.
  destruct (v_kind v1), (v_kind v2); try contradiction; try reflexivity. now destruct KD as (_ & _ & ->).
Qed.

Lemma same_dep l1 l2 d : Forall2 same_slot l1 l2 -> dep_name b l2 (f d) = dep_name b l1 d.
Proof.
  unfold dep_name. induction 1 as [|s1 s2 l1 l2 S F IH]; [reflexivity|]. cbn [find].
  destruct S as (S & _ & _ & _ & RG & _). pose proof S as (ID & TY & _). rewrite ID.
  destruct (N.eqb_spec (v_id (s_var s1)) d) as [->|NE].
  - rewrite N.eqb_refl. now rewrite TY, RG.
  - destruct (N.eqb_spec (f (v_id (s_var s1))) (f d)) as [Q|_]; [now apply INJ in Q|exact IH].
Qed.

Lemma same_several s1 s2 : same_slot s1 s2 -> (1 <? v_size (s_var s2)) = (1 <? v_size (s_var s1)).
Proof.
  intros (S & (_ & P) & _ & _ & _ & Q & _). destruct S as (_ & _ & _ & _ & _ & A & _).
  destruct (N.ltb_spec 1 (v_size (s_var s2))), (N.ltb_spec 1 (v_size (s_var s1))); trivial; lia.
Qed.

Lemma same_render k1 k2 s1 s2 : Forall2 same_slot (k_slots k1) (k_slots k2) -> k_base k2 = k_base k1 ->
  same_slot s1 s2 -> (is_lit (s_var s1) = true -> v_type (s_var s1) <> T_Pointer) ->
  render b k2 s2 = render b k1 s1.
Proof.
  intros F B (S & P & _ & _ & RG & _) LT. pose proof S as (ID & TY & _ & SD & _ & _ & _ & KD).
  unfold render. rewrite TY, RG, SD, B.
  destruct (v_kind (s_var s1)) as [d1|l1| |c1|o1 d1 c1] eqn:K1; destruct (v_kind (s_var s2)) as [d2|l2| |c2|o2 d2 c2];
    try contradiction; trivial.
  - destruct KD as [TP| ->]; [|reflexivity]. unfold is_lit in LT. rewrite K1 in LT. now elim (LT eq_refl).
  - rewrite KD. now rewrite (same_dep _ _ _ F).
  - destruct KD as (-> & -> & ->). rewrite map_map.
    rewrite (map_ext (fun x => dep_name b (k_slots k2) (f x)) (dep_name b (k_slots k1))); [reflexivity|].
    intros d. now apply same_dep.
Qed.

Lemma same_is v1 v2 : shape v1 v2 -> is_lit v2 = is_lit v1 /\ is_eval v2 = is_eval v1.
Proof.
  intros (_ & _ & _ & _ & _ & _ & _ & KD). unfold is_lit, is_eval.
  destruct (v_kind v1), (v_kind v2); try contradiction; auto.
Qed.

Lemma same_code k1 k2 s1 s2 : Forall2 same_slot (k_slots k1) (k_slots k2) -> k_base k2 = k_base k1 ->
  same_slot s1 s2 -> slot_code b w k2 s2 = slot_code b w k1 s1.
Proof.
  intros F B S. pose proof (same_several _ _ S) as SEV.
  assert (RD : s_ptype s1 <> Input -> render b k2 s2 = render b k1 s1).
  { intros NI. apply same_render; trivial. now apply S. }
  pose proof S as (SH & (PP & _) & PT & OF & RG & _ & _).
  destruct (same_is _ _ SH) as [IL IE]. destruct (same_eqb _ _ SH) as [E1 _].
  pose proof SH as (_ & TY & _ & _ & UN & _ & _ & KD).
  assert (AS : align_s (s_var s2) = align_s (s_var s1)) by (unfold align_s; now rewrite UN, TY).
  assert (AV : align_v w (s_var s2) = align_v w (s_var s1)) by (unfold align_v; now rewrite UN, TY).
  unfold slot_code. destruct b.
  - unfold llvm_slot. rewrite PT, OF, RG, TY, E1, IL, AS, AV. destruct (s_ptype s1); [reflexivity| |];
      (rewrite RD by discriminate); reflexivity.
  - unfold cuda_slot. rewrite PT, OF, RG, TY, SEV, IL. destruct (s_ptype s1); [reflexivity| |];
      (rewrite RD by discriminate); reflexivity.
  - unfold metal_slot. rewrite PT, OF, RG, TY, SEV. destruct (s_ptype s1); [| |];
      try ((rewrite RD by discriminate); reflexivity).
    destruct (v_kind (s_var s1)), (v_kind (s_var s2)); try contradiction; try reflexivity.
    destruct (N.eqb_spec (v_type (s_var s1)) T_Pointer) as [TP|TP]; [reflexivity|].
    destruct KD as [Q| ->]; [congruence|reflexivity].
Qed.

Lemma same_text g1 g2 k1 k2 : Forall2 shape g1 g2 ->
  (forall v, In v g1 -> v_type v = T_Pointer -> v_out v = false /\ v_size v = 1) ->
  allocate b w size1 malloc1 cb1 g1 = Done k1 -> allocate b w size2 malloc2 cb2 g2 = Done k2 ->
  generate b w k1 = generate b w k2 /\ k_write k1 = k_write k2.
Proof.
  intros F P H1 H2. unfold allocate in H1, H2.
  destruct (place_all b w size1 malloc1 (initial b size1) g1) as [s1| |] eqn:E1; try discriminate.
  destruct (place_all b w size2 malloc2 (initial b size2) g2) as [s2| |] eqn:E2; try discriminate.
  assert (ST : same_state s1 s2).
  { eapply same_place_all; [exact F|exact P| |exact E1|exact E2].
    unfold initial. destruct b; repeat split; constructor. }
  destruct ST as (LP & WR & RG & _ & SL).
  injection H1 as <-. injection H2 as <-. unfold finish. rewrite (same_calls _ _ F).
  assert (CODE : forall k1 k2, Forall2 same_slot (k_slots k1) (k_slots k2) -> k_base k2 = k_base k1 ->
    map (slot_code b w k1) (k_slots k1) = map (slot_code b w k2) (k_slots k2)).
  { intros k1 k2 Q B. assert (K : forall l1 l2, Forall2 same_slot l1 l2 ->
      map (slot_code b w k1) l1 = map (slot_code b w k2) l2).
    { induction 1 as [|a c l1 l2 X FX IH]; [reflexivity|]. cbn [map]. rewrite IH. f_equal. symmetry. now apply same_code. }
    now apply K. }
  assert (GEN : forall k1 k2, Forall2 same_slot (k_slots k1) (k_slots k2) -> k_base k2 = k_base k1 ->
    length (k_params k2) = length (k_params k1) -> k_regs k2 = k_regs k1 -> generate b w k1 = generate b w k2).
  { intros k1 k2 Q B L R. unfold generate. rewrite L, R, (CODE k1 k2 Q B). unfold base_code. now rewrite B. }
  destruct (needs_calls g1); (split; [|cbn [k_write]; congruence]); apply GEN;
    cbn [k_params k_regs k_slots k_base]; rewrite ?app_length, ?LP, ?RG; trivial.
Qed.
End SHAPE.

(** * The kernel cache *)
Fixpoint run_all (hash : text -> N) (q : cache) (ts : list text) : cache * list text :=
  match ts with
  | [] => (q, [])
  | t :: r => let '(q1, t') := run_cached hash q t in
              let '(q2, l) := run_all hash q1 r in (q2, t' :: l)
  end.

Lemma run_all_own hash : forall ts q,
  (forall t t', In t ts -> In t' ts \/ In t' (map snd (q_kernels q)) -> hash t = hash t' -> t = t') ->
  (forall e, In e (q_kernels q) -> fst e = hash (snd e)) ->
  snd (run_all hash q ts) = ts.
Proof.
  induction ts as [|t r IH]; intros q INJ OK; [reflexivity|]. cbn [run_all]. unfold run_cached.
  destruct (find (fun e => fst e =? hash t) (q_kernels q)) as [e|] eqn:F.
  - apply find_some in F as [F1 F2]. apply N.eqb_eq in F2.
    assert (t = snd e).
    { apply INJ; [now left|right; now apply in_map|]. rewrite <- (OK e F1). congruence. }
    specialize (IH {| q_kernels := q_kernels q; q_hits := q_hits q + 1; q_misses := q_misses q |}).
    destruct (run_all hash _ r) as [q2 l]. cbn [snd] in *. rewrite IH; [congruence| |exact OK].
    intros a c A C. apply INJ; [now right|destruct C; [left; now right|now right]].
  - specialize (IH {| q_kernels := (hash t, t) :: q_kernels q; q_hits := q_hits q; q_misses := q_misses q + 1 |}).
    destruct (run_all hash _ r) as [q2 l]. cbn [snd] in *. rewrite IH; trivial.
    + cbn [q_kernels map snd]. intros a c A C. apply INJ; [now right|].
      destruct C as [C|[<-|C]]; [left; now right|left; now left|now right].
    + cbn [q_kernels]. intros e [<-|E]; [reflexivity|auto].
Qed.

(** Every text is compiled once: the cache contains each text at most once, and its
    entries are the texts of the launches. *)
Lemma run_all_once hash : forall ts q,
  NoDup (map fst (q_kernels q)) -> (forall e, In e (q_kernels q) -> fst e = hash (snd e)) ->
  q_misses q = N.of_nat (length (q_kernels q)) ->
  let q' := fst (run_all hash q ts) in
  NoDup (map fst (q_kernels q')) /\ q_misses q' = N.of_nat (length (q_kernels q')) /\
  q_hits q' + q_misses q' = q_hits q + q_misses q + N.of_nat (length ts) /\
  (forall e, In e (q_kernels q') -> fst e = hash (snd e)) /\
  (forall t, In t (map snd (q_kernels q')) -> In t (map snd (q_kernels q)) \/ In t ts).
Proof.
  induction ts as [|t r IH]; intros q ND OK MS; cbn [run_all].
  - cbn [fst length]. split; [exact ND|]. split; [exact MS|]. split; [lia|]. auto.
  - unfold run_cached. destruct (find (fun e => fst e =? hash t) (q_kernels q)) as [e|] eqn:F.
    + specialize (IH {| q_kernels := q_kernels q; q_hits := q_hits q + 1; q_misses := q_misses q |} ND OK MS).
      destruct (run_all hash _ r) as [q2 l]. cbn [fst q_kernels q_hits q_misses length] in *.
      destruct IH as (A & B & C & D & E). split; [exact A|]. split; [exact B|]. split; [lia|]. split; [exact D|].
      intros u U. destruct (E u U); cbn; auto.
    + specialize (IH {| q_kernels := (hash t, t) :: q_kernels q; q_hits := q_hits q; q_misses := q_misses q + 1 |}).
      destruct (run_all hash _ r) as [q2 l]. cbn [fst snd q_kernels q_hits q_misses length map] in *.
      destruct IH as (A & B & C & D & E).
      * constructor; [|exact ND]. intros I. apply in_map_iff in I as (e & E1 & E2).
        pose proof (find_none _ _ F e E2) as Q. cbv beta in Q. rewrite E1, N.eqb_refl in Q. discriminate.
      * intros e [<-|E]; [reflexivity|auto].
      * lia.
      * split; [exact A|]. split; [exact B|]. split; [lia|]. split; [exact D|].
        intros u U. destruct (E u U) as [[<-|Q]|Q]; cbn; auto.
Qed.
