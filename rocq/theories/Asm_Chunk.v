(** The statements of one variable compute what the variable means. *)
From Verif Require Import Base Asm_Model Asm_Spec Asm_Mem Asm_Place.
Local Open Scope N_scope.

Definition idx (n : name) : N := snd (fst n).

Lemma name_eqb_refl n : name_eqb n n = true.
Proof. destruct n as [[x y] z]. cbn. now rewrite !N.eqb_refl. Qed.

Lemma name_eqb_idx a n : idx a <> idx n -> name_eqb a n = false.
Proof.
  destruct a as [[x y] z], n as [[x' y'] z']. cbn. intros H.
  destruct (N.eqb_spec y y'); [congruence|]. now rewrite andb_false_r.
Qed.

Lemma get_same p i s1 s2 x r :
  get_reg (((p, i, s1), x) :: r) (p, i, s2) = if s1 =? s2 then Some x else get_reg r (p, i, s2).
Proof. cbn [get_reg name_eqb]. rewrite !N.eqb_refl. reflexivity. Qed.

Lemma get_other n a x r : idx a <> idx n -> get_reg ((a, x) :: r) n = get_reg r n.
Proof. intros H. cbn [get_reg]. now rewrite name_eqb_idx. Qed.

Lemma get_eq a x r : get_reg ((a, x) :: r) a = Some x.
Proof. cbn [get_reg]. now rewrite name_eqb_refl. Qed.

Lemma name_eqb_eq a n : name_eqb a n = true -> a = n.
Proof.
  destruct a as [[x y] z], n as [[x' y'] z']. cbn. intros H.
  apply andb_prop in H as [H H3]. apply andb_prop in H as [H1 H2].
  apply N.eqb_eq in H1, H2, H3. now subst.
Qed.

(** Registers [r'] extend [r] by registers with index [i] or 0. *)
Definition extends (i : N) (r r' : regs) : Prop :=
  (forall n, idx n <> i -> idx n <> 0 -> get_reg r' n = get_reg r n) /\
  (forall n, get_reg r' n <> None -> get_reg r n <> None \/ idx n = i \/ idx n = 0).

Lemma extends_refl i r : extends i r r.
Proof. split; auto. Qed.

Lemma extends_trans i r r1 r2 : extends i r r1 -> extends i r1 r2 -> extends i r r2.
Proof.
  intros [A B] [C D]. split.
  - intros n H1 H2. rewrite C, A; trivial.
  - intros n H. destruct (D n H) as [H'|H']; auto.
Qed.

Lemma extends_cons i n x r : idx n = i \/ idx n = 0 -> extends i r ((n, x) :: r).
Proof.
  intros H. split.
  - intros n' A B. apply get_other. destruct H; congruence.
  - intros n' A. cbn [get_reg] in A. destruct (name_eqb n n') eqn:E; [|now left].
    right. apply name_eqb_eq in E. now subst.
Qed.

Section CHUNK.
Variable sem : N -> N -> list N -> mem -> option N.
Variable b : backend.
Variable size cb : N.
Variable g : list var.
Variable m0 : mem.
Variable w : N.
Variable k : kernel.

Let bufs := k_bufs k.
Let mn := means sem b size cb g m0.
Let lns := lanes b size w.
Let T := generate b w k.

Hypothesis WF : well_formed b size g.
Hypothesis BU : built b w size cb g k.
Hypothesis BO : buffers_ok b m0 w bufs.
Hypothesis IO : inputs_ok sem b size cb g m0 w bufs.
Hypothesis DE : defined sem b size cb g m0 w.
Hypothesis AL : match b with LLVM => aligned_ok g w | _ => w = 1 end.

Lemma id_inj u v : In u g -> In v g -> v_id u = v_id v -> u = v.
Proof.
  intros U V E. apply In_nth_error in U as [i U], V as [j V].
  pose proof (wf_ids _ _ _ WF) as ND. rewrite NoDup_nth_error in ND.
  assert (i = j).
  { apply ND.
    - rewrite map_length. apply nth_error_Some. congruence.
    - erewrite !map_nth_error by eassumption. congruence. }
  congruence.
Qed.

Lemma holds_det m a n x y : holds m a n x -> holds m a n y -> x = y.
Proof.
  intros X Y.
  rewrite <- (N2Nat.id n) in X, Y. apply load_holds in X, Y. congruence.
Qed.

Lemma means_det i lane x y : mn i lane x -> mn i lane y -> x = y.
Proof.
  intros X. revert y. induction X; intros y Y; inversion Y;
    match goal with
    | A : In ?u g, B : In ?v g, E : v_id ?u = v_id ?v |- _ =>
        pose proof (id_inj _ _ A B E); subst u
    end;
    match goal with A : v_kind ?v = _, B : v_kind ?v = _ |- _ => rewrite A in B; inversion B; subst end;
    try reflexivity.
  - match goal with A : holds _ _ _ ?x, B : holds _ _ _ ?y |- _ => now rewrite (holds_det _ _ _ _ _ A B) end.
  - match goal with A : sem _ _ (?l1 ++ _) _ = Some _, B : sem _ _ (?l2 ++ _) _ = Some _ |- _ =>
      assert (l1 = l2) as EL; [|rewrite EL in A; congruence] end.
    match goal with A : length xs = _, B : length ?ys = _ |- _ =>
      apply (nth_ext _ _ 0 0); [congruence|] end.
    intros n Hn.
    destruct (nth_error xs n) as [a|] eqn:EA; [|apply nth_error_None in EA; lia].
    destruct (nth_error xs0 n) as [a'|] eqn:EA'; [|apply nth_error_None in EA'; lia].
    destruct (nth_error deps0 n) as [d|] eqn:ED; [|apply nth_error_None in ED; lia].
    rewrite (nth_error_nth _ _ _ EA), (nth_error_nth _ _ _ EA'). eapply H3; [exact ED|exact EA|]. eapply H9; [exact ED|exact EA'].
Qed.

Lemma args_det deps call lane a a' :
  args_of sem b size cb g m0 deps call lane a -> args_of sem b size cb g m0 deps call lane a' -> a = a'.
Proof.
  intros (xs & -> & L & H) (ys & -> & L' & H'). f_equal.
  apply (nth_ext _ _ 0 0); [congruence|]. intros n Hn.
  destruct (nth_error xs n) as [x|] eqn:EA; [|apply nth_error_None in EA; lia].
  destruct (nth_error ys n) as [y|] eqn:EA'; [|apply nth_error_None in EA'; lia].
  destruct (nth_error deps n) as [d|] eqn:ED; [|apply nth_error_None in ED; lia].
  rewrite (nth_error_nth _ _ _ EA), (nth_error_nth _ _ _ EA'). eapply means_det; [eapply H|eapply H']; eauto.
Qed.

(** Output cells *)
Definition tsz (v : var) := type_size (v_type v).
Definition outp (v : var) (p : N) : Prop := In (v_id v, out_bytes b w size (v_type v), p) bufs.

Definition right (a x : N) : Prop :=
  exists v p lane j y, In v g /\ is_output size v /\ outp v p /\ lane < lns /\ j < tsz v /\
    a = p + lane * tsz v + j /\ mn (v_id v) lane y /\ x = y / 256 ^ j mod 256.

Lemma wpos : 0 < w.
Proof.
  destruct b; [|lia|lia]. destruct (al_width _ _ AL) as (e & -> & _).
  pose proof (N.pow_nonzero 2 e ltac:(lia)). lia.
Qed.

Lemma malloc_ge n : n <= malloc_bytes b w n.
Proof.
  pose proof wpos as W.
  assert (K : forall n d, 0 < d -> n <= (n + d - 1) / d * d).
  { intros x d D. pose proof (N.div_mod (x + d - 1) d ltac:(lia)). pose proof (N.mod_lt (x + d - 1) d ltac:(lia)). lia. }
  assert (K64 : n <= (n + 63) / 64 * 64).
  { pose proof (K n 64 ltac:(lia)) as Q. replace (n + 64 - 1) with (n + 63) in Q by lia. exact Q. }
  unfold malloc_bytes. destruct b; trivial.
  destruct (w <? 16); [exact K64|apply K; lia].
Qed.

Lemma out_bytes_ge t : lns * type_size t <= out_bytes b w size t.
Proof.
  unfold lns, lanes, out_bytes. destruct b; try lia.
  destruct (type_size t =? 1); lia.
Qed.

Lemma cell_inside v p lane j : outp v p -> lane < lns -> j < tsz v ->
  inside b w (p + lane * tsz v + j) (v_id v, out_bytes b w size (v_type v), p).
Proof.
  intros O L J. cbn [inside]. pose proof (malloc_ge (out_bytes b w size (v_type v))).
  pose proof (out_bytes_ge (v_type v)). unfold tsz in *. split; [lia|].
  assert ((lane + 1) * type_size (v_type v) <= lns * type_size (v_type v)) by (apply N.mul_le_mono_r; lia).
  lia.
Qed.

Lemma outp_det v p p' : outp v p -> outp v p' -> p = p'.
Proof.
  intros A B. pose proof (bu_nodup _ _ _ _ _ _ BU (wf_ids _ _ _ WF)) as ND.
  unfold outp, bufs in *. apply In_nth_error in A as [i A], B as [j B].
  rewrite NoDup_nth_error in ND. assert (i = j).
  { apply ND; [rewrite map_length; apply nth_error_Some; congruence|].
    erewrite !map_nth_error by eassumption. reflexivity. }
  congruence.
Qed.

Lemma right_det a x y : right a x -> right a y -> x = y.
Proof.
  intros (v & p & l & j & z & V & O & P & L & J & E & M & ->)
         (v' & p' & l' & j' & z' & V' & O' & P' & L' & J' & E' & M' & ->).
  assert (v_id v = v_id v') as EI.
  { destruct (N.eq_dec (v_id v) (v_id v')) as [Q|Q]; [exact Q|exfalso].
    pose proof (cell_inside v p l j P L J) as I1. pose proof (cell_inside v' p' l' j' P' L' J') as I2.
    rewrite <- E in I1. rewrite <- E' in I2.
    apply In_nth_error in P as [i P], P' as [i' P'].
    refine (bo_apart _ _ _ _ BO i i' _ _ a P P' _ I1 I2). intros <-. congruence. }
  pose proof (id_inj _ _ V V' EI). subst v'.
  pose proof (outp_det _ _ _ P P'). subst p'.
  assert (l = l' /\ j = j') as [-> ->].
  { assert (l * tsz v + j = l' * tsz v + j') as Q by lia.
    assert (l = l').
    { apply (f_equal (fun q => q / tsz v)) in Q.
      rewrite !N.div_add_l, !N.div_small, !N.add_0_r in Q by lia. exact Q. }
    subst. split; lia. }
  now rewrite (means_det _ _ _ _ M M').
Qed.

Definition good (m : mem) : Prop := forall a, m a = m0 a \/ exists x, m a = Some x /\ right a x.

Lemma right_in a x : right a x -> in_output b w bufs a /\ m0 a <> None.
Proof.
  intros (v & p & l & j & z & V & O & P & L & J & E & M & ->).
  pose proof (cell_inside v p l j P L J) as I1. rewrite <- E in I1. split.
  - eexists. split; [exact P|exact I1].
  - exact (bo_access _ _ _ _ BO _ _ P I1).
Qed.

Lemma good_same m : good m -> same_elsewhere b m0 w bufs m.
Proof.
  intros G. split.
  - intros a. destruct (G a) as [->|(x & E & R)]; [tauto|]. apply right_in in R as [_ R].
    rewrite E. split; [discriminate|tauto].
  - intros a H. destruct (G a) as [->|(x & E & R)]; [reflexivity|]. now apply right_in in R as [R _].
Qed.

(** Memory [m'] extends [m] by right writes. *)
Definition grows (m m' : mem) : Prop := forall a, m' a = m a \/ exists x, m' a = Some x /\ right a x.

Lemma grows_refl m : grows m m.
Proof. intros a. now left. Qed.

Lemma grows_good m m' : good m -> grows m m' -> good m'.
Proof. intros G H a. destruct (H a) as [->|]; auto. Qed.

(** All cells of lane [lane] of output [v] are written. *)
Definition wrote (v : var) (lane : N) (m : mem) : Prop :=
  exists p x, outp v p /\ mn (v_id v) lane x /\
    forall j, j < tsz v -> m (p + lane * tsz v + j) = Some (x / 256 ^ j mod 256).

Lemma wrote_grows v lane m m' : In v g -> is_output size v -> lane < lns ->
  wrote v lane m -> grows m m' -> wrote v lane m'.
Proof.
  intros V O L (p & x & P & M & H) G. exists p, x. split; [exact P|]. split; [exact M|].
  intros j J. destruct (G (p + lane * tsz v + j)) as [->|(y & E & R)]; [auto|].
  rewrite E. f_equal. apply (right_det (p + lane * tsz v + j)); [exact R|].
  exists v, p, lane, j, x. repeat split; trivial; apply O.
Qed.

(** Values in registers *)
Definition rep (v : var) (p : N) (x : val) : Prop :=
  match b with
  | LLVM => (is_lit v = true /\ v_type v = T_Pointer /\ v_kind v = KLit (match x with Sc a => a | _ => 0 end) /\
             exists a, x = Sc a) \/
            (v_type v <> T_Pointer /\ exists l, x = Ve l /\ length l = N.to_nat w /\
               forall i y, nth_error l i = Some y -> mn (v_id v) (p + N.of_nat i) y)
  | _ => exists y, x = Sc y /\ mn (v_id v) p y
  end.

Lemma rep_lane v p x i : In v g -> rep v p x -> (i < N.to_nat w)%nat ->
  exists y, lane_of i x = Some y /\ mn (v_id v) (p + N.of_nat i) y.
Proof.
  intros V R I. unfold rep in R. destruct b.
  - destruct R as [(A & B & C & a & ->)|(A & l & -> & L & H)].
    + exists a. split; [reflexivity|]. apply (means_lit sem LLVM size cb g m0 v a); trivial.
    + cbn [lane_of]. destruct (nth_error l i) as [y|] eqn:E; [eauto|]. apply nth_error_None in E. lia.
  - destruct R as (y & -> & M). cbn. assert (i = 0)%nat by lia. subst i. rewrite N.add_0_r. eauto.
  - destruct R as (y & -> & M). cbn. assert (i = 0)%nat by lia. subst i. rewrite N.add_0_r. eauto.
Qed.

Record reg_inv (j : nat) (p : N) (r : regs) : Prop := {
  ri_slot : forall i s, (i < j)%nat -> nth_error (k_slots k) i = Some s -> v_type (s_var s) <> T_Void ->
     exists x, get_reg r (vname b (v_type (s_var s)) (s_reg s) 0) = Some x /\ rep (s_var s) p x;
  ri_only : forall n, get_reg r n <> None ->
     idx n < regs0 b + N.of_nat j \/ idx n = regs0 b + N.of_nat (length g);
  ri_base : forall q i, k_base k = Some (q, i) -> get_reg r (base_name b q) = Some (Sc cb)
}.

Lemma slots_length : length (k_slots k) = length g.
Proof. rewrite <- (bu_vars _ _ _ _ _ _ BU). now rewrite map_length. Qed.

Lemma slot_var j s : nth_error (k_slots k) j = Some s -> nth_error g j = Some (s_var s).
Proof. intros H. rewrite <- (bu_vars _ _ _ _ _ _ BU). now apply map_nth_error. Qed.

Lemma regs0_pos : 0 < regs0 b.
Proof. destruct b; cbn; lia. Qed.

Lemma slot_lt j s : nth_error (k_slots k) j = Some s -> (j < length g)%nat.
Proof. intros H. rewrite <- slots_length. apply nth_error_Some. congruence. Qed.

Lemma reg_inv_next j p r r' s : nth_error (k_slots k) j = Some s -> reg_inv j p r ->
  extends (s_reg s) r r' ->
  (v_type (s_var s) <> T_Void ->
     exists x, get_reg r' (vname b (v_type (s_var s)) (s_reg s) 0) = Some x /\ rep (s_var s) p x) ->
  reg_inv (S j) p r'.
Proof.
  intros H R [E1 E2] V. pose proof (bu_reg _ _ _ _ _ _ BU _ _ H) as SR. pose proof (slot_lt _ _ H) as LT.
  pose proof regs0_pos as RP. constructor.
  - intros i u I U TU. destruct (Nat.eq_dec i j) as [->|NE].
    + rewrite H in U. inversion U. subst u. apply V. exact TU.
    + destruct (ri_slot _ _ _ R i u ltac:(lia) U TU) as (x & X1 & X2). exists x. split; [|exact X2].
      rewrite E1; trivial; unfold vname, idx; cbn [fst snd];
        rewrite (bu_reg _ _ _ _ _ _ BU _ _ U); [rewrite SR|]; lia.
  - intros n N1. destruct (E2 n N1) as [Q|[Q|Q]].
    + destruct (ri_only _ _ _ R n Q); [left; lia|now right].
    + left. lia.
    + left. lia.
  - intros q i B. pose proof (bu_base _ _ _ _ _ _ BU) as BB. rewrite B in BB. destruct BB as (BB & _).
    rewrite E1; [exact (ri_base _ _ _ R q i B)| |]; unfold base_name, vname, idx; cbn [fst snd]; lia.
Qed.

Lemma reg_fresh j p r s pf sfx : nth_error (k_slots k) j = Some s -> reg_inv j p r ->
  get_reg r (pf, s_reg s, sfx) = None.
Proof.
  intros H R. destruct (get_reg r (pf, s_reg s, sfx)) eqn:E; [exfalso|reflexivity].
  pose proof (bu_reg _ _ _ _ _ _ BU _ _ H) as SR. pose proof (slot_lt _ _ H) as LT.
  destruct (ri_only _ _ _ R (pf, s_reg s, sfx)) as [Q|Q]; [congruence| |]; unfold idx in Q; cbn [fst snd] in Q; lia.
Qed.

(** The name of a dependency *)
Lemma dep_lookup j p r v d : nth_error g j = Some v -> reg_inv j p r -> In d (deps_of v) ->
  exists u x, In u g /\ v_id u = d /\ get_reg r (dep_name b (k_slots k) d) = Some x /\ rep u p x /\
    0 < idx (dep_name b (k_slots k) d) < regs0 b + N.of_nat j.
Proof.
  intros V R D. destruct (wf_deps _ _ _ WF j v d V D) as (i & u & I & U & E & TY).
  assert (UI : In u g) by (eapply nth_error_In; exact U).
  assert (IL : (i < length (k_slots k))%nat).
  { rewrite slots_length. apply nth_error_Some. congruence. }
  destruct (nth_error (k_slots k) i) as [s|] eqn:S1; [|apply nth_error_None in S1; lia].
  pose proof (slot_var _ _ S1) as SV. rewrite U in SV. inversion SV as [SV'].
  unfold dep_name.
  destruct (find (fun s0 : slot => v_id (s_var s0) =? d) (k_slots k)) as [s'|] eqn:F.
  2:{ exfalso. pose proof (find_none _ _ F s (nth_error_In _ _ S1)) as Q. cbv beta in Q.
      rewrite <- SV', E, N.eqb_refl in Q. discriminate. }
  apply find_some in F as [F1 F2]. apply N.eqb_eq in F2.
  apply In_nth_error in F1 as [i' F1]. pose proof (slot_var _ _ F1) as SV2.
  assert (i' = i).
  { pose proof (wf_ids _ _ _ WF) as ND. rewrite NoDup_nth_error in ND. apply ND.
    - rewrite map_length. apply nth_error_Some. congruence.
    - erewrite !map_nth_error by eassumption. congruence. }
  subst i'. rewrite S1 in F1. inversion F1. subst s'.
  destruct (ri_slot _ _ _ R i s I S1 ltac:(congruence)) as (x & X1 & X2).
  exists u, x. rewrite SV'. split; [now rewrite <- SV'|]. split; [congruence|].
  split; [exact X1|]. split; [exact X2|].
  unfold vname, idx. cbn [fst snd]. rewrite (bu_reg _ _ _ _ _ _ BU _ _ S1). pose proof regs0_pos. lia.
Qed.

(** Operations *)
Lemma op_value v op deps call lane a m : In v g -> v_kind v = KOp op deps call -> lane < lns ->
  args_of sem b size cb g m0 deps call lane a -> good m ->
  exists y, sem op lane a m = Some y /\ mn (v_id v) lane y.
Proof.
  intros V K L A G. destruct (de_some _ _ _ _ _ _ _ DE v lane V L) as [y Y].
  assert (YY : mn (v_id v) lane y) by exact Y.
  inversion Y; match goal with
    | X : In ?u g, E : v_id ?u = v_id v |- _ => pose proof (id_inj _ _ X V E); subst u end;
    match goal with X : v_kind v = _ |- _ => rewrite K in X; inversion X; subst end.
  exists y. split; [|exact YY].
  match goal with X : sem _ _ (?l ++ _) m0 = Some y |- _ =>
    assert (EA : a = l ++ (if call0 then [cb] else [])) end.
  { eapply args_det; [exact A|]. exists xs. auto. }
  rewrite <- EA in *. eapply (io_op _ _ _ _ _ _ _ _ IO); eauto. apply good_same. exact G.
Qed.

Lemma op_lanes_ok v op deps call p m vals : In v g -> v_kind v = KOp op deps call -> good m ->
  forall n i,
  (forall q, (i <= q < i + n)%nat -> p + N.of_nat q < lns /\ exists a, lanes_of q vals = Some a /\
       args_of sem b size cb g m0 deps call (p + N.of_nat q) a) ->
  exists l ev, op_lanes sem op p vals m i n = Ok (l, ev) /\ length l = n /\
    (forall q y, nth_error l q = Some y -> mn (v_id v) (p + N.of_nat (i + q)) y) /\
    (forall lane, (p + N.of_nat i <= lane < p + N.of_nat (i + n) ->
        exists a, filter (fun e : event => snd (fst e) =? lane) ev = [(op, lane, a)] /\
                  args_of sem b size cb g m0 deps call lane a) /\
       (~ (p + N.of_nat i <= lane < p + N.of_nat (i + n)) ->
          filter (fun e : event => snd (fst e) =? lane) ev = [])).
Proof.
  intros V K G. induction n as [|n IH]; intros i H.
  - exists [], []. split; [reflexivity|]. split; [reflexivity|]. split; [intros [|] y Y; discriminate|].
    intros lane. split; [lia|reflexivity].
  - cbn [op_lanes]. destruct (H i ltac:(lia)) as (L & a & LA & AO). rewrite LA.
    destruct (op_value v op deps call _ a m V K L AO G) as (y & SY & MY). rewrite SY. cbn [or_ub obind].
    destruct (IH (S i)) as (l & ev & E1 & E2 & E3 & E4). { intros q Q. apply H. lia. }
    rewrite E1. cbn [obind fst snd]. exists (y :: l), ((op, p + N.of_nat i, a) :: ev).
    split; [reflexivity|]. split; [cbn; congruence|]. split.
    + intros [|q] z Z; cbn in Z; [inversion Z; subst z; now rewrite Nat.add_0_r|].
      replace (i + S q)%nat with (S i + q)%nat by lia. apply E3. exact Z.
    + intros lane. cbn [filter fst snd]. destruct (E4 lane) as [F1 F2].
      destruct (N.eqb_spec (p + N.of_nat i) lane) as [EQ|NE].
      * split; [|lia]. intros _. exists a. rewrite F2 by lia. subst lane. auto.
      * split; intros Q; [apply F1|apply F2]; lia.
Qed.

Definition effects_ok (s : slot) (p : N) (log log' : list event) : Prop :=
  exists ev, log' = log ++ ev /\
    forall lane, (p <= lane < p + w -> v_side (s_var s) = true ->
        exists e, filter (fun e : event => snd (fst e) =? lane) ev = [e] /\
                  effect_of sem b size cb g m0 lane (s_var s) e) /\
      (~ (p <= lane < p + w) \/ v_side (s_var s) = false ->
          filter (fun e : event => snd (fst e) =? lane) ev = []).

Lemma effects_none s p log : v_side (s_var s) = false -> effects_ok s p log log.
Proof.
  intros F. exists []. rewrite app_nil_r. split; [reflexivity|]. intros lane. split; [congruence|reflexivity].
Qed.

Lemma needs_ok c : forall l vals, length l = length vals ->
  (forall i n x, nth_error l i = Some n -> nth_error vals i = Some x -> get_reg (c_regs c) n = Some x) ->
  needs c l = Ok vals.
Proof.
  induction l as [|n l IH]; intros [|x vals] L H; try discriminate; [reflexivity|].
  cbn [needs]. unfold need. rewrite (H O n x eq_refl eq_refl). cbn [obind].
  rewrite (IH vals); [reflexivity|now inversion L|]. intros i. apply (H (S i)).
Qed.

(** A register can be set *)
Definition can (r : regs) (n : name) : Prop :=
  match b with CUDA => idx n < k_regs k | _ => get_reg r n = None end.

Lemma set_ok c n x : can (c_regs c) n ->
  set_reg T c n x = Ok {| c_regs := (n, x) :: c_regs c; c_mem := c_mem c; c_log := c_log c |}.
Proof.
  unfold can, set_reg, T, generate. cbn [t_backend t_regs]. destruct b; intros H.
  - now rewrite H.
  - destruct n as [[? i] ?]. unfold idx in H. cbn [fst snd] in H. now rewrite (proj2 (N.ltb_lt _ _) H).
  - now rewrite H.
Qed.

Lemma can_intro r n : (b <> CUDA -> get_reg r n = None) -> idx n < k_regs k -> can r n.
Proof. unfold can. destruct b; intros A B; trivial; now apply A. Qed.

Lemma lit_exec p e c n0 n5 bits : can (c_regs c) n0 -> can (c_regs c) n5 -> name_eqb n5 n0 = false ->
  exists x, exec sem T w (k_params k) p e c
     match b with
     | LLVM => [AInsertLit n5 bits; AShuffle n0 n5]
     | CUDA => [CMov n0 bits]
     | METAL => [MLiteral n0 bits]
     end = Ok {| c_regs := (n0, x) :: match b with LLVM => [(n5, In0 bits)] | _ => [] end ++ c_regs c;
                 c_mem := c_mem c; c_log := c_log c |} /\
     x = match b with LLVM => Ve (repeat bits (N.to_nat w)) | _ => Sc bits end.
Proof.
  intros C0 C5 NE.
  assert (CX : forall x, can ((n5, x) :: c_regs c) n0).
  { intros x. revert C0. unfold can. cbn [get_reg]. rewrite NE. trivial. }
  assert (S5 := fun x => set_ok c n5 x C5). assert (S0 := fun x => set_ok c n0 x C0).
  assert (S05 := fun x y => set_ok {| c_regs := (n5, x) :: c_regs c; c_mem := c_mem c; c_log := c_log c |} n0 y (CX x)).
  cbn [c_regs c_mem c_log] in S05. clear C0 C5 CX. destruct b; eexists; (split; [|reflexivity]).
  - cbn [exec exec1]. rewrite S5. cbn [obind]. unfold need. cbn [c_regs]. rewrite get_eq. cbn [obind].
    rewrite S05. reflexivity.
  - cbn [exec exec1]. rewrite S0. reflexivity.
  - cbn [exec exec1]. rewrite S0. reflexivity.
Qed.

Lemma slot_reg_lt j s : nth_error (k_slots k) j = Some s -> 0 < s_reg s < k_regs k.
Proof.
  intros H. pose proof (bu_reg _ _ _ _ _ _ BU _ _ H) as SR. pose proof (slot_lt _ _ H) as LT.
  pose proof regs0_pos. pose proof (bu_base _ _ _ _ _ _ BU) as BB.
  destruct (k_base k) as [[r i]|]; [destruct BB as (-> & _ & -> & _)|destruct BB as (_ & ->)]; lia.
Qed.

(** One variable that is not an input: the value of the variable is in its register. *)
Lemma render_ok j p e s c r : nth_error (k_slots k) j = Some s -> reg_inv j p r ->
  extends (s_reg s) r (c_regs c) -> is_eval (s_var s) = false -> good (c_mem c) ->
  p + w <= lns -> lns <= 2 ^ 32 -> (b = LLVM -> e < 2 ^ 32 /\ (p + w <= e <= size \/ e = size)) ->
  (v_type (s_var s) = T_Pointer -> b <> LLVM) ->
  (b <> CUDA -> get_reg (c_regs c) (vname b (v_type (s_var s)) (s_reg s) 0) = None /\
                get_reg (c_regs c) (vname b (v_type (s_var s)) (s_reg s) 5) = None) ->
  exists c', exec sem T w (k_params k) p e c (render b k s) = Ok c' /\ c_mem c' = c_mem c /\
    extends (s_reg s) (c_regs c) (c_regs c') /\
    (v_type (s_var s) <> T_Void ->
       exists x, get_reg (c_regs c') (vname b (v_type (s_var s)) (s_reg s) 0) = Some x /\ rep (s_var s) p x) /\
    (forall pf sfx, sfx <> 0 -> sfx <> 5 ->
       get_reg (c_regs c') (pf, s_reg s, sfx) = get_reg (c_regs c) (pf, s_reg s, sfx)) /\
    effects_ok s p (c_log c) (c_log c').
Proof.
  intros H R EX NE G PL L32 EE NP FR. pose proof (slot_var _ _ H) as SV.
  assert (VI : In (s_var s) g) by (eapply nth_error_In; exact SV).
  pose proof (slot_reg_lt _ _ H) as [RP RL]. set (v := s_var s) in *.
  assert (CAN0 : can (c_regs c) (vname b (v_type v) (s_reg s) 0)).
  { apply can_intro; [apply FR|exact RL]. }
  unfold render. fold v. destruct (v_kind v) as [data|bits| |ct|op deps call] eqn:EK.
  - unfold is_eval in NE. rewrite EK in NE. discriminate.
  - assert (SD : v_side v = false).
    { destruct (v_side v) eqn:SD; [|reflexivity]. destruct (wf_side _ _ _ WF v VI SD) as (? & ? & ? & Q).
      rewrite EK in Q. discriminate. }
    assert (MB : forall lane, mn (v_id v) lane bits) by (intros; now apply means_lit).
    destruct (lit_exec p e c (vname b (v_type v) (s_reg s) 0) (vname b (v_type v) (s_reg s) 5) bits CAN0)
      as (x & X1 & X2).
    { apply can_intro; [apply FR|exact RL]. }
    { unfold vname. cbn [name_eqb]. apply andb_false_r. }
    rewrite X1. eexists. split; [reflexivity|]. cbn [c_regs c_mem c_log]. split; [reflexivity|]. split.
    { eapply extends_trans; [|apply extends_cons; now left].
      clear. destruct b; [apply extends_cons; now left|apply extends_refl|apply extends_refl]. }
    split.
    { intros _. eexists. split; [apply get_eq|]. clear CAN0 R G X1. unfold rep. rewrite X2. destruct b.
      - right. split; [intro Q; now apply (NP Q)|].
        exists (repeat bits (N.to_nat w)). split; [reflexivity|]. split; [apply repeat_length|].
        intros i y Y. apply nth_error_In, repeat_spec in Y. subst y. apply MB.
      - exists bits. auto.
      - exists bits. auto. }
    split; [|now apply effects_none].
    intros pf sfx S0 S5. clear CAN0 R G X1. unfold vname. destruct b; cbn [get_reg name_eqb app];
      rewrite ?(proj2 (N.eqb_neq 0 sfx)), ?(proj2 (N.eqb_neq 5 sfx)), !andb_false_r by congruence; reflexivity.
  - assert (SD : v_side v = false).
    { destruct (v_side v) eqn:SD; [|reflexivity]. destruct (wf_side _ _ _ WF v VI SD) as (? & ? & ? & Q).
      rewrite EK in Q. discriminate. }
    assert (MB : forall lane, mn (v_id v) lane lane) by (intros; now apply means_counter).
    pose proof (wf_counter _ _ _ WF v VI EK) as TC.
    assert (X : exists x, exec1 sem T w (k_params k) p e c (ICounter (vname b (v_type v) (s_reg s) 0)) =
                set_reg T c (vname b (v_type v) (s_reg s) 0) x /\ rep v p x).
    { pose proof wpos. clear CAN0 R G. unfold exec1, T, generate, rep. cbn [t_backend]. destruct b.
      - eexists. split; [reflexivity|]. right. split; [rewrite TC; discriminate|].
        eexists. split; [reflexivity|]. split; [now rewrite map_length, seq_length|].
        intros i y Y. rewrite nth_error_map in Y. destruct (nth_error (seq 0 (N.to_nat w)) i) as [q|] eqn:Q; [|discriminate].
        inversion Y. assert (IL : (i < N.to_nat w)%nat).
        { rewrite <- (seq_length (N.to_nat w) 0). apply nth_error_Some. congruence. }
        apply (nth_error_nth _ _ 0%nat) in Q. rewrite seq_nth in Q by exact IL. cbn [Nat.add] in Q. subst q.
        assert (E1 : u32 (u32 p + N.of_nat i) = p + N.of_nat i).
        { unfold u32. rewrite (N.mod_small p) by lia. apply N.mod_small. lia. }
        rewrite E1. apply MB.
      - eexists. split; [reflexivity|]. eexists. split; [reflexivity|].
        unfold u32. rewrite N.mod_small by lia. apply MB.
      - eexists. split; [reflexivity|]. eexists. split; [reflexivity|].
        unfold u32. rewrite N.mod_small by lia. apply MB. }
    destruct X as (x & X1 & X2). cbn [exec]. rewrite X1, set_ok by exact CAN0. cbn [obind].
    eexists. split; [reflexivity|]. cbn [c_regs c_mem c_log]. split; [reflexivity|].
    split; [apply extends_cons; now left|].
    split; [intros _; eexists; split; [apply get_eq|exact X2]|]. split; [|now apply effects_none].
    intros pf sfx S0 S5. unfold vname. cbn [get_reg name_eqb].
    rewrite (proj2 (N.eqb_neq 0 sfx)), !andb_false_r by congruence. reflexivity.
  - assert (SD : v_side v = false).
    { destruct (v_side v) eqn:SD; [|reflexivity]. destruct (wf_side _ _ _ WF v VI SD) as (? & ? & ? & Q).
      rewrite EK in Q. discriminate. }
    destruct (wf_mask _ _ _ WF v ct VI EK) as (EB & TB & CT).
    destruct (dep_lookup j p r v ct SV R) as (u & x & UI & UE & GX & RX & IX1 & IX2).
    { unfold deps_of. rewrite EK. now left. }
    assert (MB : forall lane, mn (v_id v) lane (if lane <? size then 1 else 0)) by (intros; eapply means_mask; eauto).
    destruct (EE EB) as [E32 EEND].
    assert (GC : get_reg (c_regs c) (dep_name b (k_slots k) ct) = Some x).
    { rewrite (proj1 EX); [exact GX| |lia]. rewrite (bu_reg _ _ _ _ _ _ BU _ _ H). lia. }
    assert (TB' : t_backend T = LLVM) by exact EB. cbn [exec exec1]. rewrite TB'.
    unfold need_ve, need. rewrite GC. cbn [obind].
    assert (KU : v_kind u = KCounter) by (apply CT; trivial).
    unfold rep in RX. rewrite EB in RX.
    destruct RX as [(Q & _)|(_ & l & -> & LL & HL)]; [unfold is_lit in Q; rewrite KU in Q; discriminate|].
    cbn [obind]. rewrite set_ok by exact CAN0. cbn [obind].
    eexists. split; [reflexivity|]. cbn [c_regs c_mem c_log]. split; [reflexivity|].
    split; [apply extends_cons; now left|]. split.
    { intros _. eexists. split; [apply get_eq|]. unfold rep. rewrite EB. right.
      split; [rewrite TB; discriminate|]. eexists. split; [reflexivity|].
      split; [now rewrite map_length|]. intros i y Y. rewrite nth_error_map in Y.
      destruct (nth_error l i) as [z|] eqn:Z; [|discriminate]. cbn [option_map] in Y. inversion Y.
      pose proof (HL i z Z) as MZ.
      assert (z = p + N.of_nat i).
      { eapply means_det; [exact MZ|]. apply means_counter; trivial. }
      subst z. assert (IL : (i < N.to_nat w)%nat) by (rewrite <- LL; apply nth_error_Some; congruence).
      assert (U32 : u32 e = e) by (unfold u32; apply N.mod_small; lia). rewrite U32.
      replace (p + N.of_nat i <? e) with (p + N.of_nat i <? size); [apply MB|].
      destruct (N.ltb_spec (p + N.of_nat i) size), (N.ltb_spec (p + N.of_nat i) e); trivial; lia. }
    split; [|now apply effects_none].
    intros pf sfx S0 S5. unfold vname. cbn [get_reg name_eqb].
    rewrite (proj2 (N.eqb_neq 0 sfx)), !andb_false_r by congruence. reflexivity.
  - set (names := map (dep_name b (k_slots k)) deps ++
       match k_base k with Some (q, _) => if call then [base_name b q] else [] | None => [] end).
    assert (DL : forall d, In d deps -> exists u x, In u g /\ v_id u = d /\
       get_reg (c_regs c) (dep_name b (k_slots k) d) = Some x /\ rep u p x).
    { intros d D. destruct (dep_lookup j p r v d SV R) as (u & x & UI & UE & GX & RX & IX1 & IX2).
      { unfold deps_of. now rewrite EK. }
      exists u, x. split; [exact UI|]. split; [exact UE|]. split; [|exact RX].
      rewrite (proj1 EX); [exact GX| |lia]. rewrite (bu_reg _ _ _ _ _ _ BU _ _ H). lia. }
    assert (VA : exists vals, needs c (map (dep_name b (k_slots k)) deps) = Ok vals /\
       forall i, (i < N.to_nat w)%nat -> exists xs, lanes_of i vals = Some xs /\ length xs = length deps /\
         forall q d x, nth_error deps q = Some d -> nth_error xs q = Some x -> mn d (p + N.of_nat i) x).
    { clear names. revert DL. clear EK. induction deps as [|d deps IH]; intros DL.
      - exists []. split; [reflexivity|]. intros i I. exists []. split; [reflexivity|]. split; [reflexivity|].
        intros [|] d x D; discriminate.
      - destruct IH as (vals & N1 & N2). { intros d' D'. apply DL. now right. }
        destruct (DL d (or_introl eq_refl)) as (u & x & UI & UE & GX & RX).
        exists (x :: vals). split.
        + cbn [map needs]. unfold need. rewrite GX. cbn [obind]. rewrite N1. reflexivity.
        + intros i I. destruct (N2 i I) as (xs & X1 & X2 & X3).
          destruct (rep_lane u p x i UI RX I) as (y & Y1 & Y2).
          exists (y :: xs). cbn [lanes_of]. rewrite Y1. cbn [bind]. rewrite X1. cbn [bind].
          split; [reflexivity|]. split; [cbn; congruence|].
          intros [|q] d' z D Z; cbn in D, Z; [|eauto]. inversion D. inversion Z. subst. exact Y2. }
    destruct VA as (vals & N1 & N2).
    assert (VB : exists vals', needs c names = Ok vals' /\
       forall i, (i < N.to_nat w)%nat -> exists a, lanes_of i vals' = Some a /\
          args_of sem b size cb g m0 deps call (p + N.of_nat i) a).
    { unfold names.
      assert (BS : call = true -> exists q i, k_base k = Some (q, i) /\
                   get_reg (c_regs c) (base_name b q) = Some (Sc cb)).
      { intros ->. pose proof (bu_base _ _ _ _ _ _ BU) as BB.
        destruct (k_base k) as [[q i]|] eqn:KB.
        - exists q, i. split; [reflexivity|].
          pose proof (ri_base _ _ _ R q i KB) as RB.
          rewrite (proj1 EX); [exact RB| |]; unfold base_name, vname, idx; cbn [fst snd];
            destruct BB as (-> & _); [|pose proof regs0_pos; lia].
          rewrite (bu_reg _ _ _ _ _ _ BU _ _ H). pose proof (slot_lt _ _ H). lia.
        - exfalso. destruct BB as [BB _]. unfold needs_calls in BB.
          assert (existsb is_call g = true); [|congruence].
          apply existsb_exists. exists v. split; [exact VI|]. unfold is_call. now rewrite EK. }
      assert (NA : forall c l1 l2 a1 a2, needs c l1 = Ok a1 -> needs c l2 = Ok a2 -> needs c (l1 ++ l2) = Ok (a1 ++ a2)).
      { intros c0. induction l1 as [|n1 l1 IH]; intros l2 a1 a2 A1 A2.
        - inversion A1. exact A2.
        - cbn [app needs] in *. destruct (need c0 n1) as [x| |]; try discriminate. cbn [obind] in *.
          destruct (needs c0 l1) as [y| |] eqn:Q; try discriminate. cbn [obind] in *.
          inversion A1. rewrite (IH l2 y a2 eq_refl A2). reflexivity. }
      assert (LA : forall i l1 l2 a1 a2, lanes_of i l1 = Some a1 -> lanes_of i l2 = Some a2 ->
                     lanes_of i (l1 ++ l2) = Some (a1 ++ a2)).
      { intros i. induction l1 as [|n1 l1 IH]; intros l2 a1 a2 A1 A2.
        - inversion A1. exact A2.
        - cbn [app lanes_of] in *. destruct (lane_of i n1) as [x|]; try discriminate. cbn [bind] in *.
          destruct (lanes_of i l1) as [y|] eqn:Q; try discriminate. cbn [bind] in *.
          inversion A1. rewrite (IH l2 y a2 eq_refl A2). reflexivity. }
      destruct call.
      - destruct (BS eq_refl) as (q & i & KB & GB). rewrite KB. exists (vals ++ [Sc cb]). split.
        + apply NA; [exact N1|]. cbn [needs]. unfold need. rewrite GB. reflexivity.
        + intros i0 I. destruct (N2 i0 I) as (xs & X1 & X2 & X3). exists (xs ++ [cb]). split.
          * apply LA; [exact X1|reflexivity].
          * exists xs. auto.
      - exists (vals ++ []). split.
        + apply NA; [exact N1|]. destruct (k_base k) as [[q i]|]; reflexivity.
        + intros i0 I. destruct (N2 i0 I) as (xs & X1 & X2 & X3). exists (xs ++ []). split.
          * apply LA; [exact X1|reflexivity].
          * exists xs. auto. }
    destruct VB as (vals' & V1 & V2).
    destruct (op_lanes_ok v op deps call p (c_mem c) vals' VI EK G (N.to_nat w) 0) as (l & ev & O1 & O2 & O3 & O4).
    { intros q Q. split; [lia|]. apply V2. lia. }
    set (c1 := {| c_regs := c_regs c; c_mem := c_mem c; c_log := if v_side v then c_log c ++ ev else c_log c |}).
    assert (EF : effects_ok s p (c_log c) (c_log c1)).
    { unfold c1, effects_ok. cbn [c_log]. fold v. destruct (v_side v) eqn:SD.
      - exists ev. split; [reflexivity|]. intros lane. destruct (O4 lane) as [P1 P2]. split.
        + intros Q _. destruct P1 as (a & A1 & A2); [lia|]. exists (op, lane, a). split; [exact A1|].
          exists op, deps, call, a. auto.
        + intros [Q|Q]; [|discriminate]. apply P2. lia.
      - exists []. rewrite app_nil_r. split; [reflexivity|]. intros lane. split; [congruence|reflexivity]. }
    destruct (N.eqb_spec (v_type v) T_Void) as [TV|TV].
    + cbn [exec exec1]. rewrite V1. cbn [obind]. rewrite O1. cbn [obind fst snd]. fold c1.
      exists c1. split; [reflexivity|]. split; [reflexivity|]. split; [apply extends_refl|].
      split; [congruence|]. split; [reflexivity|exact EF].
    + assert (X : exists x, exec1 sem T w (k_params k) p e c (IOp (Some (vname b (v_type v) (s_reg s) 0)) op names (v_side v)) =
                    set_reg T c1 (vname b (v_type v) (s_reg s) 0) x /\ rep v p x).
      { cbn [exec1]. rewrite V1. cbn [obind]. rewrite O1. cbn [obind fst snd]. fold c1.
        clear CAN0 R G DL EF. clearbody c1. unfold rep. unfold T in *. unfold generate at 1. cbn [t_backend]. destruct b.
        - eexists. split; [reflexivity|]. right. split; [intro Q; now apply (NP Q)|].
          exists l. split; [reflexivity|]. split; [exact O2|]. intros i y Y. exact (O3 i y Y).
        - rewrite AL in O2. change (N.to_nat 1) with 1%nat in O2.
          destruct l as [|y [|? ?]]; try discriminate. eexists. split; [reflexivity|].
          exists y. split; [reflexivity|]. pose proof (O3 O y eq_refl) as Q. now rewrite N.add_0_r in Q.
        - rewrite AL in O2. change (N.to_nat 1) with 1%nat in O2.
          destruct l as [|y [|? ?]]; try discriminate. eexists. split; [reflexivity|].
          exists y. split; [reflexivity|]. pose proof (O3 O y eq_refl) as Q. now rewrite N.add_0_r in Q. }
      destruct X as (x & X1 & X2). cbn [exec]. rewrite X1.
      rewrite set_ok by (unfold c1; cbn [c_regs]; exact CAN0). cbn [obind].
      eexists. split; [reflexivity|]. cbn [c_regs c_mem c_log]. split; [reflexivity|].
      split; [apply extends_cons; now left|].
      split; [intros _; eexists; split; [apply get_eq|exact X2]|]. split; [|exact EF].
      intros pf sfx S0 S5. unfold vname, c1. cbn [get_reg name_eqb c_regs].
      rewrite (proj2 (N.eqb_neq 0 sfx)), !andb_false_r by congruence. reflexivity.
Qed.

(** * Loads of inputs and stores of outputs *)
Lemma exec_app p e c l1 l2 : exec sem T w (k_params k) p e c (l1 ++ l2) =
  obind (exec sem T w (k_params k) p e c l1) (fun c' => exec sem T w (k_params k) p e c' l2).
Proof.
  revert c. induction l1 as [|i l1 IH]; intros c; [reflexivity|]. cbn [app exec].
  destruct (exec1 sem T w (k_params k) p e c i); cbn [obind]; auto.
Qed.

Lemma choose {A} (P : nat -> A -> Prop) : forall n i,
  (forall q, (i <= q < i + n)%nat -> exists x, P q x) ->
  exists l, length l = n /\ forall q x, nth_error l q = Some x -> P (i + q)%nat x.
Proof.
  induction n as [|n IH]; intros i H.
  - exists []. split; [reflexivity|]. intros [|] x X; discriminate.
  - destruct (H i ltac:(lia)) as [x X]. destruct (IH (S i)) as (l & L & Q). { intros q Q. apply H. lia. }
    exists (x :: l). split; [cbn; congruence|]. intros [|q] y Y; cbn in Y.
    + inversion Y. subst. now rewrite Nat.add_0_r.
    + replace (i + S q)%nat with (S i + q)%nat by lia. auto.
Qed.

Lemma eval_value v data lane m : In v g -> v_kind v = KEval data -> lane < lns -> good m ->
  exists x, holds m (data + (if v_size v =? 1 then 0 else lane) * tsz v) (tsz v) x /\
            mn (v_id v) lane (if v_type v =? T_Bool then truth b x else x).
Proof.
  intros V EK L G. destruct (de_some _ _ _ _ _ _ _ DE v lane V L) as [y Y].
  assert (YY : mn (v_id v) lane y) by exact Y.
  inversion Y; match goal with
    | X : In ?u g, E : v_id ?u = v_id v |- _ => pose proof (id_inj _ _ X V E); subst u end;
    match goal with X : v_kind v = _ |- _ => rewrite EK in X; inversion X; subst end.
  match goal with X : holds m0 _ _ ?z |- _ => exists z; destruct X as [HB HH]; split; [split; [exact HB|]|exact YY] end.
  intros j J. rewrite <- (HH j J). apply (proj2 (good_same m G)).
  apply (io_eval _ _ _ _ _ _ _ _ IO); trivial.
Qed.

Lemma size_pow t : type_size t <> 0 -> exists f, type_size t = 2 ^ f.
Proof.
  unfold type_size. destruct (N.to_nat t) as [|[|[|[|[|[|[|[|[|[|[|[|[|[|[|[|q]]]]]]]]]]]]]]]]; cbn; intros H;
    try congruence; try (now exists 0); try (now exists 1); try (now exists 2); try (now exists 3).
  destruct q; congruence.
Qed.

Lemma typed_out v : In v g -> is_output size v -> tsz v <> 0 /\ v_type v <> T_Pointer /\ v_type v <> T_Void.
Proof.
  intros V (O & Z & _). assert (TV : v_type v <> T_Void).
  { intros TV. destruct (wf_void _ _ _ WF v V TV). congruence. }
  split; [now apply (wf_types _ _ _ WF)|]. split; [|exact TV].
  intros TP. destruct (wf_pointer _ _ _ WF v V TP) as (_ & Q & _). congruence.
Qed.

Lemma store_right v ptr p l m : In v g -> is_output size v -> outp v ptr -> good m ->
  p + N.of_nat (length l) <= lns ->
  (forall i y, nth_error l i = Some y -> mn (v_id v) (p + N.of_nat i) y) ->
  exists m', store_each m (ptr + tsz v * p) (tsz v) l = Some m' /\ grows m m' /\
    forall lane, p <= lane < p + N.of_nat (length l) -> wrote v lane m'.
Proof.
  intros V O P G L H. destruct (typed_out v V O) as (TZ & _ & _).
  destruct (store_each_ok (tsz v) ltac:(lia) l m (ptr + tsz v * p)) as (m' & S1 & S2).
  { intros q Q. assert (QL : q / tsz v < N.of_nat (length l)) by (apply N.div_lt_upper_bound; lia).
    pose proof (N.div_mod q (tsz v) TZ) as DM. pose proof (N.mod_lt q (tsz v) TZ) as ML.
    pose proof (cell_inside v ptr (p + q / tsz v) (q mod tsz v) P ltac:(lia) ML) as I.
    replace (ptr + (p + q / tsz v) * tsz v + q mod tsz v) with (ptr + tsz v * p + q) in I by lia.
    pose proof (bo_access _ _ _ _ BO _ _ P I) as A. intros C. apply A.
    apply (proj1 (good_same m G)). exact C. }
  exists m'. split; [exact S1|]. split.
  - intros a. rewrite S2. destruct (N.leb_spec (ptr + tsz v * p) a); [|now left].
    destruct (N.ltb_spec a (ptr + tsz v * p + N.of_nat (length l) * tsz v)); [|now left]. cbn [andb]. right.
    set (q := a - (ptr + tsz v * p)). assert (Q : q < N.of_nat (length l) * tsz v) by (unfold q; lia).
    assert (QL : q / tsz v < N.of_nat (length l)) by (apply N.div_lt_upper_bound; lia).
    pose proof (N.div_mod q (tsz v) TZ) as DM. pose proof (N.mod_lt q (tsz v) TZ) as ML.
    destruct (nth_error l (N.to_nat (q / tsz v))) as [y|] eqn:E; [|apply nth_error_None in E; lia].
    rewrite (nth_error_nth _ _ 0 E). eexists. split; [reflexivity|].
    exists v, ptr, (p + q / tsz v), (q mod tsz v), y.
    split; [exact V|]. split; [exact O|]. split; [exact P|]. split; [lia|]. split; [exact ML|].
    split; [unfold q in *; lia|]. split; [|reflexivity].
    pose proof (H _ _ E) as M. rewrite N2Nat.id in M. exact M.
  - intros lane LL. assert (LQ : exists q, lane = p + q) by (exists (lane - p); lia). destruct LQ as [q ->].
    destruct (nth_error l (N.to_nat q)) as [y|] eqn:E; [|apply nth_error_None in E; lia].
    exists ptr, y. split; [exact P|]. split.
    { pose proof (H _ _ E) as M. rewrite N2Nat.id in M. exact M. }
    intros j J. rewrite S2.
    assert ((q + 1) * tsz v <= N.of_nat (length l) * tsz v) by (apply N.mul_le_mono_r; lia).
    destruct (N.leb_spec (ptr + tsz v * p) (ptr + (p + q) * tsz v + j)); [|lia].
    destruct (N.ltb_spec (ptr + (p + q) * tsz v + j) (ptr + tsz v * p + N.of_nat (length l) * tsz v)); [|lia].
    cbn [andb].
    assert (E1 : ptr + (p + q) * tsz v + j - (ptr + tsz v * p) = q * tsz v + j) by lia.
    rewrite E1, N.div_add_l, (N.div_small j), N.add_0_r by lia.
    rewrite (N.add_comm (q * tsz v)), N.mod_add, (N.mod_small j) by lia.
    rewrite (nth_error_nth _ _ 0 E). reflexivity.
Qed.

Lemma vec_aligned v a p : In v g -> tsz v <> 0 -> b = LLVM -> p mod w = 0 -> a mod (tsz v * w) = 0 ->
  aligned (a + tsz v * p) (u32 (tsz v * w)) = Ok tt.
Proof.
  intros V TZ EB PW A. pose proof AL as AL'. rewrite EB in AL'. pose proof wpos.
  pose proof (al_type _ _ AL' v V) as LE. unfold tsz in *.
  assert (U : u32 (type_size (v_type v) * w) = type_size (v_type v) * w).
  { unfold u32. apply N.mod_small. lia. }
  rewrite U. unfold aligned. assert (NZ : type_size (v_type v) * w <> 0) by (apply N.neq_mul_0; lia).
  rewrite (proj2 (N.eqb_neq _ _) NZ). cbn [negb andb].
  apply N.mod_divide in PW; [|lia]. destruct PW as [z ->].
  replace (a + type_size (v_type v) * (z * w)) with (a + z * (type_size (v_type v) * w)) by lia.
  rewrite N.mod_add, A by exact NZ. reflexivity.
Qed.

Lemma divides64 v a : In v g -> tsz v <> 0 -> b = LLVM -> a mod 64 = 0 -> a mod (tsz v * w) = 0.
Proof.
  intros V TZ EB A. pose proof AL as AL'. rewrite EB in AL'. pose proof wpos.
  pose proof (al_type _ _ AL' v V) as LE. unfold tsz in *.
  destruct (size_pow _ TZ) as [f F]. destruct (al_width _ _ AL') as (h & W & _). rewrite F, W, <- N.pow_add_r in *.
  assert (f + h <= 6).
  { destruct (N.le_gt_cases (f + h) 6) as [|C]; [assumption|exfalso].
    assert (2 ^ 7 <= 2 ^ (f + h)) by (apply N.pow_le_mono_r; lia). lia. }
  assert (NZ : 2 ^ (f + h) <> 0) by (apply N.pow_nonzero; lia).
  apply N.mod_divide; [exact NZ|]. apply N.divide_trans with 64; [|apply N.mod_divide; [lia|exact A]].
  exists (2 ^ (6 - (f + h))). rewrite <- N.pow_add_r. replace (6 - (f + h) + (f + h)) with 6 by lia. reflexivity.
Qed.

Definition chunk_ok (p e : N) (j : nat) (s : slot) : Prop := forall r m log,
  reg_inv j p r -> good m ->
  exists c', exec sem T w (k_params k) p e {| c_regs := r; c_mem := m; c_log := log |} (slot_code b w k s) = Ok c' /\
    reg_inv (S j) p (c_regs c') /\ grows m (c_mem c') /\
    (is_output size (s_var s) -> forall lane, p <= lane < p + w -> wrote (s_var s) lane (c_mem c')) /\
    effects_ok s p log (c_log c').

Lemma no_effect v : In v g -> (forall op d c, v_kind v <> KOp op d c) -> v_side v = false.
Proof.
  intros V H. destruct (v_side v) eqn:S1; [|reflexivity].
  destruct (wf_side _ _ _ WF v V S1) as (? & ? & ? & E). exfalso. eapply H. exact E.
Qed.

Ltac nums := repeat match goal with |- context [?a =? ?c] =>
  let v := eval vm_compute in (a =? c) in
  match v with true => change (a =? c) with true | false => change (a =? c) with false end end.
Ltac sr FR RL := rewrite set_ok; [cbn [obind c_regs c_mem c_log]|
  apply can_intro; [intros _; cbn [c_regs]; repeat (rewrite get_same; nums); apply FR | exact RL]].
Ltac gt := unfold need_sc, need_ve, need; cbn [c_regs]; repeat (rewrite get_same; nums); cbn [obind].
Ltac ext := repeat (eapply extends_trans; [|apply extends_cons; first [left; reflexivity | right; reflexivity]]);
  apply extends_refl.

Lemma llvm_chunk p e j s : b = LLVM -> nth_error (k_slots k) j = Some s ->
  p mod w = 0 -> p + w <= lns -> lns <= 2 ^ 32 -> e < 2 ^ 32 -> p + w <= e <= size \/ e = size ->
  chunk_ok p e j s.
Proof.
  intros EB H PW PL L32 E32 EE r m log R G.
  pose proof (slot_var _ _ H) as SV.
  assert (VI : In (s_var s) g) by (eapply nth_error_In; exact SV).
  pose proof (slot_reg_lt _ _ H) as [RP RL].
  assert (FR : forall pf sfx, get_reg r (pf, s_reg s, sfx) = None) by (intros; eapply reg_fresh; eauto).
  pose proof (bu_ok _ _ _ _ _ _ BU s (nth_error_In _ _ H)) as SO. set (v := s_var s) in *.
  pose proof AL as AL'. rewrite EB in AL'. pose proof wpos as WP.
  assert (PAR : forall i x, s_off s = N.of_nat i * 8 -> nth_error (k_params k) i = Some x ->
             param (k_params k) (s_off s / 8) = Ok x).
  { intros i x O X. unfold param. rewrite O, N.div_mul, Nat2N.id, X by lia. reflexivity. }
  assert (SC : slot_code b w k s = llvm_slot w k s) by (unfold slot_code; now rewrite EB). rewrite SC. clear SC. unfold llvm_slot. rewrite <- EB. fold v. fold (tsz v).
  unfold slot_ok in SO. fold v in SO.
  destruct (s_ptype s) eqn:PT.
  - assert (NOUT : is_output size v -> False).
    { destruct SO as [(d & K & _)|(d & K & _ & _ & Q)]; intros (A & B & C); [unfold is_eval in C; now rewrite K in C|].
      apply Q. auto. }
    destruct SO as [(data & EK & i & OF & PI & NP)|(bits & EK & TP & (i & OF & PI & NP) & _)].
    + (* evaluated *)
      assert (TP : v_type v <> T_Pointer).
      { intros TP. destruct (wf_pointer _ _ _ WF v VI TP) as (_ & _ & Q). unfold is_lit in Q. now rewrite EK in Q. }
      assert (TV : v_type v <> T_Void).
      { intros TV. destruct (wf_void _ _ _ WF v VI TV) as (_ & ? & ? & ? & Q). congruence. }
      pose proof (wf_types _ _ _ WF v VI TV) as TZ. fold (tsz v) in TZ.
      assert (IL : is_lit v = false) by (unfold is_lit; now rewrite EK). rewrite IL.
      rewrite (proj2 (N.eqb_neq _ _) TP). rewrite andb_false_r. cbn [negb orb].
      assert (SD : v_side v = false) by (apply no_effect; [exact VI|congruence]).
      assert (OT : off_text b (s_off s) = s_off s / 8) by (unfold off_text; now rewrite EB). rewrite OT.
      specialize (PAR _ _ OF NP). unfold vname. set (pf := match b with METAL => 20 | _ => type_prefix (v_type v) end).
      specialize (FR pf).
      pose proof (al_eval _ _ AL' v data VI EK) as UA. unfold mapped_unaligned in UA.
      pose proof (al_type _ _ AL' v VI) as LE. fold (tsz v) in UA, LE.
      rewrite N.min_r in UA by lia.
      destruct (N.eqb_spec (v_size v) 1) as [S1|S1]; cbn [negb].
      * (* scalar *)
        rewrite app_nil_r.
        assert (VX : exists x, holds m data (tsz v) x /\
                   forall lane, lane < lns -> mn (v_id v) lane (if v_type v =? T_Bool then truth b x else x)).
        { destruct (eval_value v data p m VI EK ltac:(lia) G) as (x & X1 & _).
          rewrite S1 in X1. change (1 =? 1) with true in X1. rewrite N.mul_0_l, N.add_0_r in X1.
          exists x. split; [exact X1|]. intros lane L. destruct (eval_value v data lane m VI EK L G) as (y & Y1 & Y2).
          rewrite S1 in Y1. change (1 =? 1) with true in Y1. rewrite N.mul_0_l, N.add_0_r in Y1.
          now rewrite (holds_det _ _ _ _ _ X1 Y1). }
        destruct VX as (x & X1 & X2).
        assert (LD : load m data (N.to_nat (tsz v)) = Some x) by (apply load_holds; now rewrite N2Nat.id).
        assert (AS : aligned data (align_s v) = Ok tt).
        { unfold align_s. fold (tsz v). rewrite UA. destruct (data mod (w * tsz v) =? 0) eqn:Q; cbn [negb].
          - apply N.eqb_eq in Q. unfold aligned. rewrite (proj2 (N.eqb_neq _ _) TZ). cbn [negb andb].
            assert (D : data mod tsz v = 0).
            { apply N.mod_divide; [exact TZ|]. apply N.divide_trans with (w * tsz v); [now exists w|].
              apply N.mod_divide; [apply N.neq_mul_0; lia|exact Q]. }
            rewrite D. reflexivity.
          - unfold aligned. rewrite N.mod_1_r. reflexivity. }
        destruct (v_type v =? T_Bool) eqn:TB.
        -- cbn [app exec exec1]. sr FR RL. gt. rewrite PAR. cbn [obind]. sr FR RL. gt.
           rewrite AS. cbn [obind]. rewrite LD. cbn [or_ub obind]. sr FR RL. gt. sr FR RL. gt. sr FR RL. gt. sr FR RL.
           eexists. split; [reflexivity|]. cbn [c_regs c_mem c_log]. split.
           { eapply reg_inv_next; [exact H|exact R|ext|]. intros _. fold v. unfold vname. fold pf.
             eexists. rewrite get_same. nums. split; [reflexivity|].
             unfold rep. rewrite EB. right. split; [exact TP|]. eexists. split; [reflexivity|].
             split; [apply repeat_length|]. intros q y Y.
             assert (QL : (q < N.to_nat w)%nat) by (rewrite <- (repeat_length (x mod 2) (N.to_nat w)); apply nth_error_Some; congruence).
             apply nth_error_In, repeat_spec in Y. subst y. specialize (X2 (p + N.of_nat q) ltac:(lia)).
             unfold truth in X2. rewrite EB in X2. exact X2. }
           split; [apply grows_refl|]. split; [intros Q; now apply NOUT in Q|now apply effects_none].
        -- cbn [app exec exec1]. sr FR RL. gt. rewrite PAR. cbn [obind]. sr FR RL. gt.
           rewrite AS. cbn [obind]. rewrite LD. cbn [or_ub obind]. sr FR RL. gt. sr FR RL. gt. sr FR RL.
           eexists. split; [reflexivity|]. cbn [c_regs c_mem c_log]. split.
           { eapply reg_inv_next; [exact H|exact R|ext|]. intros _. fold v. unfold vname. fold pf.
             eexists. rewrite get_same. nums. split; [reflexivity|].
             unfold rep. rewrite EB. right. split; [exact TP|]. eexists. split; [reflexivity|].
             split; [apply repeat_length|]. intros q y Y.
             assert (QL : (q < N.to_nat w)%nat) by (rewrite <- (repeat_length x (N.to_nat w)); apply nth_error_Some; congruence).
             apply nth_error_In, repeat_spec in Y. subst y. exact (X2 (p + N.of_nat q) ltac:(lia)). }
           split; [apply grows_refl|]. split; [intros Q; now apply NOUT in Q|now apply effects_none].
      * (* vector *)
        destruct (choose (fun q x => holds m (data + (p + N.of_nat q) * tsz v) (tsz v) x /\
                    mn (v_id v) (p + N.of_nat q) (if v_type v =? T_Bool then truth b x else x)) (N.to_nat w) 0)
          as (xs & LX & HX).
        { intros q Q. destruct (eval_value v data (p + N.of_nat q) m VI EK ltac:(lia) G) as (x & X1 & X2).
          rewrite (proj2 (N.eqb_neq _ _) S1) in X1. exists x. split; [exact X1|exact X2]. }
        assert (LD : load_each m (data + tsz v * p) (tsz v) (N.to_nat w) = Some xs).
        { apply load_each_holds; [exact LX|]. intros q x Q. destruct (HX q x Q) as [HX1 _].
          cbn [Nat.add] in HX1.
          replace (data + tsz v * p + N.of_nat q * tsz v) with (data + (p + N.of_nat q) * tsz v) by lia.
          exact HX1. }
        assert (AV : aligned (data + tsz v * p) (align_v w v) = Ok tt).
        { unfold align_v. fold (tsz v). rewrite UA. destruct (data mod (w * tsz v) =? 0) eqn:Q; cbn [negb].
          - apply N.eqb_eq in Q. apply vec_aligned; trivial. now rewrite N.mul_comm.
          - unfold aligned. rewrite N.mod_1_r. reflexivity. }
        destruct (v_type v =? T_Bool) eqn:TB.
        -- cbn [app exec exec1]. sr FR RL. gt. rewrite PAR. cbn [obind]. sr FR RL. gt. sr FR RL. gt.
           rewrite AV. cbn [obind]. rewrite LD. cbn [or_ub obind]. sr FR RL. gt. sr FR RL.
           eexists. split; [reflexivity|]. cbn [c_regs c_mem c_log]. split.
           { eapply reg_inv_next; [exact H|exact R|ext|]. intros _. fold v. unfold vname. fold pf.
             eexists. rewrite get_same. nums. split; [reflexivity|].
             unfold rep. rewrite EB. right. split; [exact TP|]. eexists. split; [reflexivity|].
             split; [now rewrite map_length|]. intros q y Y. rewrite nth_error_map in Y.
             destruct (nth_error xs q) as [x|] eqn:Q; [|discriminate]. cbn [option_map] in Y. inversion Y.
             destruct (HX q x Q) as [_ X2]. unfold truth in X2. rewrite EB in X2. exact X2. }
           split; [apply grows_refl|]. split; [intros Q; now apply NOUT in Q|now apply effects_none].
        -- cbn [app exec exec1]. sr FR RL. gt. rewrite PAR. cbn [obind]. sr FR RL. gt. sr FR RL. gt.
           rewrite AV. cbn [obind]. rewrite LD. cbn [or_ub obind]. sr FR RL.
           eexists. split; [reflexivity|]. cbn [c_regs c_mem c_log]. split.
           { eapply reg_inv_next; [exact H|exact R|ext|]. intros _. fold v. unfold vname. fold pf.
             eexists. rewrite get_same. nums. split; [reflexivity|].
             unfold rep. rewrite EB. right. split; [exact TP|]. eexists. split; [reflexivity|].
             split; [exact LX|]. intros q y Y. exact (proj2 (HX q y Y)). }
           split; [apply grows_refl|]. split; [intros Q; now apply NOUT in Q|now apply effects_none].
    + (* pointer *)
      destruct (wf_pointer _ _ _ WF v VI TP) as (S1 & _ & IL). rewrite IL, S1, TP. nums. cbn [andb].
      change (T_Pointer =? T_Pointer) with true. rewrite app_nil_r.
      assert (SD : v_side v = false) by (apply no_effect; [exact VI|congruence]).
      assert (OT : off_text b (s_off s) = s_off s / 8) by (unfold off_text; now rewrite EB). rewrite OT.
      specialize (PAR _ _ OF NP). unfold vname. set (pf := match b with METAL => 20 | _ => type_prefix T_Pointer end).
      specialize (FR pf). cbn [app exec exec1]. sr FR RL. gt. rewrite PAR. cbn [obind]. sr FR RL.
      eexists. split; [reflexivity|]. cbn [c_regs c_mem c_log]. split.
      { eapply reg_inv_next; [exact H|exact R|ext|]. intros _. fold v. rewrite TP. unfold vname. fold pf.
        eexists. rewrite get_same. nums. split; [reflexivity|].
        unfold rep. rewrite EB. left. eauto. }
      split; [apply grows_refl|]. split; [intros Q; now apply NOUT in Q|now apply effects_none].
  - (* output *)
    destruct SO as (OV & ptr & PB & i & OF & PI & NP). destruct (typed_out v VI OV) as (TZ & TP & TV).
    pose proof (bo_align _ _ _ _ BO _ PB) as A64. cbn [snd] in A64.
    assert (NE : is_eval v = false) by apply OV.
    pose proof (al_out _ _ AL' v VI NE) as UA.
    cbn [negb orb andb].
    assert (OT : off_text b (s_off s) = s_off s / 8) by (unfold off_text; now rewrite EB). rewrite OT.
    specialize (PAR _ _ OF NP). set (nm := vname b (v_type v) (s_reg s)).
    set (pf := match b with METAL => 20 | _ => type_prefix (v_type v) end).
    assert (NM : forall q, nm q = (pf, s_reg s, q)) by reflexivity.
    assert (FR' := FR pf).
    set (c1 := {| c_regs := (nm 3, Sc (ptr + tsz v * p)) :: (nm 2, Sc ptr) :: (nm 1, Pa (s_off s / 8)) :: r;
                  c_mem := m; c_log := log |}).
    assert (X1 : exec sem T w (k_params k) p e {| c_regs := r; c_mem := m; c_log := log |}
               (([AParam (nm 1) (s_off s / 8); ALoadPtr (nm 2) (nm 1)] ++ [AElem (nm 3) (nm 2) (tsz v)])) = Ok c1).
    { unfold c1. rewrite ?(NM 1), ?(NM 2), ?(NM 3), ?(NM 7), ?(NM 0), ?(NM 5). cbn [app exec exec1]. sr FR' RL. gt. rewrite PAR. cbn [obind]. sr FR' RL. gt. sr FR' RL. reflexivity. }
    rewrite exec_app, X1. cbn [obind]. rewrite exec_app.
    destruct (render_ok j p e s c1 r H R) as (c2 & Y1 & Y2 & Y3 & Y4 & Y5 & Y6); trivial.
    { unfold c1. cbn [c_regs]. rewrite ?(NM 1), ?(NM 2), ?(NM 3), ?(NM 7), ?(NM 0), ?(NM 5). ext. }
    { intros _. split; [exact E32|exact EE]. }
    { intros Q. now rewrite EB. }
    { intros _. fold v. fold nm. unfold c1. cbn [c_regs]. rewrite ?(NM 1), ?(NM 2), ?(NM 3), ?(NM 7), ?(NM 0), ?(NM 5).
      repeat (rewrite get_same; nums). split; apply FR'. }
    rewrite Y1. cbn [obind]. destruct (Y4 TV) as (x & GX & RX). fold v in GX. fold nm in GX.
    unfold rep in RX. rewrite EB in RX. destruct RX as [(_ & Q & _)|(_ & l & -> & LL & HL)]; [now elim TP|].
    destruct (store_right v ptr p l m VI OV PB G) as (m' & Z1 & Z2 & Z3); [lia|exact HL|].
    assert (AV : aligned (ptr + tsz v * p) (align_v w v) = Ok tt).
    { unfold align_v. rewrite UA. apply vec_aligned; trivial. now apply divides64. }
    assert (G3 : get_reg (c_regs c2) (nm 3) = Some (Sc (ptr + tsz v * p))).
    { rewrite NM, Y5 by discriminate. unfold c1. cbn [c_regs]. rewrite NM, get_same. reflexivity. }
    destruct (v_type v =? T_Bool) eqn:TB.
    + cbn [exec exec1]. unfold need_ve, need_sc, need. rewrite GX. cbn [obind].
      rewrite set_ok.
      2:{ apply can_intro; [|exact RL]. intros _. rewrite NM, Y5 by discriminate. unfold c1. cbn [c_regs]. rewrite ?(NM 1), ?(NM 2), ?(NM 3), ?(NM 7), ?(NM 0), ?(NM 5).
          repeat (rewrite get_same; nums). apply FR'. }
      cbn [obind c_regs c_mem c_log]. rewrite get_eq. cbn [obind].
      rewrite (NM 7), (NM 3), get_same. nums. rewrite <- (NM 3), G3. cbn [obind]. rewrite AV. cbn [obind].
      rewrite Y2. unfold c1 at 1. cbn [c_mem]. rewrite Z1. cbn [or_ub obind]. eexists. split; [reflexivity|].
      unfold set_mem. cbn [c_regs c_mem c_log]. split.
      { eapply reg_inv_next; [exact H|exact R| |].
        - eapply extends_trans; [|apply extends_cons; now left]. eapply extends_trans; [|exact Y3].
          unfold c1. cbn [c_regs]. rewrite ?(NM 1), ?(NM 2), ?(NM 3), ?(NM 7), ?(NM 0), ?(NM 5). ext.
        - intros _. fold v. fold nm. rewrite ?(NM 0), ?(NM 7), get_same. nums. rewrite <- (NM 0), GX.
          eexists. split; [reflexivity|]. unfold rep. rewrite EB. right. split; [exact TP|]. eauto. }
      split; [exact Z2|]. split; [|exact Y6]. intros _ lane LN. apply Z3. lia.
    + cbn [exec exec1]. unfold need_ve, need_sc, need. rewrite GX. cbn [obind]. rewrite G3. cbn [obind].
      rewrite AV. cbn [obind]. rewrite Y2. unfold c1 at 1. cbn [c_mem]. rewrite Z1. cbn [or_ub obind].
      eexists. split; [reflexivity|]. unfold set_mem. cbn [c_regs c_mem c_log]. split.
      { eapply reg_inv_next; [exact H|exact R| |].
        - eapply extends_trans; [|exact Y3]. unfold c1. cbn [c_regs]. rewrite ?(NM 1), ?(NM 2), ?(NM 3), ?(NM 7), ?(NM 0), ?(NM 5). ext.
        - intros _. fold v. fold nm. rewrite GX.
          eexists. split; [reflexivity|]. unfold rep. rewrite EB. right. split; [exact TP|]. eauto. }
      split; [exact Z2|]. split; [|exact Y6]. intros _ lane LN. apply Z3. lia.
  - (* register *)
    destruct SO as (NE & NOUT & NPT). cbn [app].
    destruct (render_ok j p e s {| c_regs := r; c_mem := m; c_log := log |} r H R)
      as (c2 & Y1 & Y2 & Y3 & Y4 & Y5 & Y6); trivial.
    { apply extends_refl. }
    { intros _. split; [exact E32|exact EE]. }
    { intros Q. fold v in Q. destruct (wf_pointer _ _ _ WF v VI Q) as (_ & _ & IL). exfalso. now apply NPT. }
    { intros _. unfold vname. cbn [c_regs]. split; apply FR. }
    rewrite Y1. exists c2. split; [reflexivity|]. rewrite Y2. cbn [c_regs c_mem c_log] in *.
    split; [eapply reg_inv_next; eauto|]. split; [apply grows_refl|]. split; [intros Q; now elim NOUT|exact Y6].
Qed.

Lemma store_one m a sz x : store_each m a sz [x] = store m a (N.to_nat sz) x.
Proof. cbn [store_each]. destruct (store m a (N.to_nat sz) x); reflexivity. Qed.

Lemma get_miss a x r n : name_eqb a n = false -> get_reg ((a, x) :: r) n = get_reg r n.
Proof. intros H. cbn [get_reg]. now rewrite H. Qed.

Lemma several v : In v g -> (1 <? v_size v) = negb (v_size v =? 1).
Proof.
  intros V. pose proof (wf_size _ _ _ WF). pose proof (wf_sizes _ _ _ WF v V).
  destruct (N.ltb_spec 1 (v_size v)), (N.eqb_spec (v_size v) 1); cbn [negb]; trivial; lia.
Qed.

Lemma bool_val v lane y : In v g -> v_type v = T_Bool -> lane < lns -> mn (v_id v) lane y ->
  (if y =? 0 then 0 else 1) = y.
Proof.
  intros V TB L M. assert (Y : y < 2 ^ bits_of (v_type v)).
  { eapply (de_typed _ _ _ _ _ _ _ DE); eauto. rewrite TB. discriminate. }
  rewrite TB in Y. change (2 ^ bits_of T_Bool) with 2 in Y. destruct (N.eqb_spec y 0); lia.
Qed.

Ltac hits EQS := unfold need_sc, need_ve, need; cbn [c_regs];
  repeat first [rewrite get_eq | rewrite get_miss by EQS]; cbn [obind].

Lemma cuda_chunk p e j s : b = CUDA -> nth_error (k_slots k) j = Some s ->
  p < lns -> lns <= 2 ^ 32 -> chunk_ok p e j s.
Proof.
  intros EB H PL L32 r m log R G.
  pose proof AL as AL'. rewrite EB in AL'. assert (W1 : w = 1) by exact AL'. clear AL'.
  pose proof (slot_var _ _ H) as SV.
  assert (VI : In (s_var s) g) by (eapply nth_error_In; exact SV).
  pose proof (slot_reg_lt _ _ H) as [RP RL].
  pose proof (bu_ok _ _ _ _ _ _ BU s (nth_error_In _ _ H)) as SO. set (v := s_var s) in *.
  assert (U32 : u32 p = p) by (unfold u32; apply N.mod_small; lia).
  assert (CAN : forall rr n, idx n < k_regs k -> can rr n).
  { intros rr n Q. apply can_intro; [intros C; now elim C|exact Q]. }
  assert (CZ : forall rr pf sfx, can rr (pf, 0, sfx)) by (intros; apply CAN; unfold idx; cbn [fst snd]; lia).
  assert (CN : forall rr, can rr (vname b (v_type v) (s_reg s) 0)) by (intros; apply CAN; exact RL).
  set (n0 := vname b (v_type v) (s_reg s) 0).
  assert (N0 : idx n0 = s_reg s) by reflexivity.
  assert (M1 : name_eqb rd0 n0 = false) by (apply name_eqb_idx; rewrite N0; unfold idx, rd0; cbn [fst snd]; lia).
  assert (M2 : name_eqb w0 n0 = false) by (apply name_eqb_idx; rewrite N0; unfold idx, w0; cbn [fst snd]; lia).
  assert (M3 : name_eqb n0 rd0 = false) by (apply name_eqb_idx; rewrite N0; unfold idx, rd0; cbn [fst snd]; lia).
  assert (M4 : name_eqb n0 w0 = false) by (apply name_eqb_idx; rewrite N0; unfold idx, w0; cbn [fst snd]; lia).
  assert (M5 : name_eqb rd0 w0 = false) by reflexivity.
  assert (M6 : name_eqb w0 rd0 = false) by reflexivity.
  assert (PAR : forall i x, s_off s = N.of_nat i * 8 -> nth_error (k_params k) i = Some x ->
             s_off s mod 8 =? 0 = true /\ param (k_params k) (s_off s / 8) = Ok x).
  { intros i x O X. unfold param. rewrite O, N.div_mul, N.mod_mul, Nat2N.id, X by lia. split; reflexivity. }
  assert (SC : slot_code b w k s = cuda_slot k s) by (unfold slot_code; now rewrite EB). rewrite SC. clear SC.
  unfold cuda_slot. rewrite <- EB. fold v. fold (tsz v). fold n0.
  assert (OT : off_text b (s_off s) = s_off s) by (unfold off_text; now rewrite EB). rewrite OT.
  unfold slot_ok in SO. fold v in SO.
  assert (E0 : forall q x rr, extends (s_reg s) r rr -> idx q = s_reg s \/ idx q = 0 -> extends (s_reg s) r ((q, x) :: rr)).
  { intros q x rr A B. eapply extends_trans; [exact A|apply extends_cons; exact B]. }
  assert (RW : forall A (c : conf) n x (f : conf -> outcome A), can (c_regs c) n ->
      obind (set_reg T c n x) f = f {| c_regs := (n, x) :: c_regs c; c_mem := c_mem c; c_log := c_log c |}).
  { intros. now rewrite set_ok. }
  destruct (s_ptype s) eqn:PT.
  - assert (NOUT : is_output size v -> False).
    { destruct SO as [(d & K & _)|(d & K & _ & _ & Q)]; intros (A & B & C); [unfold is_eval in C; now rewrite K in C|].
      apply Q. auto. }
    destruct SO as [(data & EK & i & OF & PI & NP)|(bits & EK & TP & (i & OF & PI & NP) & _)].
    + assert (TV : v_type v <> T_Void).
      { intros TV. destruct (wf_void _ _ _ WF v VI TV) as (_ & ? & ? & ? & Q). congruence. }
      assert (IL : is_lit v = false) by (unfold is_lit; now rewrite EK). rewrite IL.
      assert (SD : v_side v = false) by (apply no_effect; [exact VI|congruence]).
      destruct (PAR _ _ OF NP) as [P1 P2].
      destruct (eval_value v data p m VI EK PL G) as (x & X1 & X2).
      assert (LD : load m (data + (if v_size v =? 1 then 0 else p) * tsz v) (N.to_nat (tsz v)) = Some x).
      { apply load_holds. now rewrite N2Nat.id. }
      set (a := data + (if v_size v =? 1 then 0 else p) * tsz v) in *.
      assert (C1 : exists rr, exec sem T w (k_params k) p e {| c_regs := r; c_mem := m; c_log := log |}
                 ([CParam rd0 (s_off s)] ++ (if 1 <? v_size v then [CMad rd0 (tsz v)] else [])) =
                 Ok {| c_regs := rr; c_mem := m; c_log := log |} /\
                 get_reg rr rd0 = Some (Sc a) /\ extends (s_reg s) r rr).
      { rewrite several by exact VI. unfold a. destruct (v_size v =? 1); cbn [negb app exec exec1]; rewrite P1, P2; cbn [obind];
          (rewrite RW by apply CZ); cbn [obind c_regs c_mem c_log].
        - eexists. split; [reflexivity|]. split; [rewrite get_eq; do 2 f_equal; lia|].
          apply E0; [apply extends_refl|now right].
        - hits ltac:(assumption). rewrite RW by apply CZ. eexists. split; [reflexivity|]. cbn [c_regs c_mem c_log].
          split; [rewrite get_eq, U32; do 2 f_equal; lia|].
          apply E0; [|now right]. apply E0; [apply extends_refl|now right]. }
      destruct C1 as (rr & C1 & C2 & C3).
      rewrite app_assoc, exec_app, C1. cbn [obind app exec exec1].
      unfold need_sc, need. cbn [c_regs c_mem]. rewrite C2. cbn [obind]. rewrite LD. cbn [or_ub obind].
      destruct (v_type v =? T_Bool) eqn:TB.
      * rewrite RW by apply CZ. cbn [exec exec1 c_regs c_mem c_log]. hits ltac:(assumption). rewrite RW by apply CN.
        eexists. split; [reflexivity|]. cbn [c_regs c_mem c_log]. split.
        { eapply reg_inv_next; [exact H|exact R| |].
          - apply E0; [|now left]. apply E0; [exact C3|now right].
          - intros _. eexists. split; [apply get_eq|]. unfold rep. rewrite EB. eexists. split; [reflexivity|].
            unfold truth in X2. rewrite EB in X2. exact X2. }
        split; [apply grows_refl|]. split; [intros Q; now apply NOUT in Q|now apply effects_none].
      * rewrite RW by apply CN.
        eexists. split; [reflexivity|]. cbn [c_regs c_mem c_log]. split.
        { eapply reg_inv_next; [exact H|exact R| |].
          - apply E0; [exact C3|now left].
          - intros _. eexists. split; [apply get_eq|]. unfold rep. rewrite EB. eexists. split; [reflexivity|exact X2]. }
        split; [apply grows_refl|]. split; [intros Q; now apply NOUT in Q|now apply effects_none].
    + destruct (wf_pointer _ _ _ WF v VI TP) as (S1 & _ & IL). rewrite IL.
      assert (SD : v_side v = false) by (apply no_effect; [exact VI|congruence]).
      destruct (PAR _ _ OF NP) as [P1 P2]. cbn [exec exec1]. rewrite P1, P2. cbn [obind]. rewrite RW by apply CN.
      eexists. split; [reflexivity|]. cbn [c_regs c_mem c_log]. split.
      { eapply reg_inv_next; [exact H|exact R| |].
        - apply E0; [apply extends_refl|now left].
        - intros _. eexists. split; [apply get_eq|]. unfold rep. rewrite EB. eexists. split; [reflexivity|].
          now apply means_lit. }
      split; [apply grows_refl|]. split; [intros Q; now apply NOUT in Q|now apply effects_none].
  - destruct SO as (OV & ptr & PB & i & OF & PI & NP). destruct (typed_out v VI OV) as (TZ & TP & TV).
    assert (NE : is_eval v = false) by apply OV.
    destruct (render_ok j p e s {| c_regs := r; c_mem := m; c_log := log |} r H R)
      as (c2 & Y1 & Y2 & Y3 & Y4 & Y5 & Y6); trivial.
    { apply extends_refl. }
    { lia. }
    { intros Q. now rewrite Q in EB. }
    { intros Q. now elim TP. }
    { intros Q. now elim Q. }
    rewrite exec_app, Y1. cbn [obind]. destruct (Y4 TV) as (x & GX & RX). fold v in GX. fold n0 in GX.
    unfold rep in RX. rewrite EB in RX. destruct RX as (y & -> & MY). cbn [c_mem c_regs c_log] in *.
    destruct (store_right v ptr p [y] m VI OV PB G) as (m' & Z1 & Z2 & Z3).
    { cbn [length]. lia. }
    { intros [|[|?]] z Z; cbn in Z; try discriminate. injection Z as <-. now rewrite N.add_0_r. }
    rewrite store_one in Z1. cbn [length] in Z3.
    destruct (PAR _ _ OF NP) as [P1 P2]. cbn [app exec exec1]. rewrite P1, P2. cbn [obind]. rewrite RW by apply CZ.
    cbn [c_regs c_mem c_log]. hits ltac:(assumption). rewrite RW by apply CZ. cbn [c_regs c_mem c_log].
    rewrite U32. replace (p * tsz v + ptr) with (ptr + tsz v * p) by lia.
    destruct (v_type v =? T_Bool) eqn:TB.
    + apply N.eqb_eq in TB. cbn [app exec exec1]. hits ltac:(assumption). rewrite GX. cbn [obind].
      rewrite RW by apply CZ. cbn [c_regs c_mem c_log]. hits ltac:(assumption).
      rewrite (bool_val v p y VI TB PL MY). rewrite Y2, Z1. cbn [or_ub obind].
      eexists. split; [reflexivity|]. unfold set_mem. cbn [c_regs c_mem c_log]. split.
      { eapply reg_inv_next; [exact H|exact R| |].
        - apply E0; [|now right]. apply E0; [|now right]. apply E0; [exact Y3|now right].
        - intros _. exists (Sc y). split; [|unfold rep; rewrite EB; eauto]. fold v. fold n0.
          rewrite !get_miss by assumption. exact GX. }
      split; [exact Z2|]. split; [|exact Y6]. intros _ lane LN. apply Z3. lia.
    + cbn [app exec exec1]. hits ltac:(assumption). rewrite GX. cbn [obind]. hits ltac:(assumption).
      cbn [c_mem]. rewrite Y2, Z1. cbn [or_ub obind].
      eexists. split; [reflexivity|]. unfold set_mem. cbn [c_regs c_mem c_log]. split.
      { eapply reg_inv_next; [exact H|exact R| |].
        - apply E0; [|now right]. apply E0; [exact Y3|now right].
        - intros _. exists (Sc y). split; [|unfold rep; rewrite EB; eauto]. fold v. fold n0.
          rewrite !get_miss by assumption. exact GX. }
      split; [exact Z2|]. split; [|exact Y6]. intros _ lane LN. apply Z3. lia.
  - destruct SO as (NE & NOUT & NPT).
    destruct (render_ok j p e s {| c_regs := r; c_mem := m; c_log := log |} r H R)
      as (c2 & Y1 & Y2 & Y3 & Y4 & Y5 & Y6); trivial.
    { apply extends_refl. }
    { lia. }
    { intros Q. now rewrite Q in EB. }
    { intros Q Q'. now rewrite Q' in EB. }
    { intros Q. now elim Q. }
    rewrite Y1. exists c2. split; [reflexivity|]. rewrite Y2. cbn [c_regs c_mem c_log] in *.
    split; [eapply reg_inv_next; eauto|]. split; [apply grows_refl|]. split; [intros Q; now elim NOUT|exact Y6].
Qed.

Lemma metal_chunk p e j s : b = METAL -> nth_error (k_slots k) j = Some s ->
  p < lns -> lns <= 2 ^ 32 -> chunk_ok p e j s.
Proof.
  intros EB H PL L32 r m log R G.
  pose proof AL as AL'. rewrite EB in AL'. assert (W1 : w = 1) by exact AL'. clear AL'.
  pose proof (slot_var _ _ H) as SV.
  assert (VI : In (s_var s) g) by (eapply nth_error_In; exact SV).
  pose proof (slot_reg_lt _ _ H) as [RP RL].
  assert (FR : forall pf sfx, get_reg r (pf, s_reg s, sfx) = None) by (intros; eapply reg_fresh; eauto).
  pose proof (bu_ok _ _ _ _ _ _ BU s (nth_error_In _ _ H)) as SO. set (v := s_var s) in *.
  set (n0 := vname b (v_type v) (s_reg s) 0).
  assert (CN : can r n0) by (apply can_intro; [intros _; apply FR|exact RL]).
  assert (PAR : forall i x, s_off s = N.of_nat i * 8 -> (1 <= i)%nat -> nth_error (k_params k) i = Some x ->
             param (k_params k) (off_text b (s_off s) + 1) = Ok x).
  { intros i x O I X. unfold off_text. rewrite EB.
    assert (IL : (i < length (k_params k))%nat) by (apply nth_error_Some; congruence).
    pose proof (bu_len _ _ _ _ _ _ BU) as BL. pose proof (wf_few _ _ _ WF). rewrite EB in BL. cbn [params0] in BL.
    assert (S1 : sub32 (s_off s / 8) 1 + 1 = N.of_nat i).
    { rewrite O, N.div_mul by lia. unfold sub32, u32.
      replace (N.of_nat i + 2 ^ 32 - 1) with (N.of_nat i - 1 + 1 * 2 ^ 32) by lia.
      rewrite N.mod_add, (N.mod_small (N.of_nat i - 1)) by lia. lia. }
    rewrite S1. unfold param. rewrite Nat2N.id, X. reflexivity. }
  assert (SC : slot_code b w k s = metal_slot k s) by (unfold slot_code; now rewrite EB). rewrite SC. clear SC.
  unfold metal_slot. rewrite <- EB. fold v. fold n0.
  unfold slot_ok in SO. fold v in SO. assert (P0 : params0 b = 1%nat) by now rewrite EB. rewrite P0 in SO.
  assert (RW : forall A (c : conf) n x (f : conf -> outcome A), can (c_regs c) n ->
      obind (set_reg T c n x) f = f {| c_regs := (n, x) :: c_regs c; c_mem := c_mem c; c_log := c_log c |}).
  { intros. now rewrite set_ok. }
  destruct (s_ptype s) eqn:PT.
  - assert (NOUT : is_output size v -> False).
    { destruct SO as [(d & K & _)|(d & K & _ & _ & Q)]; intros (A & B & C); [unfold is_eval in C; now rewrite K in C|].
      apply Q. auto. }
    destruct SO as [(data & EK & i & OF & PI & NP)|(bits & EK & TP & (i & OF & PI & NP) & _)].
    + rewrite EK.
      assert (SD : v_side v = false) by (apply no_effect; [exact VI|congruence]).
      destruct (eval_value v data p m VI EK PL G) as (x & X1 & X2).
      assert (LD : load m (data + (if v_size v =? 1 then 0 else p) * tsz v) (N.to_nat (tsz v)) = Some x).
      { apply load_holds. now rewrite N2Nat.id. }
      cbn [exec exec1]. rewrite (PAR _ _ OF PI NP). cbn [obind c_mem]. rewrite several by exact VI. fold (tsz v).
      replace (if negb (v_size v =? 1) then data + tsz v * p else data)
        with (data + (if v_size v =? 1 then 0 else p) * tsz v) by (destruct (v_size v =? 1); cbn [negb]; lia).
      rewrite LD. cbn [or_ub obind]. rewrite RW by exact CN.
      eexists. split; [reflexivity|]. cbn [c_regs c_mem c_log]. split.
      { eapply reg_inv_next; [exact H|exact R| |].
        - apply extends_cons. now left.
        - intros _. eexists. split; [apply get_eq|]. unfold rep. rewrite EB. eexists. split; [reflexivity|].
          unfold truth in X2. rewrite EB in X2. exact X2. }
      split; [apply grows_refl|]. split; [intros Q; now apply NOUT in Q|now apply effects_none].
    + rewrite EK, TP. change (T_Pointer =? T_Pointer) with true.
      assert (SD : v_side v = false) by (apply no_effect; [exact VI|congruence]).
      cbn [exec exec1]. rewrite (PAR _ _ OF PI NP). cbn [obind]. rewrite RW by exact CN.
      eexists. split; [reflexivity|]. cbn [c_regs c_mem c_log]. split.
      { eapply reg_inv_next; [exact H|exact R| |].
        - apply extends_cons. now left.
        - intros _. eexists. split; [apply get_eq|]. unfold rep. rewrite EB. eexists. split; [reflexivity|].
          now apply means_lit. }
      split; [apply grows_refl|]. split; [intros Q; now apply NOUT in Q|now apply effects_none].
  - destruct SO as (OV & ptr & PB & i & OF & PI & NP). destruct (typed_out v VI OV) as (TZ & TP & TV).
    assert (NE : is_eval v = false) by apply OV.
    destruct (render_ok j p e s {| c_regs := r; c_mem := m; c_log := log |} r H R)
      as (c2 & Y1 & Y2 & Y3 & Y4 & Y5 & Y6); trivial.
    { apply extends_refl. }
    { lia. }
    { intros Q. now rewrite Q in EB. }
    { intros Q. now elim TP. }
    { intros _. cbn [c_regs]. split; apply FR. }
    rewrite exec_app, Y1. cbn [obind]. destruct (Y4 TV) as (x & GX & RX). fold v in GX. fold n0 in GX.
    unfold rep in RX. rewrite EB in RX. destruct RX as (y & -> & MY). cbn [c_mem c_regs c_log] in *.
    destruct (store_right v ptr p [y] m VI OV PB G) as (m' & Z1 & Z2 & Z3).
    { cbn [length]. lia. }
    { intros [|[|?]] z Z; cbn in Z; try discriminate. injection Z as <-. now rewrite N.add_0_r. }
    rewrite store_one in Z1. cbn [length] in Z3.
    cbn [exec exec1]. unfold need_sc, need. rewrite GX. cbn [obind]. rewrite (PAR _ _ OF PI NP). cbn [obind].
    fold (tsz v). rewrite Y2, Z1. cbn [or_ub obind].
    eexists. split; [reflexivity|]. unfold set_mem. cbn [c_regs c_mem c_log]. split.
    { eapply reg_inv_next; [exact H|exact R|exact Y3|].
      intros _. exists (Sc y). split; [exact GX|unfold rep; rewrite EB; eauto]. }
    split; [exact Z2|]. split; [|exact Y6]. intros _ lane LN. apply Z3. lia.
  - destruct SO as (NE & NOUT & NPT).
    destruct (render_ok j p e s {| c_regs := r; c_mem := m; c_log := log |} r H R)
      as (c2 & Y1 & Y2 & Y3 & Y4 & Y5 & Y6); trivial.
    { apply extends_refl. }
    { lia. }
    { intros Q. now rewrite Q in EB. }
    { intros Q Q'. now rewrite Q' in EB. }
    { intros _. cbn [c_regs]. split; apply FR. }
    rewrite Y1. exists c2. split; [reflexivity|]. rewrite Y2. cbn [c_regs c_mem c_log] in *.
    split; [eapply reg_inv_next; eauto|]. split; [apply grows_refl|]. split; [intros Q; now elim NOUT|exact Y6].
Qed.

Lemma base_ok p e m log : exists r,
  exec sem T w (k_params k) p e {| c_regs := []; c_mem := m; c_log := log |} (base_code b k) =
    Ok {| c_regs := r; c_mem := m; c_log := log |} /\ reg_inv 0 p r.
Proof.
  pose proof (bu_base _ _ _ _ _ _ BU) as BB. unfold base_code.
  assert (SL : forall r i s, (i < 0)%nat -> nth_error (k_slots k) i = Some s -> v_type (s_var s) <> T_Void ->
     exists x, get_reg r (vname b (v_type (s_var s)) (s_reg s) 0) = Some x /\ rep (s_var s) p x) by (intros; lia).
  destruct (k_base k) as [[q o]|] eqn:KB.
  - destruct BB as (Q1 & Q2 & Q3 & Q4 & Q5 & Q6).
    assert (INV : forall r, get_reg r (base_name b q) = Some (Sc cb) ->
               (forall n, get_reg r n <> None -> idx n = q) -> reg_inv 0 p r).
    { intros r A B. constructor.
      - apply SL.
      - intros n N1. right. rewrite (B n N1). exact Q1.
      - intros q' o' E. rewrite KB in E. injection E as <- <-. exact A. }
    assert (CX : forall rr x y, (b <> CUDA -> get_reg rr (x, q, y) = None) -> can rr (x, q, y)).
    { intros rr x y A. apply can_intro; [exact A|]. unfold idx. cbn [fst snd]. lia. }
    assert (PO : param (k_params k) o = Ok cb) by (unfold param; now rewrite Q6).
    assert (S1 := fun x y v c A => set_ok c (x, q, y) v (CX (c_regs c) x y A)).
    assert (UN : forall n x l, (forall n', get_reg l n' <> None -> idx n' = q) -> idx n = q ->
               forall n', get_reg ((n, x) :: l) n' <> None -> idx n' = q).
    { intros n x l A B n' C. cbn [get_reg] in C. destruct (name_eqb n n') eqn:E; [|auto].
      apply name_eqb_eq in E. now subst. }
    assert (U0 : forall n', get_reg [] n' <> None -> idx n' = q) by (intros n' C; now elim C).
    match goal with |- exists r, ?X = _ /\ _ =>
      cut (exists r, X = Ok {| c_regs := r; c_mem := m; c_log := log |} /\
             get_reg r (base_name b q) = Some (Sc cb) /\ forall n, get_reg r n <> None -> idx n = q) end.
    { intros (r & R1 & R2 & R3). exists r. split; [exact R1|]. now apply INV. }
    clear INV SL CX. unfold base_name, vname in *.
    destruct b.
    + cbn [exec exec1]. rewrite S1 by reflexivity. cbn [obind c_regs c_mem c_log].
      unfold need. cbn [c_regs]. rewrite get_eq. cbn [obind]. rewrite PO. cbn [obind].
      rewrite S1 by (intros _; cbn [c_regs get_reg name_eqb]; now rewrite !andb_false_r). cbn [obind c_regs c_mem c_log]. eexists. split; [reflexivity|].
      split; [apply get_eq|]. apply UN; [|reflexivity]. apply UN; [exact U0|reflexivity].
    + cbn [exec exec1].
      assert (E8 : u32 (o * 8) = o * 8) by (unfold u32; apply N.mod_small; lia).
      rewrite E8, N.mod_mul, N.div_mul by lia. change (0 =? 0) with true. cbv iota. rewrite PO. cbn [obind].
      rewrite S1 by (intros C; now elim C). cbn [obind c_regs c_mem c_log]. eexists. split; [reflexivity|].
      split; [apply get_eq|]. apply UN; [exact U0|reflexivity].
    + cbn [exec exec1]. cbn [params0] in Q4.
      assert (E8 : sub32 o 1 + 1 = o).
      { unfold sub32, u32. replace (o + 2 ^ 32 - 1) with (o - 1 + 1 * 2 ^ 32) by lia.
        rewrite N.mod_add, (N.mod_small (o - 1)) by lia. lia. }
      rewrite E8, PO. cbn [obind].
      rewrite S1 by (intros _; reflexivity). cbn [obind c_regs c_mem c_log]. eexists. split; [reflexivity|].
      split; [apply get_eq|]. apply UN; [exact U0|reflexivity].
  - cbn [exec]. eexists. split; [reflexivity|]. constructor.
    + apply SL.
    + intros n C. now elim C.
    + intros q i E. congruence.
Qed.

End CHUNK.
