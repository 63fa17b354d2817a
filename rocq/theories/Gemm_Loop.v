From Verif Require Import Base Gemm_Model Gemm_Spec Gemm_Base Gemm_Tile Gemm_Pass.
Local Open Scope N_scope.
#[local] Ltac Zify.zify_post_hook ::= idtac.

Lemma loop_ok : forall (X : Type) step total (I : N -> X -> Prop) (body : N -> X -> outcome X), 0 < step -> total + step <= 2 ^ 32 ->
  (forall x s, x < total -> I x s -> exists s', body x s = Done s' /\ I (x + step) s') ->
  forall fuel x s, I x s -> total - x <= N.of_nat fuel -> exists x' s', loop fuel x step total body s = Done s' /\ I x' s' /\ total <= x'.
Proof.
  intros X step total I body P L H fuel. induction fuel as [|fuel IH]; intros x s J F; cbn [loop]; destruct (N.ltb_spec x total) as [Lt|Ge]; try (exists x, s; auto; fail).
  - lia.
  - destruct (H x s Lt J) as (s' & E & J'). rewrite E. cbn [andThen]. rewrite u32_small by (change (2 ^ 32) with 4294967296 in *; lia). apply IH; [exact J'|lia].
Qed.
Lemma each_app : forall (X Y : Type) (body : Y -> X -> outcome X) a b s, each (a ++ b) body s = andThen (each a body s) (each b body).
Proof. intros X Y body a. induction a as [|y a IH]; intros b s; [reflexivity|]. cbn. destruct (body y s); cbn; try reflexivity. apply IH. Qed.
Lemma each_ok : forall (X : Type) (I : N -> X -> Prop) (body : N -> X -> outcome X) n s, I 0 s ->
  (forall b s, b < n -> I b s -> exists s', body b s = Done s' /\ I (b + 1) s') -> exists s', each (upto n) body s = Done s' /\ I n s'.
Proof.
  intros X I body n s J. induction n as [|n IH] using N.peano_ind; intros H; [exists s; auto|].
  destruct IH as (s1 & E & J1); [intros; apply H; [lia|assumption]|]. destruct (H n s1 ltac:(lia) J1) as (s2 & E2 & J2).
  exists s2. rewrite upto_succ, each_app, E. cbn [andThen each]. rewrite E2. cbn [andThen]. rewrite <- N.add_1_r. auto.
Qed.

Section L.
Context {T Acc : Type}.
Variables (widen : T -> Acc) (narrow : Acc -> T) (zero : Acc) (zeroT : T) (mac : Acc -> Acc -> Acc -> Acc) (junk : Acc).
Variables MR NR lanes KC NCmax : N.
Hypothesis ht : tiles MR NR lanes KC NCmax.
Variables (widened : bool) (cores : N) (order : N -> N -> N -> N -> bool -> N -> list N).
Hypothesis ho : any_order order.
Hypothesis hcores : 0 < cores.
Variables (At Bt : bool) (M Nc K : N) (grid reduce : list dim) (A B : mem T).
Hypothesis hf : fits_tiles MR NR KC NCmax M Nc K cores grid reduce.
Hypothesis M0 : 0 < M.
Hypothesis N0 : 0 < Nc.
Hypothesis K0 : 0 < K.
Hypothesis pg : positive grid.
Hypothesis pr : positive reduce.
Variable fuel : nat.
Hypothesis hfuel : Nc <= N.of_nat fuel /\ K <= N.of_nat fuel.
Let R := product reduce.
Let G := product grid.
Notation cell := (cell Nc).

Section Panel.
Variables (b jc : N).
Let ao := fst (decode grid b).
Let bo := snd (decode grid b).
(** the sum of the first [q] products *)
Definition P (q i j : N) : Acc :=
  fold_left (fun acc q => mac acc (widen (A (ao + fst (decode reduce (q / K)) + a_at At M K i (q mod K)))) (widen (B (bo + snd (decode reduce (q / K)) + b_at Bt Nc K (q mod K) j)))) (upto q) zero.
Lemma P_ext : forall rb pc i j v, pc < K -> ((rb =? 0) && (pc =? 0) = false -> v = P (rb * K + pc) i j) ->
  ext widen zero mac At Bt (shift A (ao + fst (decode reduce rb))) (shift B (bo + snd (decode reduce rb))) M Nc K pc (N.min KC (K - pc)) ((rb =? 0) && (pc =? 0)) i j v
  = P (rb * K + (pc + N.min KC (K - pc))) i j.
Proof.
  intros rb pc i j v Lp Hv. replace (rb * K + (pc + N.min KC (K - pc))) with ((rb * K + pc) + N.min KC (K - pc)) by lia.
  unfold P at 1. rewrite upto_add, fold_left_app, fold_map. fold (P (rb * K + pc) i j). unfold ext.
  replace (if (rb =? 0) && (pc =? 0) then zero else v) with (P (rb * K + pc) i j).
  - apply fold_ext. intros k s Ik. apply in_upto in Ik. unfold shift.
    assert (Q : (rb * K + pc + k) / K = rb) by (replace (rb * K + pc + k) with (rb * K + (pc + k)) by lia; apply quot; lia).
    assert (Q' : (rb * K + pc + k) mod K = pc + k) by (replace (rb * K + pc + k) with (pc + k + rb * K) by lia; rewrite N.mod_add by lia; apply N.mod_small; lia).
    rewrite Q, Q'. reflexivity.
  - destruct ((rb =? 0) && (pc =? 0)) eqn:E; [|symmetry; apply Hv; reflexivity]. apply andb_true_iff in E. destruct E as [E1 E2]. apply N.eqb_eq in E1, E2. subst rb pc. reflexivity.
Qed.

Let obase := b * (M * Nc).
Let cbase := if widened then 0 else obase.
Variable n_panel : N.
Hypothesis hp : jc + n_panel <= Nc.
Notation in_panel := (in_panel M jc n_panel).
Definition Inv (st0 : state) (q : N) (s : mem Acc * state) : Prop :=
  (forall i j, in_panel i j -> 0 < q -> if widened && (q =? R * K) then snd (snd s) (cell obase i j) = narrow (P q i j) else fst (snd s) (cell cbase i j) = P q i j) /\
  (forall x, (forall i j, in_panel i j -> x <> cell cbase i j) -> fst (snd s) x = fst st0 x) /\
  (forall x, (forall i j, in_panel i j -> x <> cell obase i j) -> snd (snd s) x = snd st0 x).
Variables (row_slabs slabs tail chunks chunk : N).
Hypothesis hs : slabs = (n_panel + NR - 1) / NR.
Hypothesis htail : tail = n_panel mod NR.
Hypothesis hrow : row_slabs = (M + MR - 1) / MR.
Hypothesis hc : 0 < chunks.
Hypothesis hch : chunk = (slabs + chunks - 1) / chunks.

Lemma MN_lt : M * Nc < 2 ^ 32.
Proof. destruct hf as (_ & _ & _ & _ & H & _). pose proof (product_pos grid pg) as Q. clear - H Q. nia. Qed.
Lemma pass_inv : forall st0 rb pc s, rb < R -> pc < K -> Inv st0 (rb * K + pc) s ->
  Inv st0 (rb * K + (pc + N.min KC (K - pc))) (pass widen narrow zero mac junk MR NR lanes KC widened order At Bt (shift A (ao + fst (decode reduce rb))) (shift B (bo + snd (decode reduce rb)))
    M Nc K b jc rb pc cbase obase row_slabs n_panel slabs tail chunks chunk R s).
Proof.
  intros st0 rb pc [pb st] Lr Lp (I1 & I2 & I3). cbn [fst snd] in *.
  pose proof hf as (F1 & F2 & F3 & F4 & F5 & F6).
  destruct (pass_ok widen narrow zero mac junk MR NR lanes KC NCmax ht widened order ho At Bt (shift A (ao + fst (decode reduce rb))) (shift B (bo + snd (decode reduce rb)))
    M Nc K b jc rb pc n_panel cbase obase row_slabs slabs tail chunks chunk R ltac:(clear - F1; lia) MN_lt ltac:(clear - F2; lia) hp ltac:(clear - F3; lia) ltac:(clear - Lp; lia) hs htail hrow hc hch pb st)
    as (pb' & st' & E & O1 & O2 & O3).
  rewrite E. assert (KC0 : 0 < KC) by apply ht.
  assert (NF : rb * K + pc <> R * K) by (clear - Lr Lp; intros Q; assert ((rb + 1) * K <= R * K) by (apply N.mul_le_mono_r; lia); lia).
  assert (NS : widened && (widened && (u32 (rb + 1) =? R) && (pc + N.min KC (K - pc) =? K)) = widened && (rb * K + (pc + N.min KC (K - pc)) =? R * K)).
  { destruct widened; [|reflexivity]. cbn [andb]. rewrite u32_small by (fold R in F6; clear - F6 Lr; change (2 ^ 32) with 4294967296 in *; lia).
    assert (L : pc + N.min KC (K - pc) <= K) by (clear - Lp; lia). revert L. generalize (pc + N.min KC (K - pc)). intros e L. clear - L Lr K0.
    destruct (N.eqb_spec (rb * K + e) (R * K)) as [Q|Q].
    - assert (rb + 1 = R). { destruct (N.eq_dec (rb + 1) R) as [|D]; [assumption|]. exfalso. assert ((rb + 2) * K <= R * K) by (apply N.mul_le_mono_r; lia). lia. }
      subst R. rewrite <- H, N.eqb_refl. cbn. apply N.eqb_eq. rewrite <- H in Q. lia.
    - apply andb_false_iff. destruct (N.eq_dec (rb + 1) R) as [D|D]; [right|left; apply N.eqb_neq, D]. apply N.eqb_neq. intros ->. apply Q. rewrite <- D. lia. }
  assert (X : forall i j, in_panel i j -> ext widen zero mac At Bt (shift A (ao + fst (decode reduce rb))) (shift B (bo + snd (decode reduce rb))) M Nc K pc (N.min KC (K - pc)) ((rb =? 0) && (pc =? 0)) i j (fst st (cell cbase i j))
    = P (rb * K + (pc + N.min KC (K - pc))) i j).
  { intros i j J. apply P_ext; [exact Lp|]. intros Nz. specialize (I1 i j J). rewrite (proj2 (N.eqb_neq _ _) NF), andb_false_r in I1. apply I1.
    apply andb_false_iff in Nz. clear - Nz K0. destruct Nz as [Nz|Nz]; apply N.eqb_neq in Nz; [|lia]. assert (0 < rb * K) by (apply N.mul_pos_pos; lia). lia. }
  split; [|split]; cbn [fst snd].
  - intros i j J _. specialize (O1 i j J). rewrite (X i j J), NS in O1. exact O1.
  - intros x Hx. rewrite (O2 x Hx). apply I2, Hx.
  - intros x Hx. rewrite (O3 x Hx). apply I3, Hx.
Qed.
Lemma panel_inv : forall st0 pb, exists s',
  each (upto R) (fun rb s => let '(ra_off, rb_off) := decode reduce rb in
    loop fuel 0 KC K (fun pc s => Done (pass widen narrow zero mac junk MR NR lanes KC widened order At Bt (shift A (ao + ra_off)) (shift B (bo + rb_off)) M Nc K b jc rb pc cbase obase
      row_slabs n_panel slabs tail chunks chunk R s)) s) (pb, st0) = Done s' /\ Inv st0 (R * K) s'.
Proof.
  intros st0 pb. assert (KC0 : 0 < KC) by apply ht. apply (each_ok _ (fun rb s => Inv st0 (rb * K) s)).
  - split; [|split; reflexivity]. intros i j _ Q. clear - Q. lia.
  - intros rb s Lr J. assert (Dec : decode reduce rb = (fst (decode reduce rb), snd (decode reduce rb))) by apply surjective_pairing. rewrite Dec.
    destruct (loop_ok _ KC K (fun pc s => Inv st0 (rb * K + N.min pc K) s)
      (fun pc s => Done (pass widen narrow zero mac junk MR NR lanes KC widened order At Bt (shift A (ao + fst (decode reduce rb))) (shift B (bo + snd (decode reduce rb))) M Nc K b jc rb pc cbase obase row_slabs n_panel slabs tail chunks chunk R s))
      KC0 ltac:(destruct hf as (_ & _ & H & _); exact H)) with (fuel := fuel) (x := 0) (s := s) as (x' & s' & E & J' & Ge).
    + intros pc s1 Lp J1. eexists. split; [reflexivity|]. replace (N.min (pc + KC) K) with (pc + N.min KC (K - pc)) by (clear - Lp; lia). apply pass_inv; try assumption.
      replace (N.min pc K) with pc in J1 by (clear - Lp; lia). exact J1.
    + rewrite N.min_0_l, N.add_0_r. exact J.
    + destruct hfuel. lia.
    + exists s'. split; [exact E|]. rewrite N.mul_add_distr_r, N.mul_1_l. replace (N.min x' K) with K in J' by (clear - Ge; lia). exact J'.
Qed.
End Panel.

(** entry (i, j) of result [b] *)
Definition result (b i j : N) : Acc := P b (R * K) i j.
Definition good (b i j : N) (st : state) : Prop :=
  if widened then snd st (cell (b * (M * Nc)) i j) = narrow (result b i j) else fst st (cell (b * (M * Nc)) i j) = result b i j.
Definition beyond (b : N) (st0 st : @state T Acc) : Prop :=
  forall x, b * (M * Nc) <= x -> if widened then snd st x = snd st0 x else fst st x = fst st0 x.

Lemma addr_lt : forall b i j, i < M -> j < Nc -> cell (b * (M * Nc)) i j < (b + 1) * (M * Nc) /\ b * (M * Nc) <= cell (b * (M * Nc)) i j.
Proof. intros b i j Li Lj. unfold Gemm_Tile.cell. assert ((i + 1) * Nc <= M * Nc) by (apply N.mul_le_mono_r; lia). lia. Qed.
Lemma addr_sep : forall b i j b' i' j', i < M -> j < Nc -> i' < M -> j' < Nc -> cell (b * (M * Nc)) i j = cell (b' * (M * Nc)) i' j' -> b = b' /\ i = i' /\ j = j'.
Proof.
  intros b i j b' i' j' Li Lj Li' Lj' E. assert (X : b = b').
  { destruct (addr_lt b i j Li Lj) as [H1 H2]. destruct (addr_lt b' i' j' Li' Lj') as [H3 H4]. rewrite E in *. clear - H1 H2 H3 H4. revert H1 H2 H3 H4.
    generalize (M * Nc), (cell (b' * (M * Nc)) i' j'). intros m c H1 H2 H3 H4.
    destruct (N.lt_trichotomy b b') as [H|[H|H]]; [|exact H|]; exfalso; [assert ((b + 1) * m <= b' * m) by (apply N.mul_le_mono_r; lia)|assert ((b' + 1) * m <= b * m) by (apply N.mul_le_mono_r; lia)]; lia. }
  subst b'. split; [reflexivity|]. exact (cell_inj_at Nc _ i j i' j' Lj Lj' E).
Qed.

Lemma llvm_inner : (At && Bt) = false -> forall st0, exists st,
  llvm_gemm widen narrow zero zeroT mac junk MR NR lanes KC NCmax widened cores order fuel At Bt M Nc K grid reduce A B st0 = Done st /\
  (forall b i j, b < G -> i < M -> j < Nc -> good b i j st) /\ beyond G st0 st.
Proof.
  intros Tr st0. pose proof hf as (F1 & F2 & F3 & F4 & F5 & F6). fold G in F5. fold R in F6.
  pose proof ht as (MR0 & NR0 & L0 & _ & KC0 & NC0 & HNC & _).
  pose proof (product_pos grid pg) as G0. pose proof (product_pos reduce pr) as R0. fold G in G0. fold R in R0.
  unfold llvm_gemm. rewrite Tr. rewrite (count_ok grid 1 pg) by (try reflexivity; fold G; clear - F5 G0 M0 N0; rewrite N.mul_1_l; assert (1 <= M * Nc) by nia; rewrite <- N.mul_assoc in F5; nia).
  rewrite (count_ok reduce 1 pr) by (try reflexivity; fold R; lia). rewrite !N.mul_1_l. fold G R. cbn [andb negb orb].
  rewrite (proj2 (N.eqb_neq M 0)), (proj2 (N.eqb_neq Nc 0)), (proj2 (N.eqb_neq K 0)) by lia. cbn [orb].
  rewrite (ceil32_ok M MR MR0 F1), (ceil32_ok Nc NR NR0) by lia. rewrite (ceil32_ok NCmax NR NR0 HNC).
  set (row_slabs := (M + MR - 1) / MR). set (NC := N.min ((Nc + NR - 1) / NR) ((NCmax + NR - 1) / NR) * NR).
  assert (RS0 : 0 < row_slabs) by (apply ceil_spec; lia).
  assert (RSM : row_slabs <= M).
  { unfold row_slabs. destruct (N.le_gt_cases ((M + MR - 1) / MR) M) as [Q|Q]; [exact Q|]. rewrite ceil_spec in Q by exact MR0. clear - Q MR0. nia. }
  assert (NCp : 0 < NC).
  { apply N.mul_pos_pos; [|exact NR0]. apply N.min_glb_lt; apply ceil_spec; lia. }
  assert (NCl : NC <= NCmax + NR).
  { unfold NC. pose proof (N.le_min_r ((Nc + NR - 1) / NR) ((NCmax + NR - 1) / NR)) as Q. apply (N.mul_le_mono_r _ _ NR) in Q.
    pose proof (N.mul_div_le (NCmax + NR - 1) NR ltac:(lia)) as Q2. lia. }
  destruct (each_ok _ (fun b s => (forall b' i j, b' < b -> i < M -> j < Nc -> good b' i j (snd s)) /\ beyond b st0 (snd s))
    (fun b s => let '(a_off, b_off) := decode grid b in
           let obase := b * (M * Nc) in
           let cbase := if widened then 0 else obase in
           loop fuel 0 NC Nc (fun jc s =>
             let n_panel := N.min NC (Nc - jc) in
             let panel_slabs := ceil32 n_panel NR in
             let panel_tail := n_panel mod NR in
             if row_slabs =? 0 then Crash else
             let j_chunks := N.min panel_slabs (ceil32 cores row_slabs) in
             if j_chunks =? 0 then Crash else
             let chunk_slabs := ceil32 panel_slabs j_chunks in
             each (upto R) (fun rb s =>
               let '(ra_off, rb_off) := decode reduce rb in
               loop fuel 0 KC K (fun pc s =>
                 Done (pass widen narrow zero mac junk MR NR lanes KC widened order At Bt (shift A (a_off + ra_off)) (shift B (b_off + rb_off)) M Nc K b jc rb pc cbase obase
                            row_slabs n_panel panel_slabs panel_tail j_chunks chunk_slabs R s)) s) s) s) G ((fun _ => junk), st0)) as (s' & E & Q1 & Q2).
  - cbn [snd]. split; [intros b' i j Q; clear - Q; lia|]. intros x _. destruct widened; reflexivity.
  - intros b s Lb (J1 & J2). assert (Dec : decode grid b = (fst (decode grid b), snd (decode grid b))) by apply surjective_pairing. rewrite Dec. cbv zeta.
    match goal with |- exists s', loop _ _ _ _ ?body _ = _ /\ _ => destruct (loop_ok _ NC Nc
      (fun x s => (forall b' i j, b' < b -> i < M -> j < Nc -> good b' i j (snd s)) /\ (forall i j, i < M -> j < N.min x Nc -> good b i j (snd s)) /\ beyond (b + 1) st0 (snd s)) body NCp ltac:(lia))
      with (fuel := fuel) (x := 0) (s := s) as (x' & s' & E & (K1 & K2 & K3) & Ge) end.
    + intros jc [pb st] Ljc (H1 & H2 & H3). set (n_panel := N.min NC (Nc - jc)). cbn [snd] in *.
      rewrite (ceil32_ok n_panel NR NR0) by (unfold n_panel; lia). rewrite (proj2 (N.eqb_neq row_slabs 0)) by lia.
      rewrite (ceil32_ok cores row_slabs RS0) by (clear - F4 RSM; lia).
      set (slabs := (n_panel + NR - 1) / NR). set (chunks := N.min slabs ((cores + row_slabs - 1) / row_slabs)).
      assert (S0 : 0 < slabs) by (apply ceil_spec; [exact NR0|unfold n_panel; lia]).
      assert (C0 : 0 < chunks) by (apply N.min_glb_lt; [exact S0|apply ceil_spec; [exact RS0|lia]]).
      rewrite (proj2 (N.eqb_neq chunks 0)) by lia.
      assert (SL : slabs <= n_panel). { destruct (N.le_gt_cases slabs n_panel) as [Q|Q]; [exact Q|]. unfold slabs in Q. rewrite ceil_spec in Q by exact NR0. clear - Q NR0. nia. }
      assert (CL : chunks <= (cores + row_slabs - 1) / row_slabs) by apply N.le_min_r.
      assert (CC : (cores + row_slabs - 1) / row_slabs <= cores).
      { destruct (N.le_gt_cases ((cores + row_slabs - 1) / row_slabs) cores) as [Q|Q]; [exact Q|]. rewrite ceil_spec in Q by exact RS0. clear - Q RS0. nia. }
      assert (CS : chunks <= slabs) by apply N.le_min_l.
      assert (CB : slabs + chunks <= 2 ^ 32).
      { assert (Q1 : n_panel <= NC) by apply N.le_min_l. assert (Q2 : n_panel <= Nc - jc) by apply N.le_min_r. clearbody n_panel slabs chunks NC row_slabs. clear - Q1 Q2 NCl CS SL F2. lia. }
      rewrite (ceil32_ok slabs chunks C0 CB).
      destruct (panel_inv b jc n_panel ltac:(unfold n_panel; clear - Ljc; lia) row_slabs slabs (n_panel mod NR) chunks ((slabs + chunks - 1) / chunks) eq_refl eq_refl eq_refl C0 eq_refl st pb) as ([pb' st'] & E & I1 & I2 & I3).
      cbn [fst snd] in *. exists (pb', st'). split; [exact E|]. cbn [snd].
      assert (RK : 0 < R * K) by (apply N.mul_pos_pos; assumption). rewrite N.eqb_refl, andb_true_r in I1.
      assert (Fr : forall x, (forall i j, in_panel M jc n_panel i j -> x <> cell (b * (M * Nc)) i j) -> if widened then snd st' x = snd st x else fst st' x = fst st x).
      { intros x Hx. destruct widened; [apply I3, Hx|apply I2, Hx]. }
      split; [|split].
      * intros b' i j Lb' Li Lj. specialize (H1 b' i j Lb' Li Lj). unfold good in *.
        specialize (Fr (cell (b' * (M * Nc)) i j)). destruct widened; rewrite Fr; try exact H1; intros i' j' [Li' Lj'] Q; apply addr_sep in Q; try assumption; try (unfold n_panel in Lj'; clear - Lj' Ljc; lia); clear - Q Lb'; lia.
      * intros i j Li Lj. destruct (N.lt_ge_cases j jc) as [Lt|Gt].
        -- assert (Lj0 : j < Nc) by (clear - Lj; lia). specialize (H2 i j Li ltac:(clear - Lt Lj; lia)). unfold good in *.
           specialize (Fr (cell (b * (M * Nc)) i j)). destruct widened; rewrite Fr; try exact H2; intros i' j' [Li' Lj'] Q; apply addr_sep in Q; try assumption; try (unfold n_panel in Lj'; clear - Lj' Ljc; lia); clear - Q Lt Lj'; lia.
        -- specialize (I1 i j ltac:(split; [exact Li|unfold n_panel; clear - Lj Gt; lia]) RK). unfold good. destruct widened; exact I1.
      * intros x Hx. specialize (H3 x Hx). specialize (Fr x). destruct widened; (rewrite Fr; [exact H3|]); intros i j [Li Lj] ->; destruct (addr_lt b i j Li ltac:(unfold n_panel in Lj; clear - Lj Ljc; lia)) as [Q _]; clear - Q Hx; lia.
    + split; [exact J1|]. split; [intros i j _ Q; clear - Q; lia|]. intros x Hx. apply J2. clear - Hx. lia.
    + lia.
    + exists s'. split; [exact E|]. split; [|exact K3]. intros b' i j Lb' Li Lj. destruct (N.eq_dec b' b) as [->|D]; [apply K2; [exact Li|clear - Ge Lj; lia]|apply K1; try assumption; clear - Lb' D; lia].
  - match goal with |- context [andThen ?e _] => match type of E with ?e' = _ => change e with e'; rewrite E end end. cbn [andThen]. exists (snd s'). auto.
Qed.
End L.
