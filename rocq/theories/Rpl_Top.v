(** Frozen functions: inputs, outputs, ownership. *)
From Verif Require Import Base Rpl_Model Rpl_Spec Rpl_Rec Rpl_Call Rpl_Law Rpl_Sim Rpl_Step Rpl_Run.
Local Open Scope N_scope.

Section Top.
Context {C : Type} (blank : C) (dev : kind -> list C -> list C) (count : kind -> list C -> N).
Hypothesis DEV : forall k cs, length (dev k cs) = length cs.
Notation st := (st (C := C)). Notation env := (env (C := C)). Notation input := (input (C := C)). Notation output := (output (C := C)).

Definition in_slot (k : nat) (v : input) : slot := let b := u32 (tsz (i_vt v) * i_n v) in {| s_data := Some (BIn k, i_c v); s_alloc := b; s_size := b |}.
Lemma start_go : forall (ins : list input) k (t : st), (k + length ins <= length (t_slots t))%nat ->
  let t' := fold_left init_slot (combine (seq k (length ins)) (combine (seq k (length ins)) ins)) t in
  length (t_slots t') = length (t_slots t) /\ t_next t' = t_next t /\ t_freed t' = t_freed t /\
  (forall j, get t' j = match nth_error ins (j - k) with Some v => if (k <=? j)%nat then in_slot j v else get t j | None => get t j end).
Proof.
  induction ins as [|v ins IH]; intros k t L; cbn [length seq combine fold_left] in *.
  - cbn zeta. repeat (split; [reflexivity|]). intros j. now destruct (j - k)%nat.
  - destruct (IH (S k) (init_slot t (k, (k, v)))) as (A1 & A2 & A3 & A4).
    { unfold init_slot, put. cbn [t_slots]. rewrite set_nth_length. lia. }
    cbn zeta. split; [rewrite A1; unfold init_slot, put; cbn [t_slots]; now rewrite set_nth_length|]. split; [rewrite A2; reflexivity|]. split; [rewrite A3; reflexivity|].
    intros j. rewrite A4. assert (G : get (init_slot t (k, (k, v))) j = if (j =? k)%nat then in_slot k v else get t j) by (unfold init_slot; rewrite get_set by lia; reflexivity).
    destruct (Nat.lt_trichotomy j k) as [X|[->|X]].
    + replace (j - S k)%nat with 0%nat by lia. replace (j - k)%nat with 0%nat by lia. cbn [nth_error]. rewrite (proj2 (Nat.leb_gt k j)) by lia. rewrite (proj2 (Nat.leb_gt (S k) j)) by lia.
      rewrite G, (proj2 (Nat.eqb_neq j k)) by lia. now destruct ins.
    + rewrite Nat.sub_diag. cbn [nth_error]. rewrite Nat.leb_refl. rewrite (proj2 (Nat.leb_gt (S k) k)) by lia. rewrite G, Nat.eqb_refl. now destruct (nth_error ins _).
    + replace (j - k)%nat with (S (j - S k)) by lia. cbn [nth_error]. rewrite (proj2 (Nat.leb_le k j)) by lia. rewrite (proj2 (Nat.leb_le (S k) j)) by lia. rewrite G, (proj2 (Nat.eqb_neq j k)) by lia. reflexivity.
Qed.
Lemma get_blank n (j : nat) nx fr : get {| t_slots := map (fun _ : rvar => (slot0 : slot (C := C))) n; t_next := nx; t_freed := fr |} j = slot0.
Proof. unfold get. cbn [t_slots]. revert j. induction n as [|a n IH]; intros [|j]; cbn [map nth]; auto. Qed.
Lemma env_of_nth : forall xs (ins : list input) i x v, NoDup xs -> nth_error xs i = Some x -> nth_error ins i = Some v -> env_of xs ins x = Some (i_c v, tsz (i_vt v) * i_n v).
Proof.
  induction xs as [|y xs IH]; intros ins [|i] x v ND E1 E2; destruct ins as [|w ins]; cbn [nth_error] in *; try discriminate; cbn [env_of]; apply NoDup_cons_iff in ND as [NI ND].
  - injection E1 as ->. injection E2 as ->. unfold bindv. now rewrite N.eqb_refl.
  - unfold bindv. destruct (N.eqb_spec x y) as [->|]; [apply nth_error_In in E1; contradiction|]. eauto.
Qed.
Lemma env_of_known : forall xs (ins : list input) x, length ins = length xs -> (env_of xs ins x <> None <-> In x xs).
Proof.
  induction xs as [|y xs IH]; intros ins x L; destruct ins as [|w ins]; cbn [length] in L; try lia; cbn [env_of In]; [tauto|].
  unfold bindv. destruct (N.eqb_spec x y) as [->|NE]; [split; [auto|discriminate]|]. rewrite IH by lia. intuition congruence.
Qed.
Lemma flat_nil {A B} (f : A -> list B) l : (forall x, In x l -> f x = []) -> flat_map f l = [].
Proof. induction l as [|a l IH]; intros H; cbn [flat_map]; [reflexivity|]. rewrite H by now left. rewrite IH; [reflexivity|]. intros x Hx. apply H. now right. Qed.

Lemma start_ok xs (ins : list input) g : NoDup (map fst xs) -> length ins = length xs -> Forall (fun v => tsz (i_vt v) * i_n v < 2 ^ 32) ins ->
  g_ins g = seq 0 (length xs) -> (length xs <= length (g_vars g))%nat ->
  let t := start g ins in length (t_slots t) = length (g_vars g) /\ ledger (length (map fst xs)) t /\ mem (r_map (rst_in xs)) t (env_of (map fst xs) ins).
Proof.
  intros ND LI SM EI LV. unfold start. rewrite EI, <- LI.
  destruct (start_go ins 0 {| t_slots := map (fun _ => slot0) (g_vars g); t_next := 0; t_freed := [] |}) as (A1 & A2 & A3 & A4).
  { cbn [t_slots]. rewrite map_length. lia. }
  set (t := fold_left init_slot _ _) in *. cbn [t_slots t_next t_freed] in *. rewrite map_length in *.
  assert (G : forall j, get t j = match nth_error ins j with Some v => in_slot j v | None => slot0 end).
  { intros j. rewrite A4, Nat.sub_0_r. cbn [Nat.leb]. destruct (nth_error ins j); [reflexivity|apply get_blank]. }
  cbn zeta. split; [exact A1|]. split.
  - split.
    + intros i d c E. rewrite G in E. destruct (nth_error ins i) as [v|] eqn:Ev; [|discriminate]. assert (X : (i < length ins)%nat) by (apply nth_error_Some; congruence).
      rewrite <- LI. rewrite (proj2 (Nat.ltb_lt i (length ins)) X). cbn [in_slot s_data] in E. congruence.
    + rewrite A2, A3. cbn [seq map app]. rewrite flat_nil; [reflexivity|]. intros x Hx. apply In_nth with (d := slot0) in Hx as (n & _ & <-). fold (get t n). rewrite G. destruct (nth_error ins n); reflexivity.
  - intros x i E NE. pose proof (rst_in_find xs x ND) as RF. rewrite E in RF. destruct RF as (v & RF & _).
    assert (X : (i < length ins)%nat) by (rewrite LI; apply nth_error_Some; congruence). apply nth_error_Some in X. destruct (nth_error ins i) as [w|] eqn:Ew; [|congruence].
    rewrite (env_of_nth (map fst xs) ins i x w ND); [|now rewrite (map_nth_error fst _ _ RF)|exact Ew]. unfold okslot. rewrite G, Ew. exists (BIn i). cbn [in_slot s_data s_size s_alloc].
    rewrite Forall_forall in SM. specialize (SM w (nth_error_In _ _ Ew)). unfold u32. rewrite N.mod_small by exact SM. split; [reflexivity|]. split; [reflexivity|lia].
Qed.

(** ** Outputs *)
Lemma outputs_ok xs s (e : env) tt (t : st) g : minv xs s (fun x => e x <> None) tt -> mem (r_map s) t e -> g_vars g = r_vars s -> forall ys, Forall (returned e) ys ->
  exists os, make_outputs g t (flat_map (rec_output s) ys) = Some os /\ Forall2 (output_ok xs e) ys os /\
    flat_map owned os = flat_map (fun y => match find (fst y) (r_map s) with Some i => if (i <? length xs)%nat then [] else match s_data (get t i) with Some (b, _) => [b] | None => [] end | None => [] end) ys.
Proof.
  intros I M EG. induction ys as [|y ys IH]; intros F; cbn [flat_map]; [exists []; repeat split; constructor|].
  apply Forall_cons_iff in F as [(c & n & Ey & T & B) F]. destruct (IH F) as (os & E & FO & OW).
  assert (NE : e (fst y) <> None) by congruence. destruct (proj1 (mi_known _ _ _ _ I (fst y)) NE) as [i Ei].
  unfold rec_output at 1. rewrite Ei. cbn [app make_outputs]. unfold make_output at 1. cbn [fst snd]. rewrite EG. fold (get_var s i). rewrite (mi_in _ _ _ _ I i (mi_bound _ _ _ _ I _ _ Ei)).
  pose proof (M _ _ Ei NE) as OK. rewrite Ey in OK. destruct OK as (b & D & SZ & _).
  destruct (Nat.ltb_spec i (length xs)) as [LT|GE].
  - cbn [bind]. rewrite E. cbn [bind]. eexists. split; [reflexivity|]. split; [constructor; [|exact FO]|cbn [flat_map owned app]; exact OW].
    cbn [output_ok]. destruct (mi_inputs _ _ _ _ I _ _ Ei) as [X|[X _]]; [exact X|lia].
  - rewrite D. cbn [bind]. rewrite SZ, elems_ok by assumption. cbn [bind]. rewrite E. cbn [bind fst snd]. eexists. split; [reflexivity|]. split; [constructor; [|exact FO]|cbn [flat_map owned]; rewrite OW; reflexivity].
    cbn [output_ok]. destruct (mi_inputs _ _ _ _ I _ _ Ei) as [X|[_ X]]; [apply nth_error_None in GE; congruence|]. auto.
Qed.

(** ** Every buffer is freed or returned, once *)
Lemma flat_split {A B} (f g h : A -> list B) : forall l, (forall x, In x l -> f x = g x ++ h x) -> Permutation (flat_map f l) (flat_map g l ++ flat_map h l).
Proof.
  induction l as [|a l IH]; intros H; cbn [flat_map]; [reflexivity|]. rewrite H by now left. rewrite IH by (intros; apply H; now right). rewrite <- !app_assoc. apply Permutation_app_head. rewrite !app_assoc. apply Permutation_app_tail. apply Permutation_app_comm.
Qed.
Lemma flat_filter {A B} (p : A -> bool) (f : A -> list B) : forall l, flat_map (fun x => if p x then f x else []) l = flat_map f (filter p l).
Proof. induction l as [|a l IH]; cbn [flat_map filter]; [reflexivity|]. rewrite IH. destruct (p a); reflexivity. Qed.
Lemma flat_perm {A B} (f : A -> list B) l l' : Permutation l l' -> Permutation (flat_map f l) (flat_map f l').
Proof. intros P. induction P; cbn [flat_map]; [reflexivity|now apply Permutation_app_head|rewrite !app_assoc; apply Permutation_app_tail; apply Permutation_app_comm|etransitivity; eassumption]. Qed.
Lemma flat_seq {A B} (f : A -> list B) d : forall l, flat_map f l = flat_map (fun i => f (nth i l d)) (seq 0 (length l)).
Proof.
  induction l as [|a l IH]; cbn [flat_map length seq nth]; [reflexivity|]. f_equal. rewrite <- seq_shift, IH. rewrite !flat_map_concat_map, map_map. reflexivity.
Qed.

Lemma owners xs s (e : env) tt (t : st) g ys : minv xs s (fun x => e x <> None) tt -> mem (r_map s) t e -> ledger (length xs) t -> g_vars g = r_vars s ->
  length (t_slots t) = length (r_vars s) -> Forall (returned e) ys -> NoDup (filter (fun y => negb (existsb (N.eqb y) xs)) (map fst ys)) -> g_outs g = flat_map (rec_output s) ys ->
  forall os, make_outputs g t (g_outs g) = Some os -> Permutation ((t_freed t ++ release g t) ++ flat_map owned os) (map BNew (seq 0 (t_next t))).
Proof.
  intros I M [LG1 LG2] EG LN FR ND EO os MO.
  destruct (outputs_ok xs s e tt t g I M EG ys FR) as (os' & MO' & _ & OW). rewrite <- EO in MO'. assert (os' = os) by congruence. subst os'. rewrite OW. clear MO MO' OW os.
  rewrite <- LG2, <- app_assoc. apply Permutation_app_head. symmetry.
  rewrite (flat_seq bufs_of slot0), LN. fold (get t). change (fun i : nat => bufs_of (nth i (t_slots t) slot0)) with (fun i => bufs_of (get t i)).
  set (isout := fun i => existsb (fun o : nat * N => Nat.eqb (fst o) i) (g_outs g)).
  unfold release. fold isout. rewrite EG.
  etransitivity; [apply (flat_split _ (fun i => if isout i then [] else match v_in (nth i (r_vars s) var0), s_data (get t i) with None, Some (b, _) => [b] | _, _ => [] end) (fun i => if isout i then bufs_of (get t i) else []))|].
  { intros i Hi. apply in_seq in Hi. destruct (isout i); [reflexivity|]. rewrite app_nil_r. fold (get_var s i). rewrite (mi_in _ _ _ _ I i) by lia. unfold bufs_of.
    destruct (s_data (get t i)) as [[b c]|] eqn:D; [|now destruct (i <? length xs)%nat]. pose proof (LG1 _ _ _ D) as X. destruct (i <? length xs)%nat; [now rewrite X|]. destruct X as [k ->]. reflexivity. }
  unfold isout at 1. apply Permutation_app_head.
  (* the returned buffers *)
  set (isin := fun y : N => existsb (N.eqb y) xs) in *.
  assert (ISIN : forall y, isin y = true <-> In y xs) by (intros y; unfold isin; rewrite existsb_exists; split; [intros (z & Hz & Ez); apply N.eqb_eq in Ez; now subst|intros H; exists y; split; [exact H|apply N.eqb_refl]]).
  assert (SL : forall y, In y ys -> exists i, find (fst y) (r_map s) = Some i /\ (i < length (r_vars s))%nat /\ (i <? length xs)%nat = isin (fst y)).
  { intros y Hy. rewrite Forall_forall in FR. destruct (FR y Hy) as (c & n & Ey & _). destruct (proj1 (mi_known _ _ _ _ I (fst y))) as [i Ei]; [congruence|]. exists i. split; [exact Ei|]. split; [apply (mi_bound _ _ _ _ I _ _ Ei)|].
    destruct (mi_inputs _ _ _ _ I _ _ Ei) as [X|[X1 X2]].
    - rewrite (proj2 (ISIN (fst y)) (nth_error_In _ _ X)). apply Nat.ltb_lt. apply nth_error_Some. congruence.
    - destruct (isin (fst y)) eqn:EX; [apply ISIN in EX; contradiction|]. now apply Nat.ltb_ge. }
  set (at_ := fun y : N => match find y (r_map s) with Some i => i | None => 0%nat end).
  assert (RHS : flat_map (fun y : N * N => match find (fst y) (r_map s) with Some i => if (i <? length xs)%nat then [] else match s_data (get t i) with Some (b, _) => [b] | None => [] end | None => [] end) ys
              = flat_map (fun i => bufs_of (get t i)) (map at_ (filter (fun y => negb (isin y)) (map fst ys)))).
  { clear ND EO. induction ys as [|y ys IH]; cbn [flat_map map filter]; [reflexivity|]. apply Forall_cons_iff in FR as [_ FR]. rewrite IH; [|exact FR|intros; apply SL; now right].
    destruct (SL y (or_introl eq_refl)) as (i & Ei & Bi & Xi). rewrite Ei, Xi. destruct (isin (fst y)) eqn:EX; cbn [negb]; [reflexivity|]. cbn [map flat_map]. f_equal. unfold at_. rewrite Ei. unfold bufs_of.
    destruct (s_data (get t i)) as [[b c]|] eqn:D; [|reflexivity]. pose proof (LG1 _ _ _ D) as X. rewrite Xi in X. destruct X as [k ->]. reflexivity. }
  rewrite RHS, flat_filter. clear RHS.
  transitivity (flat_map (fun i => bufs_of (get t i)) (filter (fun i => negb (i <? length xs)%nat) (filter isout (seq 0 (length (r_vars s)))))).
  { rewrite <- (flat_filter (fun i => negb (i <? length xs)%nat)). apply Permutation_refl'. apply flat_map_ext. intros i. destruct (Nat.ltb_spec i (length xs)) as [LT|]; cbn [negb]; [|reflexivity]. unfold bufs_of.
    destruct (s_data (get t i)) as [[b c]|] eqn:D; [|reflexivity]. pose proof (LG1 _ _ _ D) as X. rewrite (proj2 (Nat.ltb_lt i (length xs)) LT) in X. now rewrite X. }
  apply flat_perm. apply NoDup_Permutation.
  - apply NoDup_filter, NoDup_filter, seq_NoDup.
  - assert (INJ : forall a b, In a (map fst ys) -> In b (map fst ys) -> at_ a = at_ b -> a = b).
    { intros a b Ha Hb E. apply in_map_iff in Ha as (ya & <- & Ha), Hb as (yb & <- & Hb). destruct (SL _ Ha) as (i & Ei & _), (SL _ Hb) as (j & Ej & _). unfold at_ in E. rewrite Ei, Ej in E. subst j. apply (mi_inj _ _ _ _ I _ _ _ Ei Ej). }
    change (NoDup (filter (fun y => negb (isin y)) (map fst ys))) in ND. revert ND. assert (SU : forall z, In z (filter (fun y => negb (isin y)) (map fst ys)) -> In z (map fst ys)) by (intros z Hz; apply filter_In in Hz; tauto).
    revert SU. generalize (filter (fun y => negb (isin y)) (map fst ys)). intros l SU ND. induction ND as [|a l0 NI ND IH]; cbn [map]; constructor.
    + intros X. apply in_map_iff in X as (b & E & Hb). apply NI. rewrite <- (INJ b a); auto; [apply SU; now right|apply SU; now left].
    + apply IH. intros z Hz. apply SU. now right.
  - intros i. rewrite !filter_In, in_map_iff, in_seq. unfold isout. rewrite existsb_exists, EO. split.
    + intros [[B (o & Ho & Eo)] NI]. apply Nat.eqb_eq in Eo. subst i. apply in_flat_map in Ho as (y & Hy & Ho). destruct (SL y Hy) as (i & Ei & Bi & Xi). unfold rec_output in Ho. rewrite Ei in Ho. destruct Ho as [<-|[]]. cbn [fst] in *.
      exists (fst y). split; [unfold at_; now rewrite Ei|]. apply filter_In. rewrite <- Xi. split; [now apply in_map|exact NI].
    + intros (y & <- & Hy). apply filter_In in Hy as [Hy NI]. apply in_map_iff in Hy as (y' & <- & Hy'). destruct (SL _ Hy') as (i & Ei & Bi & Xi). unfold at_. rewrite Ei. split; [|now rewrite Xi]. split; [lia|].
      exists (i, snd y'). split; [|cbn [fst]; apply Nat.eqb_refl]. apply in_flat_map. exists y'. split; [exact Hy'|]. unfold rec_output. rewrite Ei. now left.
Qed.

Theorem replay_correct xs tr ys (ins : list input) tr' :
  NoDup (map fst xs) -> length ins = length xs -> Forall (fun v => tsz (i_vt v) * i_n v < 2 ^ 32) ins ->
  follows blank dev count (map fst xs) (types_of xs) (env_of (map fst xs) ins) tr tr' ->
  exists e', run blank dev count (env_of (map fst xs) ins) tr' = Some e' /\
    (Forall (returned e') ys ->
     exists g t os freed, record xs tr ys = Some g /\ replay blank dev count g ins = Some (t, os, freed) /\ Forall2 (output_ok (map fst xs) e') ys os /\
       (forall i x, nth_error (map fst xs) i = Some x -> exists c n, e' x = Some (c, n) /\ s_data (get t i) = Some (BIn i, c)) /\
       (NoDup (filter (fun y => negb (existsb (N.eqb y) (map fst xs))) (map fst ys)) -> Permutation (freed ++ flat_map owned os) (map BNew (seq 0 (t_next t))))).
Proof.
  intros ND LI SM F.
  assert (I0 : minv (map fst xs) (rst_in xs) (fun x => env_of (map fst xs) ins x <> None) (types_of xs)).
  { eapply minv_ext; [apply (minv_in xs ND)| |reflexivity]. intros x. cbn beta. rewrite env_of_known; [reflexivity|]. now rewrite map_length. }
  destruct (all_steps blank dev count DEV (map fst xs) tr tr' (rst_in xs) _ _ I0 F) as (s' & ops & e' & tt' & A1 & A2 & A3 & A4 & A5 & A6 & A7).
  exists e'. split; [exact A5|]. intros FR.
  set (g := {| g_ops := r_ops s'; g_vars := r_vars s'; g_ins := r_ins s'; g_outs := flat_map (rec_output s') ys; g_dry := r_dry s' |}).
  assert (LR : length (r_vars (rst_in xs)) = length xs) by (rewrite rst_in_eq by assumption; cbn [r_vars]; rewrite map_length, combine_length, seq_length; lia).
  assert (EI : g_ins g = seq 0 (length xs)) by (cbn [g g_ins]; rewrite A3, rst_in_eq by assumption; reflexivity).
  destruct (start_ok xs ins g ND LI SM EI) as (S1 & S2 & S3); [cbn [g g_vars]; lia|].
  destruct (A7 (start g ins)) as (t & R1 & R2 & R3 & R4); auto; [rewrite S1; cbn [g g_vars]; lia|].
  assert (EOPS : ops = r_ops s') by (rewrite A2, rst_in_eq by assumption; reflexivity).
  destruct (outputs_ok (map fst xs) s' e' tt' t g A6 R2 eq_refl ys FR) as (os & O1 & O2 & O3).
  exists g, t, os, (t_freed t ++ release g t). split; [|split; [|split; [exact O2|split]]].
  - unfold record. fold (rst_in xs). rewrite A1. cbn [bind]. replace (existsb v_un (r_vars s')) with false; [reflexivity|]. symmetry. apply not_true_is_false. intros X. apply existsb_exists in X as (v & Hv & Ev). pose proof (mi_init _ _ _ _ A6) as X. rewrite Forall_forall in X. rewrite (X v Hv) in Ev. discriminate.
  - unfold replay. change (g_ops g) with (r_ops s'). rewrite <- EOPS, R1. change (g_outs g) with (flat_map (rec_output s') ys). rewrite O1. reflexivity.
  - intros i x Ex. assert (KX : e' x <> None).
    { assert (G : forall tr tr' tt (e : env) e1, follows blank dev count (map fst xs) tt e tr tr' -> run blank dev count e tr' = Some e1 -> In x (map fst xs) -> e x <> None -> e1 x <> None).
      { clear - DEV. induction tr as [|v tr IH]; intros [|v' tr'] tt e e1 F R IX NE; cbn [follows] in F; try contradiction; try (destruct v; contradiction); cbn [run] in R; [congruence|].
        destruct v as [c|y], v' as [c'|y']; try contradiction; cbn [run_ev] in R.
        - destruct F as (_ & _ & _ & _ & _ & FI & _ & NX). destruct (run_call_some blank dev count DEV e c' FI) as (e2 & E2 & K2). rewrite E2 in R. cbn [bind] in R. eapply IH; [apply NX; exact E2|exact R|exact IX|]. apply K2. now right.
        - destruct F as (<- & NX & F). cbn [bind] in R. eapply IH; [exact F|exact R|exact IX|]. unfold bindv. destruct (N.eqb_spec x y) as [->|]; [contradiction|exact NE]. }
      apply (G tr tr' _ _ _ F A5); [eapply nth_error_In; eassumption|]. apply env_of_known; [now rewrite map_length|]. eapply nth_error_In; eassumption. }
    destruct (proj1 (mi_known _ _ _ _ A6 x) KX) as [j Ej].
    assert (j = i). { destruct (mi_inputs _ _ _ _ A6 _ _ Ej) as [X|[_ X]]; [|apply nth_error_In in Ex; contradiction]. apply (proj1 (NoDup_nth_error (map fst xs)) ND); [apply nth_error_Some; congruence|congruence]. }
    subst j. pose proof (R2 _ _ Ej KX) as OK. destruct (e' x) as [[c n]|]; [|congruence]. destruct OK as (d & D & _). exists c, n. split; [reflexivity|]. rewrite D.
    destruct R3 as [LG1 _]. pose proof (LG1 _ _ _ D) as X. rewrite (proj2 (Nat.ltb_lt i _)) in X; [now rewrite X|]. apply nth_error_Some. congruence.
  - intros NDY. apply (owners (map fst xs) s' e' tt' t g ys A6 R2 R3 eq_refl); auto. rewrite R4, S1. reflexivity.
Qed.
End Top.
