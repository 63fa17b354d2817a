(** Frozen functions: the sizes of replayed operations. *)
From Verif Require Import Base Rpl_Model Rpl_Spec Rpl_Rec Rpl_Call.
From Verif Require Frz_Model Frz_Spec Frz_Proofs.
Local Open Scope N_scope.

Lemma elems_ok n ts : 0 < ts -> 0 < n < 2 ^ 32 -> elems (n * ts) ts = Some n.
Proof.
  intros Ht Hn. unfold elems. rewrite (proj2 (N.eqb_neq ts 0)) by lia. rewrite N.div_mul by lia.
  rewrite (proj2 (N.eqb_neq n 0)) by lia. rewrite N.eqb_refl. cbn [negb]. now rewrite u32_small by lia.
Qed.
Lemma elems_inv b ts n : elems b ts = Some n -> b < 2 ^ 32 * ts -> 0 < ts /\ 0 < n < 2 ^ 32 /\ b = n * ts.
Proof.
  unfold elems. destruct (N.eqb_spec ts 0); [discriminate|]. destruct (N.eqb_spec (b / ts) 0); [discriminate|].
  destruct (N.eqb_spec (b / ts * ts) b) as [E|]; cbn [negb]; [|discriminate]. intros X B. injection X as <-.
  assert (L : b / ts < 2 ^ 32) by (apply N.div_lt_upper_bound; lia). rewrite u32_small by exact L. repeat split; try lia. 
Qed.

(** ** Kernels *)
Lemma fparams_in p : forall l i, In p (fparams i l) -> exists j a, nth_error l j = Some a /\ p = {| Frz_Model.p_slot := i + j; Frz_Model.p_tsize := tsz (a_vt a); Frz_Model.p_out := a_out a; Frz_Model.p_ptr := a_pf a |}.
Proof.
  induction l as [|a l IH]; intros i H; cbn [fparams] in H; [destruct H|]. destruct H as [<-|H].
  - exists 0%nat, a. split; [reflexivity|]. now rewrite Nat.add_0_r.
  - apply IH in H as (j & b & E & ->). exists (S j), b. split; [exact E|]. f_equal. lia.
Qed.
Lemma nth_map_b l j a : nth_error l j = Some a -> nth j (map a_b l) 0 = a_b a.
Proof. intros E. apply (map_nth_error a_b) in E. now apply nth_error_nth. Qed.
Definition bsok (l : list arg) (bs : list N) : Prop := Forall2 (fun a b => a_out a = false -> b = a_b a) l bs.
Lemma bsok_self l : bsok l (map a_b l).
Proof. induction l; constructor; auto. Qed.
Lemma bsok_nth l bs j a : bsok l bs -> nth_error l j = Some a -> a_out a = false -> nth j bs 0 = a_b a.
Proof. intros B. revert j. induction B as [|x b l bs H B IH]; intros [|j] E O; cbn in *; try discriminate; [injection E as ->; auto|auto]. Qed.

Definition klaunch_ok (n : N) (l : list arg) : Prop :=
  0 < n < 2 ^ 32 /\ Forall (fun a => if a_out a then a_pf a = false /\ a_b a = n * tsz (a_vt a) else a_vt a <> Void /\ exists v, holds a (a_vt a) v) l.
Lemma kernel_ok_of n l : klaunch_ok n l -> Frz_Spec.kernel_ok (fenv (map a_b l)) n (fparams 0 l).
Proof.
  intros [B FA]. split; [exact B|]. rewrite Forall_forall in FA. split; apply Forall_forall; intros p H; apply fparams_in in H as (j & a & E & ->); pose proof (FA a (nth_error_In _ _ E)) as H.
  - intros O. cbn [Frz_Model.p_out Frz_Model.p_slot Frz_Model.p_tsize] in *. rewrite O in H. destruct H as [_ [v (T & V & A)]]. exists v. split; [exact V|]. split; [exact T|].
    unfold fenv. cbn. rewrite (nth_map_b _ _ _ E). exact A.
  - cbn [Frz_Model.p_ptr Frz_Model.p_out]. intros P. destruct (a_out a); [|reflexivity]. destruct H; congruence.
Qed.
Lemma infer_ext e e' : forall deps i p, (forall a, In a deps -> Frz_Model.p_out (Frz_Model.a_param a) = false -> e (Frz_Model.p_slot (Frz_Model.a_param a)) = e' (Frz_Model.p_slot (Frz_Model.a_param a))) ->
  Frz_Model.infer e deps i p = Frz_Model.infer e' deps i p.
Proof.
  induction deps as [|a deps IH]; intros i p H; cbn [Frz_Model.infer]; [reflexivity|].
  assert (IH' : forall i p, Frz_Model.infer e deps i p = Frz_Model.infer e' deps i p) by (intros; apply IH; intros b Hb; apply H; now right).
  destruct (Frz_Model.p_out (Frz_Model.a_param a)) eqn:O; [apply IH'|]. unfold Frz_Model.slot_size. rewrite (H a (or_introl eq_refl) O). destruct (Frz_Model.p_tsize (Frz_Model.a_param a) =? 0); [reflexivity|].
  destruct (_ =? 0); [reflexivity|]. destruct (negb (_ =? _)); [reflexivity|]. cbn [bind]. destruct (negb _); [apply IH'|]. destruct (Frz_Model.a_psize a); apply IH'.
Qed.
Lemma deps_in e n l a : klaunch_ok n l -> e = fenv (map a_b l) -> In a (Frz_Model.op_deps (Frz_Model.record e n (fparams 0 l))) -> exists j x, nth_error l j = Some x /\ Frz_Model.a_param a = {| Frz_Model.p_slot := j; Frz_Model.p_tsize := tsz (a_vt x); Frz_Model.p_out := a_out x; Frz_Model.p_ptr := a_pf x |}.
Proof.
  intros K -> H. rewrite Frz_Proofs.record_deps in H. apply in_map_iff in H as (p & <- & H). cbn [Frz_Model.a_param].
  apply fparams_in in H as (j & x & E & ->). exists j, x. split; [exact E|reflexivity].
Qed.
(** direct inputs *)
Lemma direct_go (f : arg -> bool) (g : Frz_Model.param -> bool) (l l' : list arg) (bs : list N) :
  (forall i a, g {| Frz_Model.p_slot := i; Frz_Model.p_tsize := tsz (a_vt a); Frz_Model.p_out := a_out a; Frz_Model.p_ptr := a_pf a |} = f a) ->
  (forall a, f a = true -> a_out a = false) ->
  Forall2 same_arg l l' -> (forall a b, same_arg a b -> f a = f b) -> bsok l' bs ->
  forall pre, fold_right N.max 0 (map (Frz_Model.vsize (fenv (pre ++ bs))) (filter g (fparams (length pre) l))) = fold_right N.max 0 (map entries (filter f l')).
Proof.
  intros G FO S SF. revert bs. induction S as [|a b l l' Sa S IH]; intros bs B pre; cbn [fparams filter]; [reflexivity|].
  destruct bs as [|x bs]; [inversion B|]. assert (B' : (a_out b = false -> x = a_b b) /\ bsok l' bs) by (inversion B; auto). destruct B' as [Bx B'].
  rewrite G, (SF _ _ Sa). specialize (IH bs B' (pre ++ [x])). rewrite <- app_assoc in IH. cbn [app] in IH. rewrite app_length in IH. cbn [length] in IH. rewrite Nat.add_1_r in IH.
  destruct (f b) eqn:Ef; [|exact IH]. cbn [map fold_right]. rewrite IH. f_equal. unfold Frz_Model.vsize, fenv, entries. cbn [Frz_Model.p_slot Frz_Model.p_tsize].
  rewrite app_nth2 by lia. rewrite Nat.sub_diag. cbn [nth]. rewrite Bx by (apply FO; exact Ef). destruct Sa as (_ & _ & _ & ->). reflexivity.
Qed.
Definition isdirect (a : arg) : bool := negb (a_out a) && negb (a_pf a).
Lemma direct_is n l : klaunch_ok n l -> forall l' bs, Forall2 same_arg l l' -> bsok l' bs -> Frz_Spec.max_of (fenv bs) (Frz_Spec.direct (fparams 0 l)) = direct_max l'.
Proof.
  intros K l' bs S B. unfold Frz_Spec.max_of, Frz_Spec.direct, direct_max.
  apply (direct_go isdirect _ l l' bs) with (pre := []); auto.
  - intros a. unfold isdirect. destruct (a_out a); [discriminate|reflexivity].
  - intros a b (_ & E1 & E2 & _). unfold isdirect. now rewrite E1, E2.
Qed.
Lemma same_refl l : Forall2 same_arg l l.
Proof. induction l; constructor; [repeat split|assumption]. Qed.

Lemma ratio_arith (s n n' d d' r : N) : 0 < n < 2 ^ 32 -> 0 < n' < 2 ^ 32 -> d <> 0 ->
  (d < n -> n mod d = 0 -> d' * (n / d) < 2 ^ 32 -> s = d' * (n / d)) -> (n <= d -> d mod n = 0 -> d / n <= d' -> s = d' / (d / n)) ->
  n = r * d /\ n' = r * d' \/ d = r * n /\ d' = r * n' -> s = n'.
Proof.
  #[local] Ltac Zify.zify_post_hook ::= idtac.
  intros Bn Bn' DN O1 O2 [[H1 H2]|[H1 H2]].
  - assert (ND : n / d = r) by (rewrite H1; apply N.div_mul; exact DN).
    assert (MD : n mod d = 0) by (rewrite H1; apply N.mod_mul; exact DN).
    rewrite ND in O1. destruct (N.lt_ge_cases d n) as [L|L].
    + rewrite (N.mul_comm d'), <- H2 in O1. apply O1; [exact L|exact MD|apply Bn'].
    + assert (R1 : r = 1).
      { destruct (N.eq_dec r 0) as [->|R0]; [rewrite N.mul_0_l in H1; lia|]. destruct (N.eq_dec r 1) as [->|R1]; [reflexivity|].
        exfalso. assert (2 * d <= r * d) by (apply N.mul_le_mono_r; lia). lia. }
      clear ND. subst r. rewrite N.mul_1_l in H1, H2. subst n n'. rewrite N.div_same, N.div_1_r in O2 by exact DN. apply O2; [lia|exact MD|lia].
  - assert (R0 : r <> 0) by (intros ->; rewrite N.mul_0_l in H1; congruence).
    assert (ND : d / n = r) by (rewrite H1; apply N.div_mul; lia).
    rewrite ND in O2. rewrite O2.
    + rewrite H2, N.mul_comm. apply N.div_mul. exact R0.
    + rewrite H1. rewrite <- (N.mul_1_l n) at 1. apply N.mul_le_mono_r. lia.
    + rewrite H1. apply N.mod_mul. lia.
    + rewrite H2. rewrite <- (N.mul_1_r r) at 1. apply N.mul_le_mono_l. lia.
Qed.
Lemma launch_plan k n n' l l' bs : klaunch_ok n l -> klaunch_ok n' l' -> Forall2 same_arg l l' -> bsok l' bs ->
  scales {| c_kind := KLaunch k n; c_args := l |} {| c_kind := KLaunch k n'; c_args := l' |} ->
  exists r, Frz_Model.infer (fenv bs) (Frz_Model.op_deps (Frz_Model.record (fenv (map a_b l)) n (fparams 0 l))) 0 0 = Some r /\ Frz_Model.launch_size (Frz_Model.record (fenv (map a_b l)) n (fparams 0 l)) (fst r) (snd r) = n'.
Proof.
  intros K K' S B [_ H]. cbn [c_args] in H. set (e := fenv (map a_b l)) in *. pose proof (kernel_ok_of _ _ K) as KO. fold e in KO.
  assert (IN : forall j x y, nth_error l j = Some x -> nth_error l' j = Some y -> same_arg x y).
  { clear -S. induction S; intros [|j] u v E1 E2; cbn in *; try discriminate; [congruence|eauto]. }
  assert (LN : length l = length l') by (clear -S; induction S; cbn; lia).
  assert (GET : forall j x, nth_error l j = Some x -> exists y, nth_error l' j = Some y /\ same_arg x y).
  { intros j x E. destruct (nth_error l' j) as [y|] eqn:E2; [eauto|]. apply nth_error_None in E2. assert (j < length l)%nat by (apply nth_error_Some; congruence). lia. }
  destruct H as [[-> EB]|[DN [r H]]].
  - (* the recorded sizes *)
    pose proof (Frz_Proofs.same_launch e n _ KO) as SL. unfold Frz_Model.replay1 in SL.
    destruct (Frz_Model.infer e (Frz_Model.op_deps (Frz_Model.record e n (fparams 0 l))) 0 0) as [q|] eqn:EI; [|discriminate]. cbn [bind] in SL. exists q. split; [|congruence].
    rewrite <- EI. symmetry. apply infer_ext. intros a Ha O. destruct (deps_in e n l a K eq_refl Ha) as (j & x & E & P). rewrite P in O |- *. cbn [Frz_Model.p_slot Frz_Model.p_out] in *.
    destruct (GET _ _ E) as (y & Ey & Sxy). unfold e, fenv. rewrite (nth_map_b _ _ _ E). rewrite (bsok_nth _ _ _ _ B Ey) by (destruct Sxy as (_ & <- & _); exact O).
    clear -EB E Ey O. revert j E Ey. induction EB; intros [|j] E1 E2; cbn in *; try discriminate; [|eauto]. injection E1 as ->. injection E2 as ->. auto.
  - (* ratio to the direct inputs *)
    assert (D1 : Frz_Spec.max_of e (Frz_Spec.direct (fparams 0 l)) = direct_max l) by (apply (direct_is n l K l); [apply same_refl|apply bsok_self]).
    assert (D2 : Frz_Spec.max_of (fenv bs) (Frz_Spec.direct (fparams 0 l)) = direct_max l') by (apply (direct_is n l K l'); assumption).
    assert (DR : Frz_Spec.driving e n (fparams 0 l) = Frz_Spec.direct (fparams 0 l)).
    { unfold Frz_Spec.driving. destruct (Frz_Spec.direct (fparams 0 l)) eqn:E; [|reflexivity]. exfalso. apply DN. rewrite <- D1. reflexivity. }
    assert (SO : Forall (Frz_Proofs.sizes_ok (fenv bs)) (Frz_Model.op_deps (Frz_Model.record e n (fparams 0 l)))).
    { apply Forall_forall. intros a Ha O. destruct (deps_in e n l a K eq_refl Ha) as (j & x & E & P). rewrite P in O |- *. cbn [Frz_Model.p_out] in O.
      destruct (GET _ _ E) as (y & Ey & Sxy). destruct K' as [_ FA]. rewrite Forall_forall in FA. specialize (FA y (nth_error_In _ _ Ey)).
      destruct Sxy as (_ & S2 & _ & S4). rewrite <- S2, O in FA. destruct FA as [_ [v (T & V & A)]]. exists v.
      unfold Frz_Model.slot_size, fenv. cbn [Frz_Model.p_slot Frz_Model.p_tsize]. rewrite (bsok_nth _ _ _ _ B Ey) by congruence. rewrite A, S4. apply elems_ok; assumption. }
    destruct (Frz_Proofs.infer_some (fenv bs) _ 0 0 SO) as [q EI]. exists q. split; [exact EI|].
    assert (RP : Frz_Model.replay1 (fenv bs) (Frz_Model.record e n (fparams 0 l)) = Some (Frz_Model.outputs (fenv bs) (Frz_Model.launch_size (Frz_Model.record e n (fparams 0 l)) (fst q) (snd q)) (map Frz_Model.a_param (Frz_Model.op_deps (Frz_Model.record e n (fparams 0 l)))), Frz_Model.launch_size (Frz_Model.record e n (fparams 0 l)) (fst q) (snd q))).
    { unfold Frz_Model.replay1. rewrite EI. reflexivity. }
    destruct (Frz_Proofs.other_sizes e n _ _ _ _ KO RP) as (_ & _ & O1 & O2).
    { rewrite DR. intros p Hp. apply filter_In in Hp as [Hp Op]. apply fparams_in in Hp as (j & x & E & ->). cbn [Frz_Model.p_out Frz_Model.p_ptr] in Op.
      destruct (GET _ _ E) as (y & Ey & Sxy). destruct K' as [_ FA]. rewrite Forall_forall in FA. specialize (FA y (nth_error_In _ _ Ey)).
      destruct Sxy as (_ & S2 & _ & S4). assert (O : a_out x = false) by (destruct (a_out x); [discriminate|reflexivity]). rewrite <- S2, O in FA. destruct FA as [_ [v (T & V & A)]].
      unfold Frz_Model.vsize, fenv. cbn [Frz_Model.p_slot Frz_Model.p_tsize]. rewrite Nat.add_0_l, (bsok_nth _ _ _ _ B Ey) by congruence. rewrite A, S4, N.div_mul by lia. lia. }
    rewrite DR, D1, D2 in O1, O2. destruct K as [Bn _], K' as [Bn' _].
    set (d := direct_max l) in *. set (d' := direct_max l') in *.
    apply (ratio_arith _ n n' d d' r Bn Bn' DN (O1 DN) (O2 DN) H).
Qed.

(** ** All operations *)
Lemma launch_outs_ok s t n : forall l l' os, Forall2 (link s t) l os -> Forall2 same_arg l l' ->
  Forall (fun a => if a_out a then a_pf a = false /\ a_b a = n * tsz (a_vt a) else a_vt a <> Void /\ exists v, holds a (a_vt a) v) l' ->
  launch_outs n os = map a_b (filter a_out l').
Proof.
  unfold launch_outs. induction l as [|a l IH]; intros l' os FL S FA; inversion FL as [|? o ? os' L FL' E1 E2]; subst; inversion S as [|? b ? l'' Sa S' E1 E2]; subst; [reflexivity|].
  apply Forall_cons_iff in FA as [Fb FA]. destruct L as (L1 & L2 & _), Sa as (_ & S2 & _ & S4). cbn [filter]. rewrite L1, <- S2. rewrite <- S2 in Fb.
  destruct (a_out a); [|now apply IH]. cbn [map]. f_equal; [|now apply IH]. rewrite L2, S4. destruct Fb as [_ ->]. reflexivity.
Qed.
Lemma agg_entries_ok s t : forall es vs os, entries_ok t es vs -> Forall is_in vs -> Forall2 (link s t) vs os -> agg_entries es os = Some es.
Proof.
  induction es as [|[off sz v|off sz] es IH]; intros vs os EO FI FL; cbn [entries_ok agg_entries] in *.
  - destruct vs; [|contradiction]. inversion FL. reflexivity.
  - rewrite (IH vs os EO FI FL). reflexivity.
  - destruct vs as [|a vs]; [contradiction|]. destruct EO as [E EO]. apply Forall_cons_iff in FI as [[O _] FI].
    inversion FL as [|? o ? os' L FL' E1 E2]; subst. rewrite (IH vs os' EO FI FL'). cbn [bind]. destruct L as (_ & L2 & _). rewrite L2, O. reflexivity.
Qed.
Lemma agg_max : forall es m, Forall (fun e => ent_end e < 2 ^ 32 - 8) es -> fold_left (fun m e => N.max m (agg_end e)) es m = N.max m (fold_right N.max 0 (map ent_end es)).
Proof.
  induction es as [|e es IH]; intros m FA; cbn [fold_left map fold_right]; [lia|]. apply Forall_cons_iff in FA as [Fe FA]. rewrite IH by assumption.
  assert (X : agg_end e = ent_end e) by (destruct e; cbn [agg_end ent_end] in *; apply u32_small; lia). rewrite X. lia.
Qed.
Lemma agg_bytes_ok es : Forall (fun e => ent_end e < 2 ^ 32 - 8) es -> agg_bytes es = (fold_right N.max 0 (map ent_end es) + 7) / 8 * 8.
Proof.
  intros FA. unfold agg_bytes. rewrite agg_max by assumption. rewrite N.max_0_l. rewrite u32_small; [reflexivity|].
  assert (X : fold_right N.max 0 (map ent_end es) < 2 ^ 32 - 8); [|lia].
  induction es as [|e es IH]; cbn [map fold_right]; [lia|]. apply Forall_cons_iff in FA as [Fe FA]. specialize (IH FA). lia.
Qed.
Lemma type_same t a b : same_arg a b -> type_of t a = type_of t b.
Proof. intros (E1 & _ & _ & E4). unfold type_of. now rewrite E1, E4. Qed.
Lemma type_given t a vt : a_vt a = vt -> vt <> Void -> type_of t a = vt.
Proof. intros E H. unfold type_of. rewrite E. now rewrite (proj2 (N.eqb_neq _ _) H). Qed.

Ltac inv2 H := match type of H with
  | Forall2 _ [] _ => inversion H; subst; clear H
  | Forall2 _ (_ :: _) _ => let L := fresh "L" in let H' := fresh "F2" in inversion H as [|? ? ? ? L H']; subst; clear H; inv2 H'
  | _ => idtac end.

Lemma plan_ok s t c c' os bs : regular t c -> regular t c' -> Forall2 same_arg (c_args c) (c_args c') -> scales c c' ->
  Forall2 (link s t) (rargs t c) os -> bsok (c_args c') bs ->
  plan_of false (rop_of c os) bs = Go (c_kind c') (map a_b (filter a_out (c_args c'))).
Proof.
  intros R R' S SC FL B0. pose proof B0 as B. unfold bsok in B. destruct c as [k l], c' as [k' l']. unfold rop_of. cbn [c_kind c_args] in *.
  unfold plan_of. cbn [o_kind o_args o_launch].
  destruct k as [k n|n isz v|n|rp n|n|n bsz bc|vt rp n bsz|vt rp n bsz ex rev|vt n|es|n|n|];
    destruct k' as [k' n'|n' isz' v'|n'|rp' n'|n'|n' bsz' bc'|vt' rp' n' bsz'|vt' rp' n' bsz' ex' rev'|vt' n'|es'|n'|n'|]; try (contradiction SC); unfold scales in SC; cbn [c_kind c_args] in SC.
  - (* launch *)
    unfold rargs in FL. cbn [c_kind c_args] in FL. destruct SC as [<- SC].
    unfold launch_of. cbn [c_kind c_args].
    destruct (launch_plan k n n' l l' bs R R' S B0 (conj eq_refl SC)) as (r & E1 & E2). rewrite E1, E2.
    f_equal. apply (launch_outs_ok s t n' l l' os FL S). apply R'.
  - (* memset *)
    unfold regular in R, R'; cbn [c_kind c_args] in R, R'. destruct l as [|d [|]]; try contradiction. unfold rargs in FL; cbn [c_kind c_args] in FL. inv2 FL. inv2 S.
    destruct SC as (<- & <- & <-). destruct R' as ((O & V) & Bi & Bn & A). rewrite !u32_small by lia. rewrite elems_ok by lia. cbn [filter map]. rewrite O. cbn [map]. now rewrite A.
  - (* memcpy *)
    unfold regular in R, R'; cbn [c_kind c_args] in R, R'. destruct l as [|a [|d [|]]]; try contradiction. unfold rargs in FL; cbn [c_kind c_args] in FL. inv2 FL. inv2 S. inv2 B.
    destruct R' as ((O & _) & (O' & _) & _ & A1 & A2). cbn [filter map]. rewrite O, O'. cbn [map]. rewrite L3 by assumption. now rewrite A1, A2.
  - (* bool *)
    unfold regular in R, R'; cbn [c_kind c_args] in R, R'. destruct l as [|a [|d [|]]]; try contradiction. unfold rargs in FL; cbn [c_kind c_args] in FL. inv2 FL. inv2 S. inv2 B.
    destruct R' as ((O & _) & (O' & _) & (T & Bn & A1) & A2). cbn [filter map]. rewrite O, O'. cbn [map]. rewrite L3 by assumption. rewrite A1, elems_ok by assumption. rewrite A2. reflexivity.
  - (* compress *)
    unfold regular in R, R'; cbn [c_kind c_args] in R, R'. destruct l as [|a [|d [|]]]; try contradiction. unfold rargs in FL; cbn [c_kind c_args] in FL. inv2 FL. inv2 S. inv2 B.
    destruct R as ((O0 & _) & (O0' & V0) & _). destruct R' as ((O & _) & (O' & V') & T1 & (T & Bn & A1) & A2). cbn [filter map]. rewrite O, O'. cbn [map]. rewrite L3 by assumption.
    destruct L as (_ & -> & _), L0 as (_ & -> & _). rewrite O0, O0', V0, (type_same _ _ _ L1), A1, elems_ok by assumption. rewrite A2. reflexivity.
  - (* mkperm *)
    unfold regular in R, R'; cbn [c_kind c_args] in R, R'. destruct l as [|a [|d1 [|d2 [|]]]]; try contradiction. unfold rargs in FL; cbn [c_kind c_args] in FL. inv2 FL. inv2 S. inv2 B.
    destruct R as ((O0 & _) & (P0 & V0) & (P1 & V1) & _). destruct R' as ((O & _) & (O' & V') & (O'' & V'') & T1 & (T & Bn & A1) & A2 & A3 & A4). cbn [filter map]. rewrite O, O', O''. cbn [map].
    destruct SC as [<- <-]. destruct L as (_ & -> & _), L0 as (_ & -> & _), L1 as (_ & -> & _). rewrite O0, P0, P1, V0, V1, (type_same _ _ _ L2). rewrite L5 by assumption. rewrite A1, elems_ok by assumption.
    rewrite u32_small by lia. rewrite A2, A4. reflexivity.
  - (* reduce *)
    unfold regular in R, R'; cbn [c_kind c_args] in R, R'. destruct l as [|a [|d [|]]]; try contradiction. unfold rargs in FL; cbn [c_kind c_args] in FL. inv2 FL. inv2 S. inv2 B.
    destruct R as ((O0 & _) & Z0 & V0 & (O0' & V1) & _). destruct R' as ((O & _) & Z & V & (O' & V') & (T & Bn & A1) & Bs & M & A2). cbn [filter map]. rewrite O, O'. cbn [map]. rewrite L3 by assumption.
    destruct SC as (<- & <- & SB). destruct L as (_ & -> & _), L0 as (_ & -> & _). rewrite O0, O0', V1, (type_given t a vt V0 Z0), A1, elems_ok by assumption.
    rewrite <- SB. rewrite (proj2 (N.eqb_neq _ _)) by lia. rewrite M, N.eqb_refl. cbn [negb]. rewrite A2. reflexivity.
  - (* prefix *)
    unfold regular in R, R'; cbn [c_kind c_args] in R, R'. destruct l as [|a [|d [|]]]; try contradiction. unfold rargs in FL; cbn [c_kind c_args] in FL. inv2 FL. inv2 S. inv2 B.
    destruct R as ((O0 & _) & Z0 & V0 & (O0' & V1) & _). destruct R' as ((O & _) & Z & V & (O' & V') & (T & Bn & A1) & Bs & M & A2). cbn [filter map]. rewrite O, O'. cbn [map]. rewrite L3 by assumption.
    destruct SC as (<- & <- & <- & <- & SB). destruct L as (_ & -> & _), L0 as (_ & -> & _). rewrite O0, O0', V1, (type_given t a vt V0 Z0), A1, elems_ok by assumption.
    rewrite <- SB. rewrite (proj2 (N.eqb_neq _ _)) by lia. rewrite M, N.eqb_refl. cbn [negb]. rewrite A2. reflexivity.
  - (* dot *) subst vt'.
    unfold regular in R, R'; cbn [c_kind c_args] in R, R'. destruct l as [|d [|a1 [|a2 [|]]]]; try contradiction. unfold rargs in FL; cbn [c_kind c_args] in FL. inv2 FL. inv2 S. inv2 B.
    destruct R as ((O0 & _) & (O1 & _) & Z0 & V0 & V1 & (O2 & V2) & _). destruct R' as ((P0 & _) & (P1 & _) & Z & V0' & V1' & (P2 & V2') & (T & Bn & A1) & (_ & _ & A2) & A3). cbn [filter map]. rewrite P0, P1, P2. cbn [map].
    try subst vt'. destruct L as (_ & -> & _), L0 as (_ & -> & _), L1 as (_ & -> & _). rewrite O0, O1, O2, V2, (type_given t a1 vt V0 Z0), (type_given t a2 vt V1 Z0).
    rewrite L6, L7 by assumption. rewrite A1, A2, elems_ok by assumption. cbn [andb]. rewrite A3. reflexivity.
  - (* aggregate *)
    unfold regular in R, R'; cbn [c_kind c_args] in R, R'. destruct l as [|d vs]; try contradiction. destruct l' as [|d' vs']; try contradiction. unfold rargs in FL; cbn [c_kind c_args] in FL.
    destruct R as (_ & FI & EO & _). destruct R' as ((O & _) & FI' & _ & FE & A). try subst es'. inversion FL as [|? o ? os' L FL']; subst.
    rewrite (agg_entries_ok s t es vs os' EO FI FL'). rewrite (agg_bytes_ok es FE), <- A. cbn [filter map]. rewrite O. cbn [map].
    assert (X : filter a_out vs' = []) by (clear -FI'; induction FI' as [|x l [E _] _ IH]; cbn [filter]; [reflexivity|now rewrite E]). now rewrite X.
  - (* width *)
    unfold regular in R, R'; cbn [c_kind c_args] in R, R'. destruct l as [|a [|d [|]]]; try contradiction. unfold rargs in FL; cbn [c_kind c_args] in FL. inv2 FL. inv2 S. inv2 B.
    destruct R as ((O0 & _) & Z0 & (O0' & V1) & _). destruct R' as ((O & _) & Z & (O' & V') & (T & Bn & A1) & A2). cbn [filter map]. rewrite O, O'. cbn [map]. rewrite L3 by assumption.
    destruct L as (_ & -> & _), L0 as (_ & -> & _). rewrite O0, O0', V1, (type_same _ _ _ L1), (type_given t _ _ eq_refl Z), A1, elems_ok by assumption. rewrite A2. reflexivity.
  - (* undefined *) subst n'.
    unfold regular in R, R'; cbn [c_kind c_args] in R, R'. destruct l as [|d [|]]; try contradiction. unfold rargs in FL; cbn [c_kind c_args] in FL. inv2 FL. inv2 S.
    destruct R as ((O0 & _) & _). destruct R' as ((O & _) & Bn & A). try subst n'. destruct L as (_ & -> & _), L0 as (_ & _ & _ & X). cbn [filter map]. rewrite O0, O. cbn [map]. rewrite X, A, u32_small by lia. reflexivity.
  - (* barrier *)
    unfold regular in R, R'; cbn [c_kind c_args] in R, R'. destruct l; try contradiction. unfold rargs in FL; cbn [c_kind c_args] in FL. inv2 FL. inv2 S. reflexivity.
Qed.
