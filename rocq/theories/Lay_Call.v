From Verif Require Import Base Lay_Model Lay_Spec Lay_Proofs Lay_Scatter Lay_Inst.
Local Open Scope N_scope.
#[local] Ltac Zify.zify_post_hook ::= idtac.

Lemma packed_le : forall out lo hi, packed lo hi out -> lo <= hi.
Proof. induction out as [|[[r o] b] out IH]; intros lo hi H; cbn in H; [exact H|]. destruct H as (A & _ & B). apply IH in B. lia. Qed.
Lemma packed_hi : forall out lo hi hi', hi <= hi' -> packed lo hi out -> packed lo hi' out.
Proof. induction out as [|[[r o] b] out IH]; intros lo hi hi' L H; cbn in *; [lia|]. intuition eauto. Qed.
Lemma packed_app : forall a b lo mid hi, packed lo mid a -> packed mid hi b -> packed lo hi (a ++ b).
Proof.
  induction a as [|[[r o] k] a IH]; intros b lo mid hi A B; cbn [app packed] in *.
  - eapply packed_weaken; eauto.
  - intuition eauto.
Qed.
Lemma packed_in : forall out lo hi r o b, packed lo hi out -> In (r, o, b) out -> lo <= o /\ o + bsize b <= hi.
Proof.
  induction out as [|[[r' o'] b'] out IH]; intros lo hi r o b H I; [destruct I|]. cbn in H. destruct H as (A & _ & B).
  destruct I as [E|I].
  - inversion E; subst. apply packed_le in B. lia.
  - destruct (IH _ _ _ _ _ B I). lia.
Qed.

Section Call.
Variables (llvm : bool) (alignment cap : N).
Hypothesis BK : backend_ok llvm alignment cap.

Inductive instances : N -> N -> list (list slot) -> list placed -> list layout -> N -> Prop :=
| in_nil : forall lo ds, instances lo ds [] [] [] ds
| in_cons : forall lo ds ss out l hi insts outs ls hi',
    instance_ok lo ds ss out l hi -> l_offset l mod block_align llvm alignment cap ss = 0 -> buckets_ok ss ->
    (forall c, c < 4 -> bucket_at llvm cap ss lo out l c) ->
    instances (lo + N.of_nat (length ss)) hi insts outs ls hi' ->
    instances lo ds (ss :: insts) (out ++ outs) (l :: ls) hi'.

Lemma layout_from_ok : forall insts lo ds outs ls hi, Forall buckets_ok insts ->
  ds + cost insts + 64 < 2 ^ 32 -> lo + N.of_nat (length (concat insts)) < 2 ^ 32 ->
  layout_from llvm alignment cap lo ds insts = (outs, ls, hi) ->
  instances lo ds insts outs ls hi /\ hi <= ds + cost insts.
Proof.
  induction insts as [|ss insts IH]; intros lo ds outs ls hi F FIT FIT2 E; cbn [layout_from] in E.
  - inversion E; subst. split; [constructor|cbn; lia].
  - inversion_clear F as [|? ? B F']. cbn [cost fold_right] in FIT. fold (cost insts) in FIT.
    cbn [concat] in FIT2. rewrite app_length, Nat2N.inj_add in FIT2.
    destruct (layout_instance llvm alignment cap lo ds ss) as [[out l] h] eqn:E1.
    rewrite u32_small in E by lia.
    destruct (layout_instance_ok llvm alignment cap BK ss B lo ds out l h) as (I1 & I2 & I3 & I4); auto; try lia.
    destruct (layout_from llvm alignment cap (lo + N.of_nat (length ss)) h insts) as [[outs' ls'] h'] eqn:E2.
    apply IH in E2; [|exact F'|lia|lia]. destruct E2 as [J1 J2]. inversion E; subst.
    split; [econstructor; eauto|]. cbn [cost fold_right]. fold (cost insts). lia.
Qed.
Lemma instances_packed : forall lo ds insts outs ls hi, instances lo ds insts outs ls hi -> packed ds hi outs.
Proof.
  induction 1; [cbn; lia|]. eapply packed_app; [|exact IHinstances].
  destruct H. eapply packed_weaken; eauto.
Qed.
Lemma instances_perm : forall lo ds insts outs ls hi, instances lo ds insts outs ls hi -> Permutation (map forget outs) (concat insts).
Proof. induction 1; [constructor|]. rewrite map_app. cbn [concat]. apply Permutation_app; [apply H|assumption]. Qed.
Lemma instances_length : forall lo ds insts outs ls hi, instances lo ds insts outs ls hi -> length ls = length insts.
Proof. induction 1; cbn; congruence. Qed.
Lemma perm_length : forall (out : list placed) (ss : list slot), Permutation (map forget out) ss -> length out = length ss.
Proof. intros out ss P. apply Permutation_length in P. rewrite map_length in P. exact P. Qed.

(** One instance within the whole array. *)
Lemma instances_nth : forall lo ds insts outs ls hi, instances lo ds insts outs ls hi ->
  forall i ss l, nth_error insts i = Some ss -> nth_error ls i = Some l ->
  exists pre out post h, outs = pre ++ out ++ post /\ lo + N.of_nat (length pre) = l_start l /\
    N.of_nat (length out) = l_count l /\ Permutation (map forget out) ss /\
    packed (l_offset l) h out /\ h <= hi /\ ds <= l_offset l /\
    buckets_ok ss /\ l_offset l mod block_align llvm alignment cap ss = 0 /\
    (forall c, c < 4 -> bucket_at llvm cap ss (l_start l) out l c).
Proof.
  induction 1; intros i ss' l' E1 E2; [destruct i; discriminate|]. destruct i as [|i]; cbn [nth_error] in E1, E2.
  - injection E1 as <-. injection E2 as <-. destruct H. exists [], out, outs, hi. cbn [app length].
    split; [reflexivity|]. split; [lia|]. split; [rewrite (perm_length _ _ i_perm); lia|]. split; [auto|]. split; [auto|].
    split; [apply instances_packed in H3; apply packed_le in H3; exact H3|]. split; [lia|]. split; [auto|]. split; [auto|].
    intros c C. rewrite i_start. auto.
  - destruct (IHinstances i ss' l' E1 E2) as (pre & out' & post & h & -> & A & B & C & D & G & J & R).
    exists (out ++ pre), out', post, h. rewrite <- app_assoc. split; [reflexivity|].
    destruct H. pose proof (perm_length _ _ i_perm) as PL. split; [rewrite app_length, Nat2N.inj_add, PL; clear - A; lia|].
    split; [exact B|]. split; [exact C|]. split; [exact D|]. split; [exact G|]. split; [apply packed_le in i_packed; clear - i_packed J i_after; lia|]. exact R.
Qed.

Lemma alignment_ok : In alignment p2 /\ 8 <= alignment.
Proof. unfold backend_ok in BK. destruct llvm; [destruct BK as [C ->]; cbn in C|cbn in BK]; intuition subst; cbn; try lia; auto 10. Qed.

Lemma layout_call_ok : forall insts inst_id, Forall buckets_ok insts -> cost insts + 128 < 2 ^ 32 ->
  exists hi, instances 0 0 insts (c_slots (layout_call llvm alignment cap insts inst_id)) (c_layouts (layout_call llvm alignment cap insts inst_id)) hi /\
    hi <= c_data_size (layout_call llvm alignment cap insts inst_id) /\
    c_data_size (layout_call llvm alignment cap insts inst_id) mod alignment = 0.
Proof.
  intros insts inst_id F FIT. unfold layout_call.
  assert (LC : 8 * N.of_nat (length (concat insts)) <= cost insts).
  { clear. induction insts; [cbn; lia|]. cbn [concat cost fold_right]. rewrite app_length, Nat2N.inj_add. fold (cost insts). lia. }
  destruct (layout_from llvm alignment cap 0 0 insts) as [[outs ls] hi] eqn:E. cbn [c_slots c_layouts c_data_size].
  apply layout_from_ok in E; [|exact F|lia|lia]. destruct E as [I L]. exists hi.
  destruct alignment_ok as [AP A8]. pose proof (p2_pos _ AP). destruct (align_up_ok hi alignment) as (X & Y & Z); [lia|lia|]. auto.
Qed.
End Call.

(** ** Packet loads *)
Lemma run_length_le : forall live k cnt, run_length live k cnt <= cnt.
Proof.
  intros. unfold run_length.
  assert (G : forall l m, m <= cnt -> (forall i, In i l -> i < cnt) -> fold_left (fun m i => if live (k + i) then i + 1 else m) l m <= cnt).
  { induction l as [|i l IH]; intros m M H; cbn [fold_left]; [exact M|]. apply IH; [|intros; apply H; right; auto].
    specialize (H i (or_introl eq_refl)). destruct (live _); lia. }
  apply G; [lia|]. intros i I. apply in_map_iff in I. destruct I as (j & <- & J). apply in_seq in J. lia.
Qed.

Section Packets.
Variables (cap width : N).
Hypothesis CAP : In cap [1; 2; 4; 8].
Hypothesis WIDTH : (if width <? 8 then width else 8) = cap.

Lemma packets_ok : forall fuel c rel0 k run pos q, In q [1; 2; 4; 8] -> pos mod q = 0 -> pick_packet (run - pos) cap <= q ->
  rel0 + run * bsize c < 2 ^ 32 ->
  forall ld, In ld (packets fuel width c rel0 k run pos) ->
  exists pos', pos' < run /\ ld_off ld = rel0 + pos' * bsize c /\ ld_size ld = bsize c /\ ld_slot ld = k + pos' /\
    In (ld_n ld) [1; 2; 4; 8] /\ ld_n ld <= q /\ ld_n ld <= pick_packet (run - pos) cap /\ pos' mod ld_n ld = 0.
Proof.
  induction fuel; intros c rel0 k run pos q Q M P FIT ld I; cbn [packets] in I; [destruct I|].
  destruct (N.ltb_spec pos run) as [LT|]; [|destruct I]. rewrite WIDTH in I.
  destruct (pick_packet_in (run - pos) cap CAP) as [PI PL].
  set (p := pick_packet (run - pos) cap) in *.
  assert (PM : pos mod p = 0).
  { eapply mod_trans; [| |apply (p2_le_div p q)|exact M]; try (cbn in PI, Q |- *; intuition lia); auto. }
  destruct (N.ltb_spec p 2) as [|P2]; [destruct I|]. destruct I as [<-|I].
  - exists pos. cbn [ld_off ld_n ld_size ld_slot]. assert (pos * bsize c <= run * bsize c) by (apply N.mul_le_mono_r; lia).
    rewrite u32_small by lia. split; [exact LT|]. repeat split; auto; lia.
  - destruct (N.le_gt_cases p (run - pos)) as [LE|GT].
    + rewrite N.min_r in I by lia.
      assert (MONO : pick_packet (run - (pos + p)) cap <= p) by (apply pick_mono; auto; lia).
      destruct (IHfuel c rel0 k run (pos + p) p) with (ld := ld) as (pos' & A & B & C & D & E & F & G & H); auto.
      { rewrite <- (N.mul_1_l p) at 1. rewrite N.mod_add by lia. exact PM. }
      exists pos'. split; [exact A|]. split; [exact B|]. split; [exact C|]. split; [exact D|]. split; [exact E|]. split; [lia|]. split; [lia|]. exact H.
    + rewrite N.min_l in I by lia. replace (pos + (run - pos)) with run in I by lia.
      destruct fuel; cbn [packets] in I; [destruct I|]. destruct (N.ltb_spec run run); [lia|destruct I].
Qed.
End Packets.

Lemma mod_mul_le : forall x d m, 0 < m -> x mod m = 0 -> d mod m = 0 -> x < d -> x + m <= d.
Proof.
  intros x d m M X D L. apply N.mod_divide in X; [|lia]. apply N.mod_divide in D; [|lia]. destruct X as [a ->], D as [b ->].
  assert (a < b) by (apply (N.mul_lt_mono_pos_r m); lia). assert ((a + 1) * m <= b * m) by (apply N.mul_le_mono_r; lia). lia.
Qed.

Theorem bucket_loads_ok : forall cap width alignment insts inst_id i ss l c live ld,
  backend_ok true alignment cap -> (if width <? 8 then width else 8) = cap ->
  Forall buckets_ok insts -> cost insts + 128 < 2 ^ 32 ->
  nth_error insts i = Some ss -> nth_error (c_layouts (layout_call true alignment cap insts inst_id)) i = Some l ->
  c < 4 -> In ld (bucket_loads width live (c_slots (layout_call true alignment cap insts inst_id)) l c) ->
  load_ok (l_offset l) (c_data_size (layout_call true alignment cap insts inst_id)) ld /\
  (forall j, j < ld_n ld -> ld_slot ld + j < fst (nth (N.to_nat c) (l_bucket l) (0, 0)) + snd (nth (N.to_nat c) (l_bucket l) (0, 0)) ->
     exists ref, nth_error (c_slots (layout_call true alignment cap insts inst_id)) (N.to_nat (ld_slot ld + j)) =
       Some (ref, l_offset l + ld_off ld + j * ld_size ld, c)).
Proof.
  intros cap width alignment insts inst_id i ss l c live ld BK W F FIT E1 E2 C4 I.
  destruct (layout_call_ok true alignment cap BK insts inst_id F FIT) as (hi & IN & HI & DM).
  pose proof (instances_packed _ _ _ _ _ _ _ _ _ IN) as PK.
  destruct (instances_nth _ _ _ _ _ _ _ _ _ IN i ss l E1 E2) as (pre & out & post & h & EO & LS & LC & _ & PO & HH & _ & BO & BA & BU).
  set (cc := layout_call true alignment cap insts inst_id) in *.
  specialize (BU c C4). unfold bucket_loads in I. unfold bucket_at in BU.
  destruct (N.eqb_spec (count c ss) 0) as [Z|Z]; [rewrite BU in I; destruct I|].
  destruct BU as (k & o & BE & OM & OL & AT). rewrite BE in I |- *. cbn [fst snd].
  destruct (N.eqb_spec (count c ss) 0) as [|_]; [contradiction|].
  assert (SL : forall r, r < count c ss -> exists ref, nth_error (c_slots cc) (N.to_nat (l_start l + k + r)) = Some (ref, o + r * bsize c, c)).
  { intros r R. destruct (AT r R) as [ref A]. exists ref. rewrite EO. rewrite nth_error_app2 by (clear - LS; lia).
    assert (N.to_nat (k + r) < length out)%nat by (apply nth_error_Some; rewrite A; discriminate).
    rewrite nth_error_app1 by (clear - LS H; lia). rewrite <- A. f_equal. clear - LS; lia. }
  assert (INR : forall r, r < count c ss -> o + r * bsize c + bsize c <= hi).
  { intros r R. destruct (SL r R) as [ref A]. apply nth_error_In in A. destruct (packed_in _ _ _ _ _ _ PK A) as [_ PX]. exact PX. }
  pose proof (run_length_le live (l_start l + k) (count c ss)) as RL. set (run := run_length live (l_start l + k) (count c ss)) in *.
  assert (Z0 : 0 < count c ss) by (clear - Z; lia). destruct (SL 0 Z0) as [ref0 S0]. rewrite N.add_0_r in S0. rewrite (nth_error_nth _ _ _ S0) in I. cbn [fst snd] in I.
  replace (o + 0 * bsize c) with o in I by (clear; lia).
  assert (BK' := BK). destruct BK' as [CAP AL].
  assert (HI32 : hi < 2 ^ 32).
  { unfold cc, layout_call in HI. destruct (layout_from true alignment cap 0 0 insts) as [[? ?] ?]. cbn [c_data_size] in HI.
    unfold align_up in HI. pose proof (u32_lt (u32 (n + alignment + (2 ^ 32 - 1)) / alignment * alignment)) as UL. eapply N.le_lt_trans; [exact HI|exact UL]. }
  assert (OB : o + count c ss * bsize c <= hi).
  { assert (Z1 : count c ss - 1 < count c ss) by (clear - Z0; lia). specialize (INR (count c ss - 1) Z1).
    replace (count c ss) with (count c ss - 1 + 1) at 1 by (clear - Z0; lia). rewrite N.mul_add_distr_r. clear - INR. lia. }
  assert (SUB : sub32 o (l_offset l) = o - l_offset l).
  { unfold sub32, u32. replace (o + 2 ^ 32 - l_offset l) with (o - l_offset l + 1 * 2 ^ 32) by (clear - OL; lia). rewrite N.mod_add by (clear; lia). apply N.mod_small. clear - OB HI32 OL. lia. }
  rewrite SUB in I.
  assert (RB : run * bsize c <= count c ss * bsize c) by (apply N.mul_le_mono_r; exact RL).
  destruct (pick_packet_in (run - 0) cap CAP) as [QI _].
  assert (QN : pick_packet (run - 0) cap <> 0) by (clear - QI; cbn in QI; intuition lia).
  assert (FT : o - l_offset l + run * bsize c < 2 ^ 32) by (clear - RB OB HI32; lia).
  destruct (packets_ok cap width CAP W (N.to_nat run) c (o - l_offset l) (l_start l + k) run 0 (pick_packet (run - 0) cap) QI (N.mod_0_l _ QN) (N.le_refl _) FT _ I)
    as (pos & P1 & P2 & P3 & P4 & P5 & P6 & P7 & P8).
  pose proof (bsize_pos c) as BP.
  (* alignment *)
  pose proof (al_llvm true alignment cap BK ss eq_refl c) as ALE.
  destruct (pick_bsize cap (count c ss) c CAP) as (PP & _ & _ & PC).
  assert (NL : ld_n ld <= pick_packet (count c ss) cap).
  { transitivity (pick_packet (run - 0) cap); [exact P7|]. apply pick_mono; auto. clear - RL; lia. }
  assert (NP : 1 <= ld_n ld) by (clear - P5; cbn in P5; intuition lia).
  set (w := ld_n ld * ld_size ld). assert (WE : w = ld_n ld * bsize c) by (unfold w; rewrite P3; reflexivity). assert (WD : ld_n ld * ld_size ld = w) by reflexivity. clearbody w.
  assert (WP : 0 < w) by (rewrite WE; apply N.mul_pos_pos; clear - NP BP; lia).
  assert (WI : In w p2).
  { rewrite WE. pose proof (bsize_in c) as B. cbn in P5, B. destruct P5 as [<-|[<-|[<-|[<-|[]]]]]; destruct B as [<-|[<-|[<-|[<-|[]]]]]; vm_compute; tauto. }
  assert (WL : w <= bucket_align true cap ss c) by (rewrite ALE, WE; apply N.mul_le_mono_r; exact NL).
  assert (AIN : In (bucket_align true cap ss c) p2) by (rewrite ALE; exact PP).
  assert (OW : o mod w = 0).
  { eapply mod_trans; [exact WP| |apply p2_le_div; [exact WI|exact AIN|exact WL]|exact OM]. pose proof (p2_pos _ AIN) as AP. clear - AP. lia. }
  assert (PW : (pos * bsize c) mod w = 0).
  { rewrite WE. apply N.mod_divide in P8; [|clear - NP; lia]. destruct P8 as [z ->]. rewrite <- N.mul_assoc. apply N.mod_mul. clear - WP WE. lia. }
  assert (XW : (o + pos * bsize c) mod w = 0).
  { apply N.mod_divide in OW; [|clear - WP; lia]. apply N.mod_divide in PW; [|clear - WP; lia]. apply N.mod_divide; [clear - WP; lia|]. apply N.divide_add_r; auto. }
  assert (LOFF : l_offset l + ld_off ld = o + pos * bsize c) by (clear - P2 OL; lia).
  split.
  - unfold load_ok. rewrite WD, LOFF. split; [exact XW|].
    apply mod_mul_le; [exact WP|exact XW| |].
    + eapply mod_trans; [exact WP| |apply p2_le_div; [exact WI| |]|exact DM].
      * pose proof (alignment_ok true alignment cap BK) as [_ AQ]. clear - AQ. lia.
      * apply (alignment_ok true alignment cap BK).
      * rewrite AL. transitivity (bucket_align true cap ss c); [exact WL|rewrite ALE; exact PC].
    + assert (PC2 : pos < count c ss) by (clear - P1 RL; lia). specialize (INR pos PC2). clear - INR HI BP. lia.
  - intros j J BND. rewrite P4 in BND |- *. assert (PJ : pos + j < count c ss) by (clear - BND; lia). destruct (SL (pos + j) PJ) as [ref A]. exists ref.
    replace (l_start l + k + pos + j) with (l_start l + k + (pos + j)) by (clear; lia). rewrite A, LOFF, P3.
    rewrite N.mul_add_distr_r, N.add_assoc. reflexivity.
Qed.
