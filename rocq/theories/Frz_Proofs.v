From Verif Require Import Base Frz_Model Frz_Spec.
Local Open Scope N_scope.
#[local] Ltac Zify.zify_post_hook ::= idtac.

(** ** Maxima *)
Lemma fold_max_cond (f : param -> bool) (g : param -> N) : forall ps s, fold_left (fun s p => if f p then N.max s (g p) else s) ps s = N.max s (fold_right N.max 0 (map g (filter f ps))).
Proof.
  induction ps as [|p ps IH]; intros s; cbn [fold_left filter map fold_right]; [lia|]. rewrite IH. destruct (f p); cbn [map fold_right]; lia.
Qed.
Lemma max_zero (g : param -> N) ps : (forall p, In p ps -> 0 < g p) -> fold_right N.max 0 (map g ps) = 0 <-> ps = [].
Proof. destruct ps as [|p ps]; intros H; [now split|]. split; [|discriminate]. cbn [map fold_right]. specialize (H p (or_introl eq_refl)). lia. Qed.
Lemma max_const (g : param -> N) c ps : (forall p, In p ps -> g p = c) -> ps <> [] -> fold_right N.max 0 (map g ps) = c.
Proof.
  intros H Ne. induction ps as [|p ps IH]; [congruence|]. cbn [map fold_right]. rewrite (H p) by now left. destruct ps as [|q ps]; [cbn; lia|]. rewrite IH; [lia| |discriminate]. intros; apply H; now right.
Qed.
Lemma max_lt (g : param -> N) b ps : 0 < b -> (forall p, In p ps -> g p < b) -> fold_right N.max 0 (map g ps) < b.
Proof. intros B. induction ps as [|p ps IH]; intros H; cbn [map fold_right]; [assumption|]. specialize (IH (fun q Hq => H q (or_intror Hq))). specialize (H p (or_introl eq_refl)). lia. Qed.
Lemma max_in (g : param -> N) ps : fold_right N.max 0 (map g ps) <> 0 -> exists p, In p ps /\ g p = fold_right N.max 0 (map g ps).
Proof.
  induction ps as [|p ps IH]; cbn [map fold_right]; [congruence|]. intros H. destruct (N.max_spec (g p) (fold_right N.max 0 (map g ps))) as [[H1 ->]|[H1 ->]].
  - destruct IH as (q & Hq & E); [lia|]. exists q. split; [now right|assumption].
  - exists p. split; [now left|reflexivity].
Qed.

(** ** Inference *)
Definition sizes_ok (e : env) (a : access) : Prop := p_out (a_param a) = false -> exists s, slot_size e (a_param a) = Some s.
Lemma slot_vsize e p s : slot_size e p = Some s -> s = u32 (vsize e p) /\ vsize e p <> 0.
Proof.
  unfold slot_size, vsize. destruct (p_tsize p =? 0); [discriminate|]. destruct (N.eqb_spec (e (p_slot p) / p_tsize p) 0); [discriminate|]. destruct (negb _); [discriminate|]. intros E. injection E as <-. now split.
Qed.
Definition counted (a : access) : bool := negb (p_out (a_param a)) && p_ptr (a_param a) && a_psize a.
Definition dir (a : access) : bool := negb (p_out (a_param a)) && negb (p_ptr (a_param a)).
Definition amax (e : env) (f : access -> bool) (deps : list access) : N := fold_right N.max 0 (map (fun a => u32 (vsize e (a_param a))) (filter f deps)).
Lemma infer_ok e : forall deps i p r, infer e deps i p = Some r -> r = (N.max i (amax e dir deps), N.max p (amax e counted deps)).
Proof.
  unfold amax. induction deps as [|a deps IH]; intros i p r E; cbn [infer filter map fold_right] in *; [injection E as <-; f_equal; lia|].
  unfold dir at 1, counted at 1. destruct (p_out (a_param a)); cbn [negb andb]; [now apply IH|].
  destruct (slot_size e (a_param a)) as [s|] eqn:Es; [|discriminate]. cbn [bind] in E. apply slot_vsize in Es as [-> _].
  destruct (p_ptr (a_param a)); cbn [negb andb] in *; [destruct (a_psize a)|]; apply IH in E; subst r; cbn [map fold_right]; f_equal; lia.
Qed.
Lemma infer_some e : forall deps i p, Forall (sizes_ok e) deps -> exists r, infer e deps i p = Some r.
Proof.
  induction deps as [|a deps IH]; intros i p F; cbn [infer]; [eauto|]. inversion F as [|? ? Fa Fr]; subst. destruct (p_out (a_param a)) eqn:Eo; [now apply IH|].
  destruct (Fa Eo) as [s ->]. cbn [bind]. destruct (negb _); [now apply IH|]. destruct (a_psize a); now apply IH.
Qed.

(** ** Recording *)
Lemma filter_map_comm {A B} (f : B -> bool) (g : A -> B) l : filter f (map g l) = map g (filter (fun x => f (g x)) l).
Proof. induction l as [|x l IH]; cbn [map filter]; [reflexivity|]. rewrite IH. destruct (f (g x)); reflexivity. Qed.
Lemma filter_none {A} (f : A -> bool) l : (forall k, In k l -> f k = false) -> filter f l = [].
Proof. induction l as [|x l IH]; intros H; [reflexivity|]. cbn [filter]. rewrite H by now left. apply IH. intros; apply H; now right. Qed.
Lemma max_ge (g : param -> N) ps p : In p ps -> g p <= fold_right N.max 0 (map g ps).
Proof. induction ps as [|q ps IH]; intros []; cbn [map fold_right]; [subst; lia|]. specialize (IH H). lia. Qed.
Section One.
Variables (e : env) (n : N) (ps : list param).
Hypothesis K : kernel_ok e n ps.
Let big := max_of e (filter (fun p => p_ptr p && ((vsize e p mod n =? 0) || (n mod vsize e p =? 0))) ps).
Lemma vsize_ok p : In p ps -> p_out p = false -> 0 < vsize e p < 2 ^ 32 /\ slot_size e p = Some (vsize e p).
Proof.
  intros I Ho. destruct K as (_ & F & _). rewrite Forall_forall in F. destruct (F p I Ho) as (v & Bv & Bt & E). unfold slot_size, vsize. rewrite E, N.div_mul by lia. split; [assumption|].
  destruct (N.eqb_spec (p_tsize p) 0); [lia|]. destruct (N.eqb_spec v 0); [lia|]. rewrite N.eqb_refl. cbn [negb]. f_equal. apply N.mod_small. lia.
Qed.
Lemma ptr_in p : In p ps -> p_ptr p = true -> p_out p = false.
Proof. destruct K as (_ & _ & F). rewrite Forall_forall in F. exact (F p). Qed.
Lemma input_size_eq : fold_left (fun s p => if negb (p_out p) && negb (p_ptr p) then N.max s (vsize e p) else s) ps 0 = max_of e (direct ps).
Proof using. clear K big. rewrite fold_max_cond. unfold max_of, direct. lia. Qed.
Lemma ptr_size_eq : fold_left (fun s p => if p_ptr p && related n (vsize e p) then N.max s (vsize e p) else s) ps 0 = big.
Proof using. clear K. rewrite (fold_max_cond (fun p => p_ptr p && related n (vsize e p)) (vsize e)). unfold big, max_of, related. lia. Qed.
Lemma direct_pos p : In p (direct ps) -> 0 < vsize e p < 2 ^ 32.
Proof. intros I. apply filter_In in I as [I H]. apply Bool.andb_true_iff in H as [H _]. apply Bool.negb_true_iff in H. now apply vsize_ok. Qed.
Lemma through_pos p : In p (through e n ps) -> 0 < vsize e p < 2 ^ 32 /\ vsize e p = big.
Proof. intros I. apply filter_In in I as [I H]. apply Bool.andb_true_iff in H as [H H2]. apply N.eqb_eq in H2. split; [|exact H2]. apply vsize_ok; [assumption|]. now apply ptr_in. Qed.
Lemma record_deps : op_deps (record e n ps) = map (fun p => {| a_param := p; a_psize := (max_of e (direct ps) =? 0) && p_ptr p && (big =? vsize e p) |}) ps.
Proof using. clear K. unfold record. rewrite input_size_eq, ptr_size_eq. reflexivity. Qed.
Lemma direct_zero : max_of e (direct ps) = 0 <-> direct ps = [].
Proof. apply max_zero. intros p I. apply (direct_pos p I). Qed.
(** What replaying infers, in any environment *)
Lemma replay_infer e' r : infer e' (op_deps (record e n ps)) 0 0 = Some r ->
  r = (fold_right N.max 0 (map (fun p => u32 (vsize e' p)) (direct ps)),
       match direct ps with [] => fold_right N.max 0 (map (fun p => u32 (vsize e' p)) (through e n ps)) | _ => 0 end).
Proof.
  intros E. apply infer_ok in E. subst r. unfold amax. rewrite record_deps, !filter_map_comm, !map_map. cbn [a_param]. rewrite !N.max_0_l. f_equal.
  unfold counted. cbn [a_param a_psize]. destruct (direct ps) as [|p0 d] eqn:Ed.
  - f_equal. f_equal. apply filter_ext_in. intros p I. change (max_of e []) with 0. rewrite N.eqb_refl. cbn [andb]. fold big. rewrite (N.eqb_sym big). destruct (p_ptr p) eqn:Ep; cbn [andb]; [|now rewrite Bool.andb_false_r].
    rewrite (ptr_in p I Ep). reflexivity.
  - rewrite filter_none; [reflexivity|]. intros p I. assert (Z : max_of e (p0 :: d) =? 0 = false) by (rewrite <- Ed; apply N.eqb_neq; intros H; apply direct_zero in H; congruence). rewrite Z. cbn [andb]. now rewrite Bool.andb_false_r.
Qed.
Lemma same_infer : infer e (op_deps (record e n ps)) 0 0 = Some (max_of e (direct ps), match direct ps with [] => big | _ => 0 end) .
Proof.
  destruct (infer_some e (op_deps (record e n ps)) 0 0) as [r E].
  { rewrite record_deps. apply Forall_forall. intros a I. apply in_map_iff in I as (p & <- & I). intros Ho. cbn [a_param] in *. destruct (vsize_ok p I Ho) as [_ ->]. eauto. }
  rewrite E. apply replay_infer in E. subst r. f_equal. f_equal.
  - unfold max_of. f_equal. apply map_ext_in. intros p I. apply N.mod_small. apply (direct_pos p I).
  - destruct (direct ps) as [|p0 d]; [|reflexivity]. destruct (N.eq_dec big 0) as [Z|Nz].
    + destruct (through e n ps) as [|p t] eqn:Et; [now rewrite Z|]. exfalso. assert (I : In p (through e n ps)) by (rewrite Et; now left). apply through_pos in I. lia.
    + apply max_const.
      * intros p I. apply through_pos in I as [B Eb]. rewrite Eb in *. apply N.mod_small. lia.
      * destruct (max_in (vsize e) _ Nz) as (p & I & Ep). fold (max_of e (filter (fun p => p_ptr p && ((vsize e p mod n =? 0) || (n mod vsize e p =? 0))) ps)) in Ep. fold big in Ep.
        apply filter_In in I as [I H]. apply Bool.andb_true_iff in H as [H _]. intros Em. assert (J : In p (through e n ps)) by (apply filter_In; fold big; rewrite H, Ep, N.eqb_refl; now split). rewrite Em in J. destruct J.
Qed.
Definition reference : N := if max_of e (direct ps) =? 0 then big else max_of e (direct ps).
Lemma op_input_eq : op_input (record e n ps) = if (0 <? reference) && ((reference <? n) && negb (n mod reference =? 0) || (n <? reference) && negb (reference mod n =? 0)) then 0 else reference.
Proof using. clear K. unfold record. cbn [op_input]. rewrite input_size_eq, ptr_size_eq. reflexivity. Qed.
Lemma reference_lt : reference < 2 ^ 32.
Proof.
  unfold reference. destruct (_ =? 0).
  - apply max_lt; [reflexivity|]. intros p I. apply filter_In in I as [I H]. apply Bool.andb_true_iff in H as [H _]. apply vsize_ok; [assumption|]. now apply ptr_in.
  - apply max_lt; [reflexivity|]. intros p I. now apply direct_pos.
Qed.
(** The inferred size, given the replayed driving size *)
Lemma launch_ok i p d : d = (if negb (i =? 0) then i else p) -> 
  let s := launch_size (record e n ps) i p in
  (op_input (record e n ps) = 0 -> s = n) /\
  (op_input (record e n ps) <> 0 -> op_input (record e n ps) = reference /\
    ((reference < n /\ n mod reference = 0 /\ s = if u32 (d * (n / reference)) =? 0 then n else u32 (d * (n / reference))) \/
     (n <= reference /\ reference mod n = 0 /\ s = if d / (reference / n) =? 0 then n else d / (reference / n)))).
Proof.
  intros Hd s. unfold s, launch_size. set (o := op_input (record e n ps)). change (op_size (record e n ps)) with n. rewrite <- Hd. destruct K as ((Bn1 & Bn2) & _ & _).
  assert (Un : u32 n = n) by (apply N.mod_small; exact Bn2). rewrite Un. pose proof op_input_eq as Eo. fold o in Eo. pose proof reference_lt as Br.
  split; intros Ho.
  - rewrite Ho. reflexivity.
  - destruct (_ && _) eqn:C in Eo; [congruence|]. split; [exact Eo|]. rewrite Eo in *. clear Eo Hd. set (f := reference) in *. clearbody f.
    assert (Pf : 0 <? f = true) by (apply N.ltb_lt; lia). rewrite Pf in *. cbn [andb] in C. apply Bool.orb_false_iff in C as [C1 C2].
    destruct (N.ltb_spec f n) as [L|L]; cbn [andb] in *.
    + left. apply Bool.negb_false_iff in C1. split; [assumption|]. split; [now apply N.eqb_eq|]. rewrite C1.
      assert (U : u32 (n / f) = n / f) by (apply N.mod_small; apply N.le_lt_trans with n; [apply N.div_le_upper_bound; [lia|]; clear -Ho; nia|exact Bn2]). rewrite U. reflexivity.
    + right. assert (D : f mod n = 0). { destruct (N.eq_dec f n) as [->|Ne]; [apply N.mod_same; lia|]. rewrite (proj2 (N.ltb_lt n f)) in C2 by lia. cbn [andb] in C2. apply Bool.negb_false_iff in C2. now apply N.eqb_eq. }
      split; [assumption|]. split; [assumption|]. rewrite D. cbn [N.eqb].
      assert (U : u32 (f / n) = f / n) by (apply N.mod_small; apply N.le_lt_trans with f; [apply N.div_le_upper_bound; [lia|]; clear -Bn1; nia|exact Br]). rewrite U. reflexivity.
Qed.
Theorem same_launch : replay1 e (record e n ps) = Some (outputs e n ps, n).
Proof.
  unfold replay1. rewrite same_infer. cbn [bind fst snd].
  assert (L : launch_size (record e n ps) (max_of e (direct ps)) match direct ps with [] => big | _ => 0 end = n).
  { set (p := match direct ps with [] => big | _ => 0 end).
    assert (Hd : reference = (if negb (max_of e (direct ps) =? 0) then max_of e (direct ps) else p)).
    { unfold reference, p. destruct (N.eqb_spec (max_of e (direct ps)) 0) as [Z|Nz]; cbn [negb]; [|reflexivity]. apply direct_zero in Z. now rewrite Z. }
    destruct (launch_ok _ p reference Hd) as [L0 L1]. destruct (N.eq_dec (op_input (record e n ps)) 0) as [Z|Nz]; [now apply L0|].
    destruct K as ((Bn1 & Bn2) & _ & _).
    destruct (L1 Nz) as (Er & [(L & D & ->)|(L & D & ->)]).
    - assert (Q : reference * (n / reference) = n) by (rewrite (N.div_mod n reference) at 2 by lia; lia). rewrite Q. assert (Un : u32 n = n) by (apply N.mod_small; exact Bn2). rewrite Un. destruct (N.eqb_spec n 0); lia.
    - assert (Q : reference = n * (reference / n)) by (rewrite (N.div_mod reference n) at 1 by lia; lia).
      assert (G : reference / (reference / n) = n). { set (q := reference / n) in *. rewrite Q. apply N.div_mul. intros ->. rewrite N.mul_0_r in Q. rewrite <- Er in Q. congruence. }
      rewrite G. destruct (N.eqb_spec n 0); lia. }
  rewrite L. rewrite record_deps, map_map. cbn [a_param]. now rewrite map_id.
Qed.
End One.

Theorem same_all : forall ks e, function_ok e ks -> replay_all e (fst (record_all e ks)) = Some (map fst ks, snd (record_all e ks)).
Proof.
  induction ks as [|[n ps] ks IH]; intros e H; cbn [record_all function_ok map] in *; [reflexivity|]. destruct H as [Hk Hr]. specialize (IH _ Hr).
  destruct (record_all (outputs e n ps) ks) as [os e'] eqn:E. cbn [fst snd] in *. cbn [replay_all]. rewrite (same_launch e n ps Hk). cbn [bind fst snd]. rewrite IH. reflexivity.
Qed.

(** ** Other sizes *)
Theorem other_sizes e n ps e' e'' s : kernel_ok e n ps -> replay1 e' (record e n ps) = Some (e'', s) ->
  (forall p, In p (driving e n ps) -> vsize e' p < 2 ^ 32) ->
  let d := max_of e (driving e n ps) in let d' := max_of e' (driving e n ps) in
  e'' = outputs e' s ps /\
  ((d = 0 \/ (n mod d <> 0 /\ d mod n <> 0)) -> s = n) /\
  (d <> 0 -> d < n -> n mod d = 0 -> d' * (n / d) < 2 ^ 32 -> s = d' * (n / d)) /\
  (d <> 0 -> n <= d -> d mod n = 0 -> d / n <= d' -> s = d' / (d / n)).
Proof.
  intros Hk R Bd d d'. unfold replay1 in R. destruct (infer e' (op_deps (record e n ps)) 0 0) as [r|] eqn:Ei; [|discriminate]. cbn [bind] in R.
  assert (R2 : launch_size (record e n ps) (fst r) (snd r) = s) by congruence.
  assert (R1 : outputs e' (launch_size (record e n ps) (fst r) (snd r)) (map a_param (op_deps (record e n ps))) = e'') by congruence. clear R.
  assert (Ed : map a_param (op_deps (record e n ps)) = ps) by (rewrite record_deps, map_map; apply map_id). rewrite Ed, R2 in R1.
  assert (Df : d = reference e n ps).
  { unfold d, reference, driving. pose proof (direct_zero e n ps Hk) as Z. destruct (direct ps) as [|p0 t] eqn:Et; [|destruct (N.eqb_spec (max_of e (p0 :: t)) 0) as [E0|]; [apply Z in E0; discriminate|reflexivity]].
    change (max_of e []) with 0. rewrite N.eqb_refl. set (big := max_of e (filter _ ps)). destruct (N.eq_dec big 0) as [Zb|Nz].
    - rewrite Zb. destruct (through e n ps) as [|p q] eqn:Eq; [reflexivity|]. exfalso. assert (I : In p (through e n ps)) by (rewrite Eq; now left). apply (through_pos e n ps Hk) in I. fold big in I. lia.
    - apply max_const.
      + intros p I. apply (through_pos e n ps Hk) in I. apply I.
      + destruct (max_in (vsize e) _ Nz) as (p & I & Ep). apply filter_In in I as [I H]. apply Bool.andb_true_iff in H as [H _]. intros Em.
        assert (J : In p (through e n ps)) by (apply filter_In; split; [assumption|]; rewrite H, Ep; cbn [andb]; apply N.eqb_refl). rewrite Em in J. destruct J. }
  assert (Dd : d' = (if negb (fst r =? 0) then fst r else snd r) \/ d = 0).
  { pose proof (replay_infer e n ps Hk e' r Ei) as Er. 
    assert (Sz : forall p, In p ps -> p_out p = false -> vsize e' p <> 0).
    { intros p I Ho. clear -I Ho Ei Ed. rewrite <- Ed in I. apply in_map_iff in I as (a & <- & I). revert I Ei. generalize (op_deps (record e n ps)) as deps. generalize 0 at 2. generalize 0 at 1. intros x y deps. revert x y.
      induction deps as [|b deps IH]; intros x y I E; [destruct I|]. cbn [infer] in E. destruct I as [->|I].
      - rewrite Ho in E. destruct (slot_size e' (a_param a)) as [s|] eqn:Es; [|discriminate]. now apply slot_vsize in Es.
      - destruct (p_out (a_param b)); [now apply (IH _ _ I) in E|]. destruct (slot_size e' (a_param b)) as [s|]; [|discriminate]. cbn [bind] in E.
        destruct (negb _); [now apply (IH _ _ I) in E|]. destruct (a_psize b); now apply (IH _ _ I) in E. }
    assert (Eq : forall l, (forall p, In p l -> vsize e' p < 2 ^ 32) -> fold_right N.max 0 (map (fun p => u32 (vsize e' p)) l) = max_of e' l).
    { clear. intros l H. unfold max_of. f_equal. apply map_ext_in. intros p I. apply N.mod_small. now apply H. }
    subst r. cbn [fst snd]. unfold d', driving in *. destruct (direct ps) as [|p0 t] eqn:Et.
    - left. cbn [map fold_right]. rewrite N.eqb_refl. cbn [negb]. symmetry. apply Eq, Bd.
    - left. rewrite (Eq (p0 :: t)) by exact Bd. assert (Nz : max_of e' (p0 :: t) <> 0).
      { assert (I : In p0 (direct ps)) by (rewrite Et; now left). apply filter_In in I as [I H]. apply Bool.andb_true_iff in H as [H _]. apply Bool.negb_true_iff in H. specialize (Sz p0 I H). unfold max_of. cbn [map fold_right]. lia. }
      apply N.eqb_neq in Nz. rewrite Nz. reflexivity. }
  assert (Hn : 0 < n < 2 ^ 32) by apply Hk. split; [congruence|].
  destruct (launch_ok e n ps Hk (fst r) (snd r) _ eq_refl) as [L0 L1]. rewrite R2 in L0, L1. rewrite <- Df in *.
  pose proof (op_input_eq e n ps) as Eo. rewrite <- Df in Eo. repeat split.
  - intros H. apply L0. rewrite Eo. destruct H as [H|[H1 H2]]; [rewrite H; reflexivity|]. destruct (N.eq_dec d 0) as [Zd|Nd]; [rewrite Zd; reflexivity|]. rewrite (proj2 (N.ltb_lt 0 d)) by lia. apply N.eqb_neq in H1, H2. rewrite H1, H2. cbn [negb andb].
    rewrite !Bool.andb_true_r. destruct (N.ltb_spec d n); cbn [orb]; [reflexivity|]. destruct (N.ltb_spec n d); [reflexivity|]. exfalso. assert (Edn : d = n) by lia. rewrite Edn, N.mod_same in H1 by lia. discriminate.
  - intros Nd L D B. destruct Dd as [Dd|Dd]; [|congruence]. rewrite <- Dd in L1. assert (Zo : op_input (record e n ps) <> 0).
    { rewrite Eo, (proj2 (N.ltb_lt 0 d)), D, N.eqb_refl by lia. cbn [negb andb]. rewrite Bool.andb_false_r, (proj2 (N.ltb_ge n d)) by lia. cbn [andb orb]. exact Nd. }
    destruct (L1 Zo) as (_ & [(_ & _ & ->)|(L' & _)]); [|lia]. assert (Un : u32 (d' * (n / d)) = d' * (n / d)) by (apply N.mod_small; exact B). rewrite Un. destruct (N.eqb_spec (d' * (n / d)) 0) as [Z|]; [|reflexivity].
    exfalso. assert (Q : n = d * (n / d)) by (rewrite (N.div_mod n d) at 1 by lia; lia). apply N.mul_eq_0 in Z as [Z|Z]; [|rewrite Z in Q; lia].
    (* the driving size is not zero *)
    rewrite Z in Dd. revert Zo Dd Ei. clear -Hk Nd Df R2 Z.
    intros _ _ Ei. destruct (max_in (vsize e) (driving e n ps) Nd) as (p & I & _). assert (Vz : vsize e' p = 0) by (pose proof (max_ge (vsize e') _ _ I) as G; unfold d', max_of in Z; lia).
    assert (J : In p ps /\ p_out p = false).
    { unfold driving in I. destruct (direct ps) as [|p0 t] eqn:Et; [|rewrite <- Et in I; apply filter_In in I as [I H]; apply Bool.andb_true_iff in H as [H _]; apply Bool.negb_true_iff in H; now split].
      apply filter_In in I as [I H]. apply Bool.andb_true_iff in H as [H _]. split; [assumption|]. now apply (ptr_in e n ps Hk). }
    destruct J as [J Ho]. assert (Ed : map a_param (op_deps (record e n ps)) = ps) by (rewrite record_deps, map_map; apply map_id). rewrite <- Ed in J. apply in_map_iff in J as (a & <- & J).
    revert J Ei. generalize (op_deps (record e n ps)) as deps. generalize 0 at 2. generalize 0 at 1. intros x y deps. revert x y.
    induction deps as [|b deps IH]; intros x y J E; [destruct J|]. cbn [infer] in E. destruct J as [->|J].
    + rewrite Ho in E. destruct (slot_size e' (a_param a)) as [q|] eqn:Es; [|discriminate]. apply slot_vsize in Es. tauto.
    + destruct (p_out (a_param b)); [now apply (IH _ _ J) in E|]. destruct (slot_size e' (a_param b)) as [q|]; [|discriminate]. cbn [bind] in E.
      destruct (negb _); [now apply (IH _ _ J) in E|]. destruct (a_psize b); now apply (IH _ _ J) in E.
  - intros Nd L D B. destruct Dd as [Dd|Dd]; [|congruence]. rewrite <- Dd in L1. assert (Zo : op_input (record e n ps) <> 0).
    { rewrite Eo, (proj2 (N.ltb_lt 0 d)), D, N.eqb_refl by lia. cbn [negb andb]. rewrite Bool.andb_false_r, (proj2 (N.ltb_ge d n)) by lia. cbn [andb orb]. exact Nd. }
    destruct (L1 Zo) as (_ & [(L' & _)|(_ & _ & ->)]); [lia|]. destruct (N.eqb_spec (d' / (d / n)) 0) as [Z|]; [|reflexivity]. exfalso.
    assert (Q : d / n <> 0) by (intros Q; apply N.div_small_iff in Q; lia). apply N.div_small_iff in Z; [lia|assumption].
Qed.
