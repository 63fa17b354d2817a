From Verif Require Import Base FreeSlots_Model FreeSlots_Spec.
Local Open Scope N_scope.

(** ** Bit-level facts *)

Lemma N_case_div2 (n : N) (P : N -> Prop) :
  P 0 -> (forall m, P (N.succ m)) -> P n.
Proof. intros H0 HS. destruct n as [|p]; auto. rewrite <- (N.succ_pos_pred p). apply HS. Qed.

Lemma clear_lowest_bit (p : positive) n :
  N.testbit (N.land (Npos p) (Npos p - 1)) n =
  N.testbit (Npos p) n && negb (n =? tz_pos p).
Proof.
  rewrite N.land_spec.
  revert n; induction p as [q IH|q IH|]; intros n; cbn [tz_pos].
  - replace (N.pos q~1 - 1) with (2 * N.pos q) by lia.
    apply (N_case_div2 n).
    + rewrite N.testbit_even_0. now destruct (N.testbit _ 0).
    + intros m. change (N.pos q~1) with (2 * N.pos q + 1).
      rewrite N.testbit_even_succ, N.testbit_odd_succ by lia.
      replace (N.succ m =? 0) with false by (symmetry; apply N.eqb_neq; lia).
      destruct (N.testbit (N.pos q) m); reflexivity.
  - replace (N.pos q~0 - 1) with (2 * (N.pos q - 1) + 1) by lia.
    change (N.pos q~0) with (2 * N.pos q).
    apply (N_case_div2 n).
    + rewrite N.testbit_even_0, N.testbit_odd_0. reflexivity.
    + intros m. rewrite N.testbit_even_succ, N.testbit_odd_succ by lia.
      rewrite IH. f_equal. f_equal.
      destruct (N.eqb_spec m (tz_pos q)), (N.eqb_spec (N.succ m) (1 + tz_pos q)); auto; lia.
  - change (1 - 1) with 0. rewrite N.bits_0, andb_false_r.
    apply (N_case_div2 n); [reflexivity|].
    intros m. change 1 with (2 * 0 + 1). rewrite N.testbit_odd_succ by lia.
    now rewrite N.bits_0.
Qed.

Lemma tz_pos_set (p : positive) : N.testbit (Npos p) (tz_pos p) = true.
Proof.
  induction p as [q IH|q IH|]; cbn [tz_pos].
  - change (N.pos q~1) with (2 * N.pos q + 1). apply N.testbit_odd_0.
  - change (N.pos q~0) with (2 * N.pos q).
    replace (1 + tz_pos q) with (N.succ (tz_pos q)) by lia.
    now rewrite N.testbit_even_succ by lia.
  - reflexivity.
Qed.

Lemma tz_pos_low (p : positive) n : n < tz_pos p -> N.testbit (Npos p) n = false.
Proof.
  revert n; induction p as [q IH|q IH|]; cbn [tz_pos]; intros n Hn; try lia.
  change (N.pos q~0) with (2 * N.pos q). revert Hn.
  apply (N_case_div2 n).
  - intros _. apply N.testbit_even_0.
  - intros m Hm. rewrite N.testbit_even_succ by lia. apply IH. lia.
Qed.

Lemma testbit_lt_pow2 a k n : a < 2 ^ k -> N.testbit a n = true -> n < k.
Proof.
  intros Ha Hb. destruct (N.lt_ge_cases n k) as [|Hge]; auto.
  destruct (N.eq_dec a 0) as [->|Hnz]; [now rewrite N.bits_0 in Hb|].
  rewrite N.bits_above_log2 in Hb; [discriminate|].
  assert (N.log2 a < k) by (apply N.log2_lt_pow2; lia). lia.
Qed.

Lemma lor_lt_pow2 a b k : a < 2 ^ k -> b < 2 ^ k -> N.lor a b < 2 ^ k.
Proof.
  intros Ha Hb.
  destruct (N.eq_dec a 0) as [->|Hna]; [now rewrite N.lor_0_l|].
  destruct (N.eq_dec b 0) as [->|Hnb]; [now rewrite N.lor_0_r|].
  assert (N.lor a b <> 0) by (intros E; apply N.lor_eq_0_iff in E; tauto).
  apply N.log2_lt_pow2; [lia|].
  rewrite N.log2_lor. apply N.max_lub_lt; apply N.log2_lt_pow2; lia.
Qed.

Lemma land_le_l a b : N.land a b <= a.
Proof.
  destruct (N.eq_dec (N.land a b) 0) as [->|Hnz]; [lia|].
  apply N.ldiff_le. apply N.bits_inj. intros n.
  rewrite N.ldiff_spec, N.land_spec, N.bits_0.
  destruct (N.testbit a n), (N.testbit b n); reflexivity.
Qed.

(** ** Sorted lists *)

Lemma sp_insert_In i l j : In j (sp_insert i l) <-> j = i \/ In j l.
Proof.
  induction l as [|x r IH]; cbn [sp_insert]; [simpl; intuition|].
  destruct (N.ltb_spec i x); [simpl; intuition|].
  destruct (N.eqb_spec i x) as [->|]; [simpl; intuition|].
  simpl; rewrite IH; intuition.
Qed.

Lemma sp_insert_sorted i l :
  StronglySorted N.lt l -> StronglySorted N.lt (sp_insert i l).
Proof.
  induction 1 as [|x r Hs IH Hx]; cbn [sp_insert]; [repeat constructor|].
  destruct (N.ltb_spec i x).
  - constructor; [constructor; auto|]. constructor; auto.
    eapply Forall_impl; [|exact Hx]. intros; simpl in *; lia.
  - destruct (N.eqb_spec i x) as [->|]; [constructor; auto|].
    constructor; auto. rewrite Forall_forall in *. intros j Hj.
    apply sp_insert_In in Hj as [->|Hj]; [lia|]. now apply Hx.
Qed.

Lemma sp_insert_length i l : ~ In i l -> length (sp_insert i l) = S (length l).
Proof.
  induction l as [|x r IH]; cbn [sp_insert]; [reflexivity|].
  intros Hn. destruct (N.ltb_spec i x); [reflexivity|].
  destruct (N.eqb_spec i x) as [->|]; [exfalso; apply Hn; now left|].
  simpl; rewrite IH; auto. intros Hi; apply Hn; now right.
Qed.

Lemma sorted_length_bound l a B :
  StronglySorted N.lt l -> Forall (fun x => a <= x < B) l ->
  a <= B -> N.of_nat (length l) <= B - a.
Proof.
  intros Hs; revert a; induction Hs as [|x r Hs IH Hx]; intros a Hf Hab; simpl; [lia|].
  inversion Hf as [|? ? Hx1 Hf1]; subst.
  assert (N.of_nat (length r) <= B - (x + 1)); [|lia].
  apply IH; [|lia]. rewrite Forall_forall in *. intros y Hy.
  specialize (Hx y Hy); specialize (Hf1 y Hy). lia.
Qed.

(** ** The representation relation *)

Definition word (s : fslots) (w : N) : N := nth (N.to_nat w) (words s) 0.

Record fs_rel (s : fslots) (l : list N) : Prop := {
  r_sorted : StronglySorted N.lt l;
  r_range  : Forall (fun i => i < 2 ^ 32) l;
  r_bits   : forall i, In i l <-> N.testbit (word s (i / 64)) (i mod 64) = true;
  r_words  : Forall (fun w => w < 2 ^ 64) (words s);
  r_cursor : forall w, w < cursor s -> word s w = 0;
  r_count  : count s = N.of_nat (length l) }.

Lemma fs_rel_init : fs_rel fs_init [].
Proof.
  split; cbn [words cursor count fs_init].
  - constructor.
  - constructor.
  - intros i. unfold word; cbn [words fs_init]. split; [intros []|].
    destruct (N.to_nat (i / 64)); cbn [nth]; rewrite N.bits_0; discriminate.
  - constructor.
  - intros w Hw. lia.
  - reflexivity.
Qed.

Lemma nth_resize0 n l w : nth w (resize0 n l) 0 = nth w l 0.
Proof.
  unfold resize0. destruct (Nat.lt_ge_cases w (length l)).
  - now rewrite app_nth1.
  - rewrite app_nth2, nth_repeat by lia. now rewrite nth_overflow.
Qed.

Lemma rel_len s l : fs_rel s l -> N.of_nat (length l) <= 2 ^ 32.
Proof.
  intros H. assert (N.of_nat (length l) <= 2 ^ 32 - 0); [|lia].
  apply (sorted_length_bound l 0 (2^32)); [apply H| |lia].
  eapply Forall_impl; [|apply (r_range _ _ H)]. intros; simpl in *; lia.
Qed.

Lemma word_lt s l w : fs_rel s l -> word s w < 2 ^ 64.
Proof.
  intros H. unfold word.
  destruct (Nat.lt_ge_cases (N.to_nat w) (length (words s))) as [Hw|Hw].
  - pose proof (r_words _ _ H) as Hf. rewrite Forall_forall in Hf.
    apply Hf. now apply nth_In.
  - rewrite nth_overflow by lia. lia.
Qed.

Lemma divmod64_eq a b : a / 64 = b / 64 -> a mod 64 = b mod 64 -> a = b.
Proof. intros. lia. Qed.

Lemma fs_push_rel s l i :
  fs_rel s l -> i < 2 ^ 32 -> ~ In i l ->
  exists s', fs_push i s = Some s' /\ fs_rel s' (sp_insert i l).
Proof.
  intros HR Hi Hni. unfold fs_push.
  set (w := i / 64).
  assert (Hw32 : u32 (w + 1) = w + 1) by (apply u32_small; unfold w; lia).
  rewrite Hw32.
  match goal with |- context [if ?b then ?x else ?y] => set (ws := if b then x else y) end.
  assert (Hlen : (N.to_nat w < length ws)%nat).
  { unfold ws. destruct (N.leb_spec (N.of_nat (length (words s))) w).
    - unfold resize0. rewrite app_length, repeat_length. lia.
    - lia. }
  assert (Hnth : forall k, nth k ws 0 = nth k (words s) 0).
  { intros k. unfold ws. destruct (N.leb _ _); auto using nth_resize0. }
  assert (Hfw : Forall (fun x => x < 2 ^ 64) ws).
  { unfold ws. destruct (N.leb _ _); [|apply HR].
    unfold resize0. apply Forall_app; split; [apply HR|].
    apply Forall_forall. intros x Hx. apply repeat_spec in Hx. subst. lia. }
  rewrite (nth_error_nth' ws 0 Hlen). cbn [bind].
  unfold upd. destruct (Nat.ltb_spec (N.to_nat w) (length ws)); [|lia].
  cbn [bind]. eexists; split; [reflexivity|].
  assert (Hbit : u64 (N.shiftl 1 (i mod 64)) = 2 ^ (i mod 64)).
  { rewrite N.shiftl_1_l. apply u64_small. apply N.pow_lt_mono_r; lia. }
  rewrite Hbit, Hnth. fold (word s w).
  pose proof (rel_len s l HR) as Hll.
  split; cbn [words cursor count].
  - apply sp_insert_sorted, HR.
  - apply Forall_forall. intros j Hj. apply sp_insert_In in Hj as [->|Hj]; auto.
    pose proof (r_range _ _ HR) as Hf. rewrite Forall_forall in Hf. auto.
  - intros j. rewrite sp_insert_In. unfold word at 1; cbn [words].
    destruct (N.eq_dec (j / 64) w) as [E|E].
    + rewrite E, nth_set_nth_eq by auto.
      rewrite N.lor_spec, N.pow2_bits_eqb, orb_true_iff, N.eqb_eq.
      rewrite (r_bits _ _ HR j), E. unfold w in *.
      split; intros [Hj|Hj]; auto.
      * subst j; auto.
      * left. symmetry. now apply divmod64_eq.
    + rewrite nth_set_nth_neq by lia. rewrite Hnth.
      rewrite (r_bits _ _ HR j). unfold word.
      split; [intros [->|?]; [now elim E|auto]|auto].
  - apply Forall_forall. intros x Hx. apply In_nth with (d := 0) in Hx as (k & Hk & <-).
    rewrite set_nth_length in Hk.
    destruct (Nat.eq_dec k (N.to_nat w)) as [->|Hne].
    + rewrite nth_set_nth_eq by auto. apply lor_lt_pow2.
      * apply (word_lt s l); auto.
      * apply N.pow_lt_mono_r; lia.
    + rewrite nth_set_nth_neq by auto.
      rewrite Forall_forall in Hfw. apply Hfw. now apply nth_In.
  - intros v Hv. unfold word; cbn [words]. rewrite nth_set_nth_neq by lia.
    rewrite Hnth. apply (r_cursor _ _ HR). lia.
  - rewrite (r_count _ _ HR), sp_insert_length by auto.
    rewrite u64_small; lia.
Qed.

Lemma fs_scan_spec l c c' :
  fs_scan l c = Some c' ->
  c <= c' /\ (N.to_nat (c' - c) < length l)%nat /\
  nth (N.to_nat (c' - c)) l 0 <> 0 /\
  forall k, (k < N.to_nat (c' - c))%nat -> nth k l 0 = 0.
Proof.
  revert c; induction l as [|b r IH]; intros c; cbn [fs_scan]; [discriminate|].
  destruct (N.eqb_spec b 0) as [->|Hb].
  - intros H. apply IH in H as (H1 & H2 & H3 & H4).
    replace (N.to_nat (c' - c)) with (S (N.to_nat (c' - (c + 1)))) by lia.
    simpl. repeat split; auto; try lia.
    intros [|k] Hk; auto. apply H4; lia.
  - intros [= <-]. replace (N.to_nat (c - c)) with 0%nat by lia. simpl.
    repeat split; auto; try lia.
Qed.

Lemma fs_scan_total l c k :
  nth k l 0 <> 0 -> exists c', fs_scan l c = Some c'.
Proof.
  revert c k; induction l as [|b r IH]; intros c k; cbn [fs_scan].
  - destruct k; simpl; congruence.
  - destruct (N.eqb_spec b 0) as [->|Hb]; [|eauto].
    destruct k as [|k]; simpl; [congruence|]. apply IH.
Qed.

Lemma nth_skipn {A} n k (l : list A) d : nth k (skipn n l) d = nth (n + k) l d.
Proof.
  revert l; induction n as [|n IH]; intros l; simpl; auto.
  destruct l as [|x r]; simpl; [now destruct k|]. apply IH.
Qed.

Lemma fs_pop_rel s x l :
  fs_rel s (x :: l) ->
  exists s', fs_pop s = Some (x, s') /\ fs_rel s' l.
Proof.
  intros HR. unfold fs_pop.
  assert (Hx : N.testbit (word s (x / 64)) (x mod 64) = true)
    by (apply (r_bits _ _ HR); now left).
  assert (Hxr : x < 2 ^ 32).
  { pose proof (r_range _ _ HR) as Hf. now inversion Hf. }
  assert (Hnz : word s (x / 64) <> 0).
  { intros E. rewrite E, N.bits_0 in Hx. discriminate. }
  assert (Hcx : cursor s <= x / 64).
  { destruct (N.le_gt_cases (cursor s) (x / 64)); auto.
    elim Hnz. now apply (r_cursor _ _ HR). }
  destruct (fs_scan_total (skipn (N.to_nat (cursor s)) (words s)) (cursor s)
              (N.to_nat (x / 64 - cursor s))) as (c & Hc).
  { rewrite nth_skipn.
    replace (N.to_nat (cursor s) + N.to_nat (x / 64 - cursor s))%nat
      with (N.to_nat (x / 64)) by lia. exact Hnz. }
  rewrite Hc. cbn [bind].
  apply fs_scan_spec in Hc as (H1 & H2 & H3 & H4).
  rewrite skipn_length in H2. rewrite nth_skipn in H3.
  replace (N.to_nat (cursor s) + N.to_nat (c - cursor s))%nat with (N.to_nat c) in H3 by lia.
  assert (Hzero : forall w, w < c -> word s w = 0).
  { intros w Hw. destruct (N.lt_ge_cases w (cursor s)).
    - now apply (r_cursor _ _ HR).
    - specialize (H4 (N.to_nat (w - cursor s))). rewrite nth_skipn in H4.
      replace (N.to_nat (cursor s) + N.to_nat (w - cursor s))%nat with (N.to_nat w) in H4 by lia.
      apply H4; lia. }
  assert (Hlen : (N.to_nat c < length (words s))%nat) by lia.
  rewrite (nth_error_nth' _ 0 Hlen). cbn [bind]. fold (word s c).
  unfold upd. destruct (Nat.ltb_spec (N.to_nat c) (length (words s))); [|lia].
  cbn [bind].
  change (nth (N.to_nat c) (words s) 0) with (word s c) in H3.
  pose proof (word_lt s _ c HR) as Hwlt.
  destruct (word s c) as [|p] eqn:Ep; [congruence|]. cbn [tzcnt_u64 bind].
  pose proof (tz_pos_set p) as Htz.
  assert (Htz64 : tz_pos p < 64) by (eapply testbit_lt_pow2; eauto).
  (* the popped index *)
  assert (Hin : In (c * 64 + tz_pos p) (x :: l)).
  { apply (r_bits _ _ HR).
    replace ((c * 64 + tz_pos p) / 64) with c by lia.
    replace ((c * 64 + tz_pos p) mod 64) with (tz_pos p) by lia.
    now rewrite Ep. }
  assert (Hmin : x = c * 64 + tz_pos p).
  { destruct Hin as [E|Hin]; [exact E|].
    pose proof (r_sorted _ _ HR) as Hs. inversion Hs as [|? ? Hs' Hlt]; subst.
    rewrite Forall_forall in Hlt. specialize (Hlt _ Hin).
    assert (x / 64 <= c) by lia.
    destruct (N.eq_dec (x / 64) c) as [E|E].
    - rewrite E, Ep in Hx.
      destruct (N.lt_ge_cases (x mod 64) (tz_pos p)) as [Hl|Hl]; [|lia].
      rewrite tz_pos_low in Hx by auto. discriminate.
    - elim Hnz. apply Hzero. lia. }
  assert (Hu : u32 (u32 (c * 64) + tz_pos p) = x).
  { rewrite (u32_small (c * 64)) by lia. rewrite u32_small; lia. }
  rewrite Hu. eexists; split; [reflexivity|].
  assert (Hsub : sub64 (N.pos p) 1 = N.pos p - 1).
  { unfold sub64, u64. replace (N.pos p + 2 ^ 64 - 1) with ((N.pos p - 1) + 1 * 2 ^ 64) by lia.
    rewrite N.mod_add by lia. apply N.mod_small. lia. }
  rewrite Hsub.
  pose proof (r_sorted _ _ HR) as Hs. inversion Hs as [|? ? Hs' Hlt]; subst l0 a.
  assert (Hnx : ~ In x l).
  { intros Hi. rewrite Forall_forall in Hlt. specialize (Hlt _ Hi). lia. }
  pose proof (rel_len s _ HR) as Hll. cbn [length] in Hll.
  split; cbn [words cursor count]; auto.
  - pose proof (r_range _ _ HR) as Hf. now inversion Hf.
  - intros j. unfold word; cbn [words].
    pose proof (r_bits _ _ HR j) as Hb. cbn [In] in Hb.
    destruct (N.eq_dec (j / 64) c) as [E|E].
    + rewrite E, nth_set_nth_eq by auto. rewrite clear_lowest_bit.
      rewrite E, Ep in Hb. rewrite andb_true_iff, negb_true_iff, N.eqb_neq.
      split.
      * intros Hj. split; [apply Hb; auto|]. intros E2. apply Hnx.
        replace x with j; auto. lia.
      * intros [Hj Hne]. apply Hb in Hj as [->|]; auto. lia.
    + rewrite nth_set_nth_neq by lia. fold (word s (j / 64)).
      rewrite <- Hb. split; auto. intros [->|]; auto. lia.
  - apply Forall_forall. intros y Hy. apply In_nth with (d := 0) in Hy as (k & Hk & <-).
    rewrite set_nth_length in Hk.
    destruct (Nat.eq_dec k (N.to_nat c)) as [->|Hne].
    + rewrite nth_set_nth_eq by auto.
      pose proof (land_le_l (N.pos p) (N.pos p - 1)). lia.
    + rewrite nth_set_nth_neq by auto.
      pose proof (r_words _ _ HR) as Hf. rewrite Forall_forall in Hf. apply Hf. now apply nth_In.
  - intros v Hv. unfold word; cbn [words]. rewrite nth_set_nth_neq by lia. now apply Hzero.
  - rewrite (r_count _ _ HR). cbn [length]. unfold sub64, u64.
    replace (N.of_nat (S (length l)) + 2 ^ 64 - 1) with (N.of_nat (length l) + 1 * 2 ^ 64) by lia.
    rewrite N.mod_add by lia. apply N.mod_small. lia.
Qed.

Definition op_of (o : sp_op) : fs_op :=
  match o with SpRelease i => FsPush i | SpAcquire => FsTryPop end.

Lemma fs_run_refines ops : forall s l outs,
  fs_rel s l -> sp_run l ops = Some outs -> fs_run s (map op_of ops) = Some outs.
Proof.
  induction ops as [|[i|] ops IH]; intros s l outs HR; cbn [sp_run map op_of fs_run fs_step]; auto.
  - destruct (N.ltb_spec i (2 ^ 32)) as [Hi|]; cbn [andb]; [|discriminate].
    destruct (existsb (N.eqb i) l) eqn:Ee; cbn [negb]; [discriminate|].
    assert (Hni : ~ In i l).
    { intros Hin. assert (existsb (N.eqb i) l = true); [|congruence].
      apply existsb_exists. exists i; split; auto. apply N.eqb_refl. }
    destruct (fs_push_rel s l i HR Hi Hni) as (s' & E & HR').
    rewrite E. cbn [bind snd fst].
    destruct (sp_run (sp_insert i l) ops) as [o|] eqn:Eo; [|discriminate].
    intros [= <-]. now rewrite (IH _ _ _ HR' Eo).
  - destruct l as [|x r].
    + unfold fs_empty. rewrite (r_count _ _ HR). cbn [length]. cbn [bind fst snd].
      change (N.of_nat 0 =? 0) with true. cbn [bind fst snd].
      destruct (sp_run [] ops) as [o|] eqn:Eo; [|discriminate].
      intros [= <-]. now rewrite (IH _ _ _ HR Eo).
    + unfold fs_empty. rewrite (r_count _ _ HR). cbn [length].
      replace (N.of_nat (S (length r)) =? 0) with false by (symmetry; apply N.eqb_neq; lia).
      destruct (fs_pop_rel s x r HR) as (s' & E & HR').
      rewrite E. cbn [bind fst snd].
      destruct (sp_run r ops) as [o|] eqn:Eo; [|discriminate].
      intros [= <-]. now rewrite (IH _ _ _ HR' Eo).
Qed.
