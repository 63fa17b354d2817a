(** Correctness of w_u32, w_u64, w_x64, w_q64. *)
From Coq Require Import String Ascii.
From Verif Require Import Base Bits FreeSlots_Model FreeSlots_Proofs Str_Model Str_Spec Str_Proofs.
Local Open Scope N_scope.

Lemma writes_ext f g l w : (forall cap m b, f cap m b = g cap m b) -> writes g l w -> writes f l w.
Proof. intros E H cap m b B. rewrite E. now apply H. Qed.

Ltac step_copy :=
  match goal with
  | |- context [bind (copy2 ?c ?m ?a ?t ?i) _] => destruct (copy2 c m a t i) as [?m|]; cbn [bind fst snd]; [|reflexivity]
  end.
Ltac norm b :=
  repeat match goal with
  | |- context [b + ?x - ?y] => let v := eval vm_compute in (x - y) in replace (b + x - y) with (b + v) by lia
  | |- context [b + ?x + ?y] => let v := eval vm_compute in (x + y) in replace (b + x + y) with (b + v) by lia
  end.
Ltac casc b :=
  unfold seqw, wlead, wpair, wc, w_strn; cbn [stl bind]; unfold len; cbn [length];
  change (N.of_nat 0) with 0; rewrite ?N.add_0_r; norm b;
  repeat (step_copy; rewrite ?N.add_0_r; norm b); try reflexivity.

Lemma lead_lt k j n F lim : fixp k j n F -> lim = 10 * 100 ^ N.of_nat j -> (N.shiftr F k <? 10) = (n <? lim).
Proof.
  intros H ->. rewrite (fixp_int _ _ _ _ H).
  assert (0 < 100 ^ N.of_nat j) by (apply N.neq_0_lt_0, N.pow_nonzero; lia).
  set (D := 100 ^ N.of_nat j) in *.
  destruct (N.ltb_spec n (10 * D)) as [L|L]; [apply N.ltb_lt, N.div_lt_upper_bound; lia|].
  apply N.ltb_ge, N.div_le_lower_bound; lia.
Qed.

(** The four scaled values. *)
Lemma fixp24 n : n < 10000 -> fixp 24 1 n (u32 (c24 * n)).
Proof.
  intros. unfold c24. rewrite u32_small by lia. exists (84 * n).
  change (2 ^ 24) with 16777216. change (100 ^ N.of_nat 1) with 100. lia.
Qed.
Lemma fixp32 n : n < 1000000 -> fixp 32 2 n (u64 (c32 * n)).
Proof.
  intros. unfold c32. rewrite u64_small by (change (2 ^ 64) with 18446744073709551616; lia). exists (2704 * n).
  change (2 ^ 32) with 4294967296. change (100 ^ N.of_nat 2) with 10000. lia.
Qed.
Lemma fixp57 n : n < 2 ^ 32 -> fixp 57 4 n (u64 (c57 * n)).
Proof.
  intros. unfold c57. change (2 ^ 32) with 4294967296 in *.
  rewrite u64_small by (change (2 ^ 64) with 18446744073709551616; lia). exists (24144128 * n).
  change (2 ^ 57) with 144115188075855872. change (100 ^ N.of_nat 4) with 100000000. lia.
Qed.
(** The two truncations of the 2^48 case: without and with a final increment. *)
Lemma fixp48 n : 1000000 <= n < 100000000 -> fixp 32 3 n (N.shiftr (u64 (c48 * n)) 16).
Proof.
  intros. unfold c48. rewrite u64_small by (change (2 ^ 64) with 18446744073709551616; lia).
  rewrite N.shiftr_div_pow2. change (2 ^ 16) with 65536.
  pose proof (N.div_mod (281474977 * n) 65536 ltac:(lia)). pose proof (N.mod_lt (281474977 * n) 65536 ltac:(lia)).
  set (F := 281474977 * n / 65536) in *. set (r := (281474977 * n) mod 65536) in *.
  exists (1000000 * F - n * 4294967296). change (2 ^ 32) with 4294967296. change (100 ^ N.of_nat 3) with 1000000.
  lia.
Qed.
Lemma fixp48' z : z < 100000000 -> fixp 32 3 z (u64 (N.shiftr (u64 (c48 * z)) 16 + 1)).
Proof.
  intros. unfold c48. rewrite (u64_small (281474977 * z)) by (change (2 ^ 64) with 18446744073709551616; lia).
  rewrite N.shiftr_div_pow2. change (2 ^ 16) with 65536.
  pose proof (N.div_mod (281474977 * z) 65536 ltac:(lia)). pose proof (N.mod_lt (281474977 * z) 65536 ltac:(lia)).
  set (F := 281474977 * z / 65536) in *. set (r := (281474977 * z) mod 65536) in *.
  assert (F < 2 ^ 60) by (change (2 ^ 60) with 1152921504606846976; lia).
  rewrite u64_small by lia.
  exists (1000000 * (F + 1) - z * 4294967296). change (2 ^ 32) with 4294967296. change (100 ^ N.of_nat 3) with 1000000.
  lia.
Qed.

Lemma writes_u32 n : n < 2 ^ 32 -> writes (wu32 n) (numeral 10 n) (N.max 2 (len (numeral 10 n))).
Proof.
  intros L.
  destruct (N.ltb_spec n 100) as [H|H].
  { eapply writes_weaken with (w := 2); [|lia]. apply writes_ext with (wlead n); [|now apply writes_lead].
    intros. unfold wu32, w_u32, wlead. now destruct (N.ltb_spec n 100); [|lia]. }
  apply writes_weaken with (w := len (numeral 10 n)); [|lia].
  destruct (N.ltb_spec n 10000) as [H1|H1].
  { eapply writes_ext; [|apply (writes_lead_cascade 24 0 n (u32 (c24 * n))); [lia|now apply fixp24|]].
    - intros. unfold wu32, w_u32. destruct (N.ltb_spec n 100); [lia|]. destruct (N.ltb_spec n 10000); [|lia].
      pose proof (lead_lt _ _ _ _ 1000 (fixp24 n H1) eq_refl) as LT.
      destruct (fixp_frac 24 0 n (u32 (c24 * n)) ltac:(lia) (fixp24 n H1)) as [_ B].
      rewrite (u32_small (frac100 24 (u32 (c24 * n)))) by (change (2 ^ 24) with 16777216 in B; lia).
      unfold cascade. unfold wlead at 1. rewrite LT. destruct (n <? 1000); casc b.
    - change (100 ^ N.of_nat 1) with 100. lia. }
  destruct (N.ltb_spec n 1000000) as [H2|H2].
  { eapply writes_ext; [|apply (writes_lead_cascade 32 1 n (u64 (c32 * n))); [lia|now apply fixp32|]].
    - intros. unfold wu32, w_u32. destruct (N.ltb_spec n 100); [lia|]. destruct (N.ltb_spec n 10000); [lia|].
      destruct (N.ltb_spec n 1000000); [|lia].
      pose proof (lead_lt _ _ _ _ 100000 (fixp32 n H2) eq_refl) as LT.
      unfold cascade. unfold wlead at 1. rewrite LT. destruct (n <? 100000); casc b.
    - change (100 ^ N.of_nat 2) with 10000. lia. }
  destruct (N.ltb_spec n 100000000) as [H3|H3].
  { eapply writes_ext; [|apply (writes_lead_cascade 32 2 n (N.shiftr (u64 (c48 * n)) 16)); [lia|apply fixp48; lia|]].
    - intros. unfold wu32, w_u32. destruct (N.ltb_spec n 100); [lia|]. destruct (N.ltb_spec n 10000); [lia|].
      destruct (N.ltb_spec n 1000000); [lia|]. destruct (N.ltb_spec n 100000000); [|lia].
      pose proof (lead_lt _ _ _ _ 10000000 (fixp48 n (conj H2 H3)) eq_refl) as LT.
      unfold cascade. unfold wlead at 1. rewrite LT. destruct (n <? 10000000); casc b.
    - change (100 ^ N.of_nat 3) with 1000000. lia. }
  { eapply writes_ext; [|apply (writes_lead_cascade 57 3 n (u64 (c57 * n))); [lia|now apply fixp57|]].
    - intros. unfold wu32, w_u32. destruct (N.ltb_spec n 100); [lia|]. destruct (N.ltb_spec n 10000); [lia|].
      destruct (N.ltb_spec n 1000000); [lia|]. destruct (N.ltb_spec n 100000000); [lia|].
      pose proof (lead_lt _ _ _ _ 1000000000 (fixp57 n L) eq_refl) as LT.
      unfold cascade. unfold wlead at 1. rewrite LT. destruct (n <? 1000000000); casc b.
    - change (100 ^ N.of_nat 4) with 100000000. change (2 ^ 32) with 4294967296 in L. lia. }
Qed.

Lemma u32_len n : n < 2 ^ 32 -> len (numeral 10 n) <= 10.
Proof. intros. apply (numeral_len 10 9); [lia|]. change (10 ^ N.of_nat 10) with 10000000000. lia. Qed.
Lemma u64_len n : n < 2 ^ 64 -> len (numeral 10 n) <= 20.
Proof. intros. apply (numeral_len 10 19); [lia|]. change (10 ^ N.of_nat 20) with 100000000000000000000. lia. Qed.
Lemma x64_len n : n < 2 ^ 64 -> len (numeral 16 n) <= 16.
Proof. intros. apply (numeral_len 16 15); [lia|]. change (16 ^ N.of_nat 16) with (2 ^ 64). lia. Qed.
Lemma x32_len n : n < 2 ^ 32 -> len (numeral 16 n) <= 8.
Proof. intros. apply (numeral_len 16 7); [lia|]. change (16 ^ N.of_nat 8) with (2 ^ 32). lia. Qed.

Lemma writes_u32_10 n : n < 2 ^ 32 -> writes (wu32 n) (numeral 10 n) 10.
Proof.
  intros. eapply writes_weaken; [now apply writes_u32|]. pose proof (u32_len n H). lia.
Qed.

(** ** 64-bit decimal *)

Definition w8 (z : N) : wr := fun cap m b => let? m := eight_digits cap m b z in Some (m, b + 8).

Lemma writes_8 z : z < 100000000 -> writes (w8 z) (pairs 4 z) 8.
Proof.
  intros. eapply writes_ext; [|apply (writes_cascade 32 3 z (u64 (N.shiftr (u64 (c48 * z)) 16 + 1))); [lia|now apply fixp48'|]].
  - intros. unfold w8, eight_digits, cascade. casc b.
  - change (100 ^ N.of_nat 3) with 1000000. lia.
Qed.

Lemma writes_u64_rec f n : n < 2 ^ 32 * 100000000 ^ N.of_nat f -> 
  writes (fun cap m b => w_u64_rec (S f) cap m b n) (numeral 10 n) (N.max 2 (len (numeral 10 n))).
Proof.
  revert n; induction f as [|f IH]; intros n L.
  - change (100000000 ^ N.of_nat 0) with 1 in L.
    eapply writes_ext; [|apply writes_u32; lia]. intros. cbn [w_u64_rec].
    destruct (N.leb_spec n (2 ^ 32 - 1)); [|lia]. unfold wu32. rewrite u32_small by lia. reflexivity.
  - rewrite Nat2N.inj_succ, N.pow_succ_r' in L.
    destruct (N.leb_spec n (2 ^ 32 - 1)) as [H|H].
    { eapply writes_ext; [|apply writes_u32; lia]. intros. cbn [w_u64_rec].
      destruct (N.leb_spec n (2 ^ 32 - 1)); [|lia]. unfold wu32. rewrite u32_small by lia. reflexivity. }
    change (2 ^ 32) with 4294967296 in *.
    assert (Z : n mod 100000000 < 100000000) by (apply N.mod_lt; lia).
    apply writes_weaken with (w := len (numeral 10 n)); [|lia].
    assert (Hp : 100 ^ N.of_nat 4 <= n) by (change (100 ^ N.of_nat 4) with 100000000; lia).
    pose proof (numeral_pairs 4 n Hp) as NP. change (100 ^ N.of_nat 4) with 100000000 in NP. rewrite NP.
    eapply writes_ext; [|eapply writes_seq; [apply IH|apply writes_8; exact Z| |]].
    + intros. change (w_u64_rec (S (S f)) cap m b n) with
        (if n <=? 2 ^ 32 - 1 then w_u32 cap m b (u32 n)
         else let? x := w_u64_rec (S f) cap m b (n / 100000000) in
              let? m := eight_digits cap (fst x) (snd x) (u32 (n mod 100000000)) in
              Some (m, snd x + 8)).
      destruct (N.leb_spec n (2 ^ 32 - 1)); [change (2 ^ 32) with 4294967296 in *; lia|].
      rewrite u32_small by (change (2 ^ 32) with 4294967296 in *; lia). reflexivity.
    + apply N.div_lt_upper_bound; lia.
    + rewrite len_app, pairs_len. pose proof (numeral_pos 10 (n / 100000000)). lia.
    + rewrite len_app, pairs_len. lia.
Qed.

Definition wu64 (n : N) : wr := fun cap m b => w_u64 cap m b n.

Lemma writes_u64 n : n < 2 ^ 64 -> writes (wu64 n) (numeral 10 n) (N.max 2 (len (numeral 10 n))).
Proof.
  intros. unfold wu64, w_u64. apply writes_u64_rec. eapply N.lt_le_trans; [exact H|].
  vm_compute. discriminate.
Qed.
Lemma writes_u64_20 n : n < 2 ^ 64 -> writes (wu64 n) (numeral 10 n) 20.
Proof.
  intros. eapply writes_weaken; [now apply writes_u64|]. pose proof (u64_len n H). lia.
Qed.

(** ** Hexadecimal *)

Definition pair16 (q : N) : list N := [dig (q / 16); dig (q mod 16)].

Lemma hexpair_copy q cap m b : q < 256 -> copy2 cap m b hex_pairs (q * 2) = stl cap m b (pair16 q).
Proof. intros H. apply copy2_eq. revert q H. apply (all_lt 256). vm_compute. reflexivity. Qed.

Lemma hexnum_nth q : q < 16 -> nth_error hex_num (N.to_nat q) = Some (dig q).
Proof.
  intros H.
  assert (E : forall q, q < 16 -> (fun q => match nth_error hex_num (N.to_nat q) with Some c => c =? dig q | None => false end) q = true).
  { apply (all_lt 16). vm_compute. reflexivity. }
  specialize (E q H). cbv beta in E. destruct nth_error; [|discriminate]. apply N.eqb_eq in E. now subst.
Qed.

Lemma numeral_256 n : 256 <= n -> numeral 16 n = numeral 16 (n / 256) ++ pair16 (n mod 256).
Proof.
  intros. rewrite numeral_step by lia. destruct (N.ltb_spec n 16); [lia|].
  rewrite numeral_step by lia.
  assert (16 <= n / 16) by (apply N.div_le_lower_bound; lia).
  destruct (N.ltb_spec (n / 16) 16); [lia|].
  rewrite N.div_div by lia. change (16 * 16) with 256. rewrite <- app_assoc. f_equal. cbn [app].
  unfold pair16. change 256 with (16 * 16). rewrite N.mod_mul_r by lia.
  pose proof (N.mod_lt n 16). f_equal; [|f_equal]; f_equal.
  - rewrite N.add_comm, N.mul_comm, N.div_add_l by lia. rewrite (N.div_small (n mod 16)) by lia. lia.
  - rewrite N.add_comm, N.mul_comm, N.add_comm, N.mod_add by lia. rewrite N.mod_mod; lia.
Qed.

Lemma numeral16_small q : q < 256 -> numeral 16 q = if q <? 16 then [dig q] else pair16 q.
Proof.
  intros. rewrite numeral_step by lia. destruct (N.ltb_spec q 16); [reflexivity|].
  rewrite numeral_step by lia.
  assert (q / 16 < 16) by (apply N.div_lt_upper_bound; lia).
  destruct (N.ltb_spec (q / 16) 16); [|lia]. reflexivity.
Qed.

Lemma size_div n : 16 <= n -> N.size n = N.size (n / 16) + 4.
Proof.
  intros. assert (1 <= n / 16) by (apply N.div_le_lower_bound; lia).
  rewrite !N.size_log2 by lia. change 16 with (2 ^ 4). rewrite <- N.shiftr_div_pow2, N.log2_shiftr.
  assert (4 <= N.log2 n) by (apply (N.log2_le_pow2 n 4); lia). lia.
Qed.

Lemma hex_digits_len n : hex_digits n = len (numeral 16 n).
Proof.
  induction n as [n IH] using (well_founded_induction N.lt_wf_0). rewrite numeral_step by lia.
  destruct (N.ltb_spec n 16) as [H|H].
  - unfold len. cbn [length]. change (N.of_nat 1) with 1.
    assert (E : forall q, q < 16 -> (fun q => hex_digits q =? 1) q = true) by (apply (all_lt 16); vm_compute; reflexivity).
    specialize (E n H). now apply N.eqb_eq.
  - rewrite len_app. rewrite <- IH by (apply N.div_lt; lia). unfold len; cbn [length].
    assert (1 <= n / 16) by (apply N.div_le_lower_bound; lia).
    unfold hex_digits. destruct (N.eqb_spec n 0); [lia|]. destruct (N.eqb_spec (n / 16) 0); [lia|].
    rewrite size_div by lia. rewrite !N.shiftr_div_pow2. change (2 ^ 2) with 4.
    replace (N.size (n / 16) + 4 + 3) with (N.size (n / 16) + 3 + 1 * 4) by lia.
    rewrite N.div_add by lia. reflexivity.
Qed.

(** The loop fills the tail of the numeral backwards. *)
Lemma x64_loop_ok f : forall cap m p v,
  v < 256 ^ N.of_nat (S f) -> len (numeral 16 v) <= p -> p <= cap ->
  exists m' p' v' t, x64_loop (S f) cap m p v = Some (m', p', v') /\
    v' < 256 /\ numeral 16 v = numeral 16 v' ++ t /\ p = p' + len t /\
    rd m' p' (length t) = t /\ (forall i, i < p' \/ p <= i -> m' i = m i).
Proof.
  induction f as [|f IH]; intros cap m p v L Lp Lc.
  - change (256 ^ N.of_nat 1) with 256 in L. cbn [x64_loop]. destruct (N.leb_spec 256 v); [lia|].
    exists m, p, v, []. rewrite app_nil_r. unfold len; cbn. repeat split; auto; lia.
  - change (x64_loop (S (S f)) cap m p v) with
      (if 256 <=? v then
        let? m := copy2 cap m (p - 2) hex_pairs (N.land v 255 * 2) in
        x64_loop (S f) cap m (p - 2) (N.shiftr v 8)
      else Some (m, p, v)).
    destruct (N.leb_spec 256 v) as [H|H].
    2: { exists m, p, v, []. rewrite app_nil_r. unfold len; cbn. repeat split; auto; lia. }
    rewrite (numeral_256 v H), len_app in *.
    change 255 with (N.ones 8). rewrite land_ones_mod, N.shiftr_div_pow2. change (2 ^ 8) with 256.
    assert (v mod 256 < 256) by (apply N.mod_lt; lia).
    rewrite hexpair_copy by assumption.
    change (len (pair16 (v mod 256))) with 2 in *.
    destruct (stl_ok (pair16 (v mod 256)) cap m (p - 2)) as (m1 & E1 & R1 & F1).
    { change (len (pair16 (v mod 256))) with 2. lia. }
    change (len (pair16 (v mod 256))) with 2 in *. rewrite E1. cbn [bind].
    rewrite Nat2N.inj_succ, N.pow_succ_r' in L.
    destruct (IH cap m1 (p - 2) (v / 256)) as (m' & p' & v' & t & E & Lv & Ev & Ep & R & F).
    { apply N.div_lt_upper_bound; lia. }
    { lia. } { lia. }
    exists m', p', v', (t ++ pair16 (v mod 256)).
    split; [exact E|]. split; [exact Lv|]. split; [now rewrite Ev, app_assoc|].
    split; [rewrite len_app; change (len (pair16 (v mod 256))) with 2; lia|]. split.
    + rewrite app_length, rd_app, R. f_equal. rewrite <- R1 at 2.
      replace (p' + N.of_nat (length t)) with (p - 2) by (unfold len in Ep; lia).
      apply rd_ext. cbn [length pair16]. intros i Hi. apply F. lia.
    + intros i Hi. rewrite F by lia. apply F1. lia.
Qed.

Definition wx64 (n : N) : wr := fun cap m b => w_x64 cap m b n.

Lemma writes_x64 n : n < 2 ^ 64 -> writes (wx64 n) (numeral 16 n) (len (numeral 16 n)).
Proof.
  intros L cap m b B. unfold wx64, w_x64. rewrite hex_digits_len.
  destruct (x64_loop_ok 8 cap m (b + len (numeral 16 n)) n) as (m1 & p & v & t & E & Lv & Ev & Ep & R & F).
  { eapply N.lt_le_trans; [exact L|]. vm_compute. discriminate. }
  { lia. } { lia. }
  rewrite E. cbn [bind]. rewrite Ev, len_app in Ep. rewrite (numeral16_small v Lv) in Ep, Ev.
  pose proof (f_equal len Ev) as El. rewrite len_app in El.
  destruct (N.ltb_spec v 16) as [Hv|Hv].
  - rewrite hexnum_nth by assumption. cbn [bind]. change (len [dig v]) with 1 in Ep, El.
    rewrite st_ok by lia. cbn [bind]. eexists. split; [reflexivity|]. split.
    + rewrite Ev. cbn [app length rd]. f_equal.
      * destruct (N.eqb_spec b (p - 1)); [reflexivity|lia].
      * rewrite <- R at 2. replace (b + 1) with p by lia. apply rd_ext. intros i Hi.
        destruct (N.eqb_spec i (p - 1)); [lia|reflexivity].
    + intros i Hi. destruct (N.eqb_spec i (p - 1)); [lia|]. apply F. lia.
  - change (len (pair16 v)) with 2 in Ep, El. rewrite hexpair_copy by assumption.
    destruct (stl_ok (pair16 v) cap m1 (p - 2)) as (m2 & E2 & R2 & F2).
    { change (len (pair16 v)) with 2. lia. }
    change (len (pair16 v)) with 2 in F2.
    rewrite E2. cbn [bind]. eexists. split; [reflexivity|]. split.
    + rewrite Ev, app_length, rd_app. f_equal.
      * rewrite <- R2 at 2. f_equal. lia.
      * rewrite <- R at 2. cbn [length pair16]. replace (b + N.of_nat 2) with p by lia.
        apply rd_ext. intros i Hi. apply F2. lia.
    + intros i Hi. rewrite F2 by lia. apply F. lia.
Qed.

(** ** Zero-padded hexadecimal *)

Lemma padded_256 k n : padded (S (S k)) 16 n = padded k 16 (n / 256) ++ pair16 (n mod 256).
Proof.
  cbn [padded]. rewrite N.div_div by lia. change (16 * 16) with 256. rewrite <- app_assoc. f_equal.
  cbn [app]. unfold pair16. change 256 with (16 * 16). rewrite N.mod_mul_r by lia.
  pose proof (N.mod_lt n 16). f_equal; [|f_equal]; f_equal.
  - rewrite N.add_comm, N.mul_comm, N.div_add_l by lia. rewrite (N.div_small (n mod 16)) by lia. lia.
  - rewrite N.add_comm, N.mul_comm, N.add_comm, N.mod_add by lia. rewrite N.mod_mod; lia.
Qed.

Lemma q64_ok j : forall cap m d v, d + 2 * N.of_nat j <= cap ->
  exists m', q64_loop j cap m d v = Some m' /\ rd m' d (2 * j) = padded (2 * j) 16 v /\
             (forall i, i < d \/ d + 2 * N.of_nat j <= i -> m' i = m i).
Proof.
  induction j as [|j IH]; intros cap m d v B.
  - exists m. repeat split; auto.
  - cbn [q64_loop]. change 255 with (N.ones 8). rewrite land_ones_mod, N.shiftr_div_pow2. change (2 ^ 8) with 256.
    rewrite hexpair_copy by (apply N.mod_lt; lia).
    destruct (stl_ok (pair16 (v mod 256)) cap m (d + N.of_nat j * 2)) as (m1 & E1 & R1 & F1).
    { change (len (pair16 (v mod 256))) with 2. lia. }
    change (len (pair16 (v mod 256))) with 2 in *.
    rewrite E1. cbn [bind]. destruct (IH cap m1 d (v / 256)) as (m' & E & R & F); [lia|].
    exists m'. split; [exact E|]. split.
    + replace (2 * S j)%nat with (S (S (2 * j))) at 2 by lia. rewrite padded_256, <- R.
      replace (2 * S j)%nat with (2 * j + 2)%nat by lia. rewrite rd_app. f_equal.
      rewrite <- R1. replace (d + N.of_nat (2 * j)) with (d + N.of_nat j * 2) by lia.
      apply rd_ext. cbn [length pair16]. intros i Hi. apply F. lia.
    + intros i Hi. rewrite F by lia. apply F1. lia.
Qed.

Definition wq64 (n : N) : wr := fun cap m b => w_q64 cap m b n.
Lemma writes_q64 n : writes (wq64 n) (padded 16 16 n) 16.
Proof.
  intros cap m b B. unfold wq64, w_q64. destruct (q64_ok 8 cap m b n) as (m' & E & R & F); [lia|].
  rewrite E. cbn [bind]. exists m'. unfold len. rewrite padded_len. repeat split; auto.
Qed.
