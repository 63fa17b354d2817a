(** Correctness of w_run: the 8-bytes-at-a-time search for the next '$'. *)
From Coq Require Import String Ascii.
From Verif Require Import Base Bits FreeSlots_Model FreeSlots_Proofs Str_Model Str_Spec Str_Proofs.
Local Open Scope N_scope.

(** ** Byte-wise decomposition *)

Lemma tb_split a A n : a < 256 -> N.testbit (a + 256 * A) n = if n <? 8 then N.testbit a n else N.testbit A (n - 8).
Proof.
  intros H. assert (E : a + 256 * A = N.lor (N.shiftl A 8) a).
  { rewrite lor_shiftl_add by (change (2 ^ 8) with 256; assumption). change (2 ^ 8) with 256. lia. }
  rewrite E, N.lor_spec. destruct (N.ltb_spec n 8).
  - rewrite N.shiftl_spec_low by assumption. reflexivity.
  - rewrite N.shiftl_spec_high' by assumption. rewrite (testbit_high a 8 n); [apply orb_false_r| |assumption].
    exact H.
Qed.

Lemma land_split a A b B : a < 256 -> b < 256 ->
  N.land (a + 256 * A) (b + 256 * B) = N.land a b + 256 * N.land A B.
Proof.
  intros. assert (N.land a b < 256) by (eapply N.le_lt_trans; [apply land_le_l|assumption]).
  apply N.bits_inj; intros n. rewrite N.land_spec, !tb_split by assumption.
  destruct (n <? 8); now rewrite N.land_spec.
Qed.

Lemma lxor_split a A b B : a < 256 -> b < 256 ->
  N.lxor (a + 256 * A) (b + 256 * B) = N.lxor a b + 256 * N.lxor A B.
Proof.
  intros. assert (N.lxor a b < 256).
  { change 256 with (2 ^ 8). destruct (N.eq_dec (N.lxor a b) 0) as [->|]; [lia|].
    apply N.log2_lt_pow2; [lia|]. eapply N.le_lt_trans; [apply N.log2_lxor|].
    apply N.max_lub_lt.
    - destruct (N.eq_dec a 0) as [->|]; [cbn; lia|]. apply N.log2_lt_pow2; [lia|exact H].
    - destruct (N.eq_dec b 0) as [->|]; [cbn; lia|]. apply N.log2_lt_pow2; [lia|exact H0]. }
  apply N.bits_inj; intros n. rewrite N.lxor_spec, !tb_split by assumption.
  destruct (n <? 8); now rewrite N.lxor_spec.
Qed.

Definition byte (c : N) := c < 256.

(** Constants with a repeated byte. *)
Fixpoint rep (k : nat) (c : N) : N := match k with O => 0 | S j => c + 256 * rep j c end.

Lemma le_val_lt l : Forall byte l -> le_val l < 256 ^ N.of_nat (length l).
Proof.
  induction 1; cbn [le_val length]; [reflexivity|].
  rewrite Nat2N.inj_succ, N.pow_succ_r'. unfold byte in H. nia.
Qed.

Lemma lxor_rep l c : byte c -> Forall byte l ->
  N.lxor (le_val l) (rep (length l) c) = le_val (map (fun x => N.lxor x c) l).
Proof.
  intros Hc. induction 1; cbn [le_val length rep map]; [reflexivity|].
  rewrite lxor_split by assumption. now rewrite IHForall.
Qed.

(** The test word for [k] bytes. *)
Definition zword (k : nat) (x : N) : N :=
  N.land (N.land ((x + 256 ^ N.of_nat k - rep k 1) mod 256 ^ N.of_nat k) (256 ^ N.of_nat k - 1 - x)) (rep k 128).

Lemma rep_lt k c : byte c -> rep k c < 256 ^ N.of_nat k.
Proof.
  intros H. induction k; cbn [rep]; [reflexivity|]. rewrite Nat2N.inj_succ, N.pow_succ_r'. unfold byte in H. nia.
Qed.

Lemma pow256_pos k : 0 < 256 ^ N.of_nat k.
Proof. apply N.neq_0_lt_0, N.pow_nonzero. lia. Qed.

(** Nonzero lowest byte: nothing is flagged there, and the rest is independent. *)
Lemma zword_nz k b x : 1 <= b < 256 -> x < 256 ^ N.of_nat k -> zword (S k) (b + 256 * x) = 256 * zword k x.
Proof.
  intros Hb Hx. unfold zword. cbn [rep]. rewrite Nat2N.inj_succ, N.pow_succ_r'.
  pose proof (rep_lt k 1 ltac:(unfold byte; lia)) as HR. pose proof (pow256_pos k) as HP.
  set (P := 256 ^ N.of_nat k) in *. set (R := rep k 1) in *. set (H := rep k 128).
  replace (b + 256 * x + 256 * P - (1 + 256 * R)) with ((b - 1) + 256 * (x + P - R)) by lia.
  replace (((b - 1) + 256 * (x + P - R)) mod (256 * P)) with ((b - 1) + 256 * ((x + P - R) mod P)).
  2: { symmetry. pose proof (N.div_mod (x + P - R) P ltac:(lia)). pose proof (N.mod_lt (x + P - R) P ltac:(lia)).
       set (q := (x + P - R) / P) in *. set (r := (x + P - R) mod P) in *.
       symmetry. apply (N.mod_unique _ _ q); lia. }
  replace (256 * P - 1 - (b + 256 * x)) with ((255 - b) + 256 * (P - 1 - x)) by lia.
  rewrite land_split by lia.
  assert (N.land (b - 1) (255 - b) < 256) by (eapply N.le_lt_trans; [apply land_le_l|lia]).
  rewrite land_split by lia.
  assert (Z : N.land (N.land (b - 1) (255 - b)) 128 = 0).
  { assert (E : forall q, q < 256 -> (fun q => (q =? 0) || (N.land (N.land (q - 1) (255 - q)) 128 =? 0)) q = true)
      by (apply (all_lt 256); vm_compute; reflexivity).
    specialize (E b ltac:(lia)). cbv beta in E. apply orb_true_iff in E. rewrite !N.eqb_eq in E. lia. }
  rewrite Z. lia.
Qed.

(** Zero lowest byte: flagged. *)
Lemma zword_z k x : x < 256 ^ N.of_nat k -> exists y, zword (S k) (0 + 256 * x) = 128 + 256 * y.
Proof.
  intros Hx. unfold zword. cbn [rep]. rewrite Nat2N.inj_succ, N.pow_succ_r'.
  pose proof (rep_lt k 1 ltac:(unfold byte; lia)) as HR. pose proof (pow256_pos k) as HP.
  set (P := 256 ^ N.of_nat k) in *. set (R := rep k 1) in *. set (H := rep k 128).
  replace (0 + 256 * x + 256 * P - (1 + 256 * R)) with (255 + 256 * (x + P - R - 1)) by lia.
  replace ((255 + 256 * (x + P - R - 1)) mod (256 * P)) with (255 + 256 * ((x + P - R - 1) mod P)).
  2: { generalize (x + P - R - 1). intros z. symmetry.
       pose proof (N.div_mod z P ltac:(lia)). pose proof (N.mod_lt z P ltac:(lia)).
       set (q := z / P) in *. set (r := z mod P) in *.
       symmetry. apply (N.mod_unique _ _ q); lia. }
  replace (256 * P - 1 - (0 + 256 * x)) with (255 + 256 * (P - 1 - x)) by lia.
  rewrite land_split by lia. change (N.land 255 255) with 255. rewrite land_split by lia.
  change (N.land 255 128) with 128. eexists; reflexivity.
Qed.

(** Index of the first zero byte. *)
Fixpoint first0 (l : list N) : option nat :=
  match l with [] => None | b :: r => if b =? 0 then Some O else option_map S (first0 r) end.


Lemma tz_256 x t : tzcnt_u64 x = Some t -> tzcnt_u64 (256 * x) = Some (8 + t).
Proof.
  destruct x as [|p]; [discriminate|]. cbn [tzcnt_u64]. intros [= <-].
  change (256 * N.pos p) with (N.pos p~0~0~0~0~0~0~0~0). cbn [tzcnt_u64 tz_pos]. f_equal. lia.
Qed.

Lemma tz_128 y : tzcnt_u64 (128 + 256 * y) = Some 7.
Proof.
  destruct y as [|p]; [reflexivity|].
  change (128 + 256 * N.pos p) with (N.pos p~1~0~0~0~0~0~0~0). reflexivity.
Qed.

Lemma zword_first l : Forall byte l ->
  match first0 l with
  | None => zword (length l) (le_val l) = 0
  | Some j => exists t, tzcnt_u64 (zword (length l) (le_val l)) = Some t /\ N.shiftr t 3 = N.of_nat j
  end.
Proof.
  induction 1 as [|b l Hb Hl IH]; [reflexivity|].
  cbn [first0 length le_val]. pose proof (le_val_lt l Hl). unfold byte in Hb.
  destruct (N.eqb_spec b 0) as [->|Hz].
  - destruct (zword_z (length l) (le_val l) H) as (y & ->). exists 7. split; [apply tz_128|reflexivity].
  - rewrite zword_nz by lia. destruct (first0 l) as [j|]; cbn [option_map].
    + destruct IH as (t & E & S). exists (8 + t). split; [now apply tz_256|].
      rewrite N.shiftr_div_pow2 in *. change (2 ^ 3) with 8 in *.
      replace (8 + t) with (t + 1 * 8) by lia. rewrite N.div_add by lia. lia.
    + rewrite IH. reflexivity.
Qed.

(** Position of the first '$'. *)
Fixpoint run_len (p : list N) : nat :=
  match p with [] => O | c :: r => if c =? DOLLAR then O else S (run_len r) end.

Lemma first0_run l : first0 (map (fun x => N.lxor x DOLLAR) l) =
  if Nat.eqb (run_len l) (length l) then None else Some (run_len l).
Proof.
  induction l as [|c l IH]; [reflexivity|]. cbn [map first0 run_len length].
  destruct (N.eqb_spec c DOLLAR) as [->|Hc].
  - rewrite N.lxor_nilpotent. reflexivity.
  - destruct (N.eqb_spec (N.lxor c DOLLAR) 0) as [E|E]; [apply N.lxor_eq in E; contradiction|].
    rewrite IH. cbn [Nat.eqb]. now destruct (Nat.eqb (run_len l) (length l)).
Qed.

Lemma run_le l : (run_len l <= length l)%nat.
Proof. induction l; cbn; [lia|]. destruct (_ =? _); lia. Qed.

Lemma lxor_byte l c : byte c -> Forall byte l -> Forall byte (map (fun x => N.lxor x c) l).
Proof.
  intros Hc. induction 1; cbn [map]; constructor; auto.
  assert (E : N.lxor (x + 256 * 0) (c + 256 * 0) < 256).
  { unfold byte in *. rewrite N.mul_0_r, !N.add_0_r. change 256 with (2 ^ 8).
    destruct (N.eq_dec (N.lxor x c) 0) as [->|]; [lia|].
    apply N.log2_lt_pow2; [lia|]. eapply N.le_lt_trans; [apply N.log2_lxor|].
    apply N.max_lub_lt.
    - destruct (N.eq_dec x 0) as [->|]; [cbn; lia|]. apply N.log2_lt_pow2; [lia|exact H].
    - destruct (N.eq_dec c 0) as [->|]; [cbn; lia|]. apply N.log2_lt_pow2; [lia|exact Hc]. }
  now rewrite !N.mul_0_r, !N.add_0_r in E.
Qed.

Lemma swar_ok l : length l = 8%nat -> Forall byte l ->
  if Nat.eqb (run_len l) 8 then swar (le_val l) = 0
  else swar (le_val l) <> 0 /\ exists t, tzcnt_u64 (swar (le_val l)) = Some t /\ N.shiftr t 3 = N.of_nat (run_len l).
Proof.
  intros L B.
  assert (E : swar (le_val l) = zword (length l) (le_val (map (fun x => N.lxor x DOLLAR) l))).
  { rewrite L. rewrite <- lxor_rep by (auto; unfold byte, DOLLAR; lia). rewrite L. unfold swar, zword.
    change (rep 8 DOLLAR) with 0x2424242424242424. change (rep 8 1) with 0x0101010101010101.
    change (rep 8 128) with 0x8080808080808080. change (256 ^ N.of_nat 8) with (2 ^ 64).
    set (x := N.lxor _ _). unfold sub64, u64. reflexivity. }
  pose proof (zword_first _ (lxor_byte l DOLLAR ltac:(unfold byte, DOLLAR; lia) B)) as Z.
  rewrite map_length in Z. rewrite <- E, first0_run, L in Z.
  destruct (Nat.eqb_spec (run_len l) 8); [exact Z|]. split; [|exact Z].
  intros C. destruct Z as (t & Z & _). rewrite C in Z. discriminate.
Qed.

(** ** The copy loop *)

Definition run_post (cap : N) (m : mem) (d : N) (p : list N) (r : option (mem * N * list N)) : Prop :=
  exists m', r = Some (m', d + N.of_nat (run_len p), skipn (run_len p) p) /\
             rd m' d (run_len p) = firstn (run_len p) p /\
             (forall i, i < d \/ d + len p <= i -> m' i = m i).

Lemma tail_ok p : forall cap m d, d + len p <= cap -> run_post cap m d p (w_tail cap m d p).
Proof.
  induction p as [|c p IH]; intros cap m d H; cbn [w_tail].
  - exists m. cbn [run_len skipn firstn rd]. change (N.of_nat 0) with 0. rewrite N.add_0_r. auto.
  - rewrite len_cons in H. destruct (c =? DOLLAR) eqn:D.
    + exists m. cbn [run_len]. rewrite D. cbn [skipn firstn rd]. change (N.of_nat 0) with 0. rewrite N.add_0_r. auto.
    + rewrite st_ok by lia. cbn [bind].
      destruct (IH cap (fun i => if i =? d then c else m i) (d + 1)) as (m' & E & R & F); [lia|].
      exists m'. cbn [run_len]. rewrite D. split; [rewrite E; cbn [skipn]; do 3 f_equal; lia|]. split.
      * cbn [rd firstn]. rewrite R. f_equal. rewrite F by lia. now rewrite N.eqb_refl.
      * intros i Hi. rewrite len_cons in Hi. rewrite F by lia. destruct (N.eqb_spec i d); [lia|reflexivity].
Qed.

Lemma run_len_app a b : run_len (a ++ b) = if Nat.eqb (run_len a) (length a) then (length a + run_len b)%nat else run_len a.
Proof.
  induction a as [|c a IH]; [reflexivity|]. cbn [app run_len length].
  destruct (c =? DOLLAR); [reflexivity|]. rewrite IH. cbn [Nat.eqb]. destruct (Nat.eqb _ _); reflexivity.
Qed.

Lemma rd_firstn m a k n : (k <= n)%nat -> rd m a k = firstn k (rd m a n).
Proof.
  intros. replace n with (k + (n - k))%nat by lia. rewrite rd_app, firstn_app, rd_length.
  rewrite Nat.sub_diag. cbn [firstn]. rewrite app_nil_r. rewrite firstn_all2; [reflexivity|]. rewrite rd_length. lia.
Qed.

Lemma run_loop_ok f : forall cap m d p, (length p < f)%nat -> Forall byte p -> d + len p <= cap ->
  run_post cap m d p (w_run_loop f cap m d p).
Proof.
  induction f as [|f IH]; intros cap m d p Hf B H; [lia|].
  cbn [w_run_loop]. destruct (N.leb_spec 8 (len p)) as [L|L]; [|now apply tail_ok].
  unfold len in L. set (h := firstn 8 p). set (q := skipn 8 p).
  assert (Hp : p = h ++ q) by (symmetry; apply firstn_skipn).
  assert (Lh : length h = 8%nat) by (unfold h; rewrite firstn_length; lia).
  assert (Bh : Forall byte h) by (apply Forall_forall; intros x Hx; rewrite Forall_forall in B; apply B; rewrite Hp; apply in_or_app; auto).
  assert (Bq : Forall byte q) by (apply Forall_forall; intros x Hx; rewrite Forall_forall in B; apply B; rewrite Hp; apply in_or_app; auto).
  assert (Lp : len p = 8 + len q) by (rewrite Hp, len_app; unfold len; rewrite Lh; lia).
  assert (Lh' : len h = 8) by (unfold len; rewrite Lh; reflexivity).
  destruct (stl_ok h cap m d) as (m1 & E1 & R1 & F1); [lia|].
  rewrite E1. cbn [bind]. pose proof (swar_ok h Lh Bh) as S. rewrite Lh in R1.
  pose proof (run_len_app h q) as RL. rewrite <- Hp, Lh in RL.
  destruct (Nat.eqb_spec (run_len h) 8) as [Eh|Eh].
  - rewrite S. change (0 =? 0) with true. cbv iota.
    destruct (IH cap m1 (d + 8) q) as (m' & E & R & F); [|exact Bq|lia|].
    { unfold len in Lp. lia. }
    exists m'. rewrite RL. split; [|split].
    + rewrite E. f_equal. f_equal; [f_equal; lia|].
      rewrite Hp. rewrite skipn_app, Lh. replace (8 + run_len q - 8)%nat with (run_len q) by lia.
      rewrite (skipn_all2 h) by lia. reflexivity.
    + rewrite rd_app. change (d + N.of_nat 8) with (d + 8). rewrite R. rewrite Hp, firstn_app, Lh.
      rewrite (firstn_all2 h) by lia. f_equal; [|f_equal; lia].
      rewrite <- R1. apply rd_ext. intros i Hi. apply F. lia.
    + intros i Hi. rewrite F by lia. apply F1. lia.
  - destruct S as (NZ & t & Et & St). rewrite (proj2 (N.eqb_neq _ _) NZ). rewrite Et. cbn [bind].
    rewrite St, Nat2N.id. pose proof (run_le h).
    exists m1. rewrite RL. split; [reflexivity|]. split.
    + rewrite (rd_firstn m1 d (run_len h) 8), R1 by lia. rewrite Hp, firstn_app.
      replace (run_len h - length h)%nat with O by lia. cbn [firstn]. now rewrite app_nil_r.
    + intros i Hi. apply F1. lia.
Qed.

Lemma run_ok cap m d p : Forall byte p -> d + len p <= cap -> run_post cap m d p (w_run cap m d p).
Proof. intros. apply run_loop_ok; auto. Qed.

Lemma run_prefix p : ~ In DOLLAR (firstn (run_len p) p).
Proof.
  induction p as [|c p IH]; cbn; [auto|]. destruct (N.eqb_spec c DOLLAR); cbn; [auto|]. intros [E|E]; auto.
Qed.
Lemma run_stop p : skipn (run_len p) p = [] \/ exists r, skipn (run_len p) p = DOLLAR :: r.
Proof.
  induction p as [|c p IH]; cbn; [auto|]. destruct (N.eqb_spec c DOLLAR) as [->|]; cbn; eauto.
Qed.

Lemma run_spec cap m d p : Forall byte p -> d + len p <= cap ->
  exists m' l r, w_run cap m d p = Some (m', d + len l, r) /\ p = l ++ r /\ ~ In 36 l /\
    (r = [] \/ exists r', r = 36 :: r') /\ rd m' d (length l) = l /\
    (forall i, i < d \/ d + len p <= i -> m' i = m i).
Proof.
  intros B L. destruct (run_ok cap m d p B L) as (m' & E & R & F).
  exists m', (firstn (run_len p) p), (skipn (run_len p) p).
  assert (Ln : length (firstn (run_len p) p) = run_len p) by (rewrite firstn_length; pose proof (run_le p); lia).
  unfold len at 1. rewrite Ln. split; [exact E|]. split; [symmetry; apply firstn_skipn|].
  split; [apply run_prefix|]. split; [apply run_stop|]. split; [exact R|exact F].
Qed.
