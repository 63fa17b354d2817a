(** Packet scatters. *)
From Verif Require Import Base Bits Pkt_Model Pkt_Spec Pkt_Proofs.
Local Open Scope N_scope.

Lemma lanes_app : forall a b f, lanes f (a + b) = lanes f a ++ lanes (f + N.of_nat a) b.
Proof.
  induction a as [|a IH]; intros b f; cbn [lanes Nat.add app]; [now rewrite N.add_0_r|]. rewrite IH. do 2 f_equal. f_equal. lia.
Qed.
Lemma lanes_in : forall c f k, In k (lanes f c) <-> f <= k < f + N.of_nat c.
Proof.
  induction c as [|c IH]; intros f k; cbn [lanes In]; [lia|]. rewrite IH. lia.
Qed.
Lemma lanes_seq : forall c f, lanes f c = map (fun j => f + N.of_nat j) (seq 0 c).
Proof.
  induction c as [|c IH]; intros f; cbn [lanes seq map]; [reflexivity|]. rewrite N.add_0_r. f_equal. rewrite IH, <- seq_shift, map_map. apply map_ext. intros; lia.
Qed.
Lemma fold_congr {A B} (f g : A -> B -> A) l : (forall x a, In x l -> f a x = g a x) -> forall a, fold_left f l a = fold_left g l a.
Proof. induction l as [|x l IH]; intros H a; [reflexivity|]. simpl. rewrite H by now left. apply IH. intros; apply H; now right. Qed.
Lemma fold_id {A B} (f : A -> B -> A) l a : (forall x a, In x l -> f a x = a) -> fold_left f l a = a.
Proof. induction l as [|x l IH]; intros H; [reflexivity|]. simpl. rewrite H by now left. apply IH. intros; apply H; now right. Qed.

Section Packet.
Context {V : Type}.
Notation vec := (vec (V := V)).
Notation memory := (memory (V := V)).
Variable w : N.
Variable upd2 : V -> V -> V.
Notation store := (store upd2).
Implicit Types (mem : memory).

(** The effect on one entry *)
Definition stepn (n : N) (p : N -> N) (m : N -> bool) (X : N -> N -> option V) (a : N) (acc : V) (k : N) : V :=
  if m k && ((p k <=? a) && (a <? p k + n)) then match X k (a - p k) with Some y => upd2 acc y | None => acc end else acc.
Lemma store_fold n p (m : N -> bool) (X : N -> N -> option V) (v : N -> vec) a : forall (l : list N) (mem : memory),
  (forall k c, In k l -> c < n -> v k c = X k c) ->
  fold_left (fun (mem : memory) k => if m k then store n mem (p k) (v k) else mem) l mem a = fold_left (stepn n p m X a) l (mem a).
Proof.
  induction l as [|k l IH]; intros mem H; [reflexivity|]. cbn [fold_left]. rewrite IH by (intros; apply H; [now right|assumption]). f_equal.
  unfold stepn, Pkt_Model.store. destruct (m k); [cbn [andb]|reflexivity].
  destruct (N.leb_spec (p k) a); cbn [andb]; [|reflexivity]. destruct (N.ltb_spec a (p k + n)); [|reflexivity].
  rewrite H by (now left || lia). reflexivity.
Qed.

Lemma scatter_rec_ok n p m X : n <> 0 -> forall d fuel l i (v : N -> vec) mem, (d < fuel)%nat -> N.shiftr w l = n * 2 ^ N.of_nat d ->
  (forall x j c, x < 2 ^ N.of_nat d -> j < n -> c < n -> v j (x * n + c) = X ((i * 2 ^ N.of_nat d + x) * n + j) c) ->
  exists mem', scatter_rec w upd2 fuel n l i p m v mem = Some mem' /\
    forall a, mem' a = fold_left (stepn n p m X a) (lanes (i * 2 ^ N.of_nat d * n) (N.to_nat (n * 2 ^ N.of_nat d))) (mem a).
Proof.
  intros Nn. induction d as [|d IH]; intros fuel l i v mem Bf Hs HX; (destruct fuel as [|fuel]; [lia|]); cbn [scatter_rec].
  - change (2 ^ N.of_nat 0) with 1 in *. rewrite N.mul_1_r in Hs. rewrite Hs, N.eqb_refl. eexists. split; [reflexivity|]. intros a.
    rewrite !N.mul_1_r in *. rewrite lanes_seq.
    assert (E : forall l (mem : memory), fold_left (fun (mem : memory) j => let k := i * n + j in if m k then store n mem (p k) (v j) else mem) (map N.of_nat l) mem =
       fold_left (fun mem k => if m k then store n mem (p k) (v (k - i * n)) else mem) (map (fun j => i * n + N.of_nat j) l) mem).
    { clear. induction l as [|x l IH]; intros mem; [reflexivity|]. cbn [map fold_left]. replace (i * n + N.of_nat x - i * n) with (N.of_nat x) by lia. apply IH. }
    rewrite E. apply (store_fold n p m X (fun k => v (k - i * n))). intros k c I Bc. apply in_map_iff in I as (j & <- & I). apply in_seq in I.
    replace (i * n + N.of_nat j - i * n) with (N.of_nat j) by lia. rewrite <- (N.add_0_l c) at 1. rewrite <- (N.mul_0_l n). rewrite HX by lia.
    rewrite N.add_0_r. reflexivity.
  - set (q := 2 ^ N.of_nat d) in *. assert (Pp : 0 < q) by (apply pow2_pos).
    assert (E2 : 2 ^ N.of_nat (S d) = 2 * q) by (rewrite Nat2N.inj_succ, N.pow_succ_r'; reflexivity). rewrite E2 in *. clear E2.
    assert (Np : 1 * n <= q * n) by (apply N.mul_le_mono_r; lia).
    destruct (N.eqb_spec (N.shiftr w l) n) as [E|_]; [exfalso; lia|].
    assert (Hs1 : N.shiftr w (l + 1) = n * q).
    { rewrite <- N.shiftr_shiftr, Hs. rewrite N.shiftr_div_pow2. change (2 ^ 1) with 2. replace (n * (2 * q)) with (n * q * 2) by lia. apply N.div_mul. discriminate. }
    rewrite Hs. replace (n * (2 * q) / 2) with (n * q) by (replace (n * (2 * q)) with (n * q * 2) by lia; symmetry; apply N.div_mul; discriminate).
    destruct (IH fuel (l + 1) (2 * i) (fun j k => if k <? n * q then v j (k + 0 * (n * q)) else None) mem ltac:(lia) Hs1) as (m1 & -> & H1).
    { intros x j c Bx Bj Bc. assert ((x + 1) * n <= q * n) by (apply N.mul_le_mono_r; lia). destruct (N.ltb_spec (x * n + c) (n * q)); [|lia].
      rewrite N.mul_0_l, N.add_0_r. rewrite HX by lia. f_equal. lia. }
    cbn [bind].
    destruct (IH fuel (l + 1) (2 * i + 1) (fun j k => if k <? n * q then v j (k + 1 * (n * q)) else None) m1 ltac:(lia) Hs1) as (m2 & -> & H2).
    { intros x j c Bx Bj Bc. assert ((x + 1) * n <= q * n) by (apply N.mul_le_mono_r; lia). destruct (N.ltb_spec (x * n + c) (n * q)); [|lia].
      replace (x * n + c + 1 * (n * q)) with ((x + q) * n + c) by lia. rewrite HX by lia. f_equal. lia. }
    eexists. split; [reflexivity|]. intros a. rewrite H2, H1, <- fold_left_app. f_equal.
    replace (N.to_nat (n * (2 * q))) with (N.to_nat (n * q) + N.to_nat (n * q))%nat by lia. rewrite lanes_app. f_equal; f_equal; lia.
Qed.

Lemma scatter_fn_ok n d fuel p m (v : N -> vec) mem : size_ok n -> w = n * 2 ^ N.of_nat d -> (d < fuel)%nat ->
  exists mem', scatter_fn w upd2 fuel n p m v mem = Some mem' /\
    forall a, mem' a = fold_left (stepn n p m (fun k c => v c k) a) (lanes 0 (N.to_nat w)) (mem a).
Proof.
  intros Hn Hw Bf. unfold scatter_fn. destruct (permute_some w n v Hn) as [r E]. rewrite E. cbn [bind].
  assert (Nn : n <> 0) by (destruct Hn as [->|[->| ->]]; discriminate).
  destruct (scatter_rec_ok n p m (fun k c => v c k) Nn d fuel 0 0 (nth_vec r) mem Bf Hw) as (mem' & E' & H).
  { intros x j c Bx Bj Bc. rewrite N.mul_0_l, N.add_0_l. apply (transpose w n v r x j c (N.of_nat d)); try assumption.
    rewrite Hw. assert ((x + 1) * n <= 2 ^ N.of_nat d * n) by (apply N.mul_le_mono_r; lia). lia. }
  exists mem'. split; [assumption|]. intros a. rewrite H, <- Hw. reflexivity.
Qed.

Lemma scatters_ok ps d fuel index m (v : N -> vec) : size_ok ps -> w = ps * 2 ^ N.of_nat d -> (d < fuel)%nat -> forall c o mem,
  exists mem', scatters w upd2 fuel ps o c index m v mem = Some mem' /\
    forall a, mem' a = fold_left (fun acc b => fold_left (stepn ps (fun k => o + N.of_nat b * ps + index k) m (fun k y => v (o + N.of_nat b * ps + y) k) a) (lanes 0 (N.to_nat w)) acc) (seq 0 c) (mem a).
Proof.
  intros Hn Hw Bf. induction c as [|c IH]; intros o mem; cbn [scatters]; [exists mem; split; reflexivity|].
  destruct (scatter_fn_ok ps d fuel (fun k => o + index k) m (fun j => v (o + j)) mem Hn Hw Bf) as (m1 & -> & H1). cbn [bind].
  destruct (IH (o + ps) m1) as (m2 & -> & H2). exists m2. split; [reflexivity|]. intros a. rewrite H2, H1. cbn [seq fold_left]. rewrite <- seq_shift.
  change (N.of_nat 0) with 0. rewrite N.mul_0_l, N.add_0_r.
  assert (E : forall l acc, fold_left (fun acc b => fold_left (stepn ps (fun k => o + ps + N.of_nat b * ps + index k) m (fun k y => v (o + ps + N.of_nat b * ps + y) k) a) (lanes 0 (N.to_nat w)) acc) l acc =
     fold_left (fun acc b => fold_left (stepn ps (fun k => o + N.of_nat b * ps + index k) m (fun k y => v (o + N.of_nat b * ps + y) k) a) (lanes 0 (N.to_nat w)) acc) (map S l) acc).
  { clear. induction l as [|b l IH]; intros acc; [reflexivity|]. cbn [map fold_left]. rewrite IH. f_equal. apply fold_congr. intros k x _. unfold stepn.
    replace (o + N.of_nat (S b) * ps) with (o + ps + N.of_nat b * ps) by lia. reflexivity. }
  apply E.
Qed.

Lemma size_pow : forall fuel n e, (N.to_nat e < fuel)%nat -> n mod 2 = 0 -> 1 <= e ->
  exists e', packet_size fuel n (2 ^ e) = 2 ^ e' /\ n mod 2 ^ e' = 0 /\ 1 <= e' <= e.
Proof.
  induction fuel as [|fuel IH]; intros n e B Ev Be; [lia|]. cbn [packet_size].
  assert (L : N.land n (2 ^ e - 1) = n mod 2 ^ e) by (rewrite N.sub_1_r, <- N.ones_equiv; apply N.land_ones). rewrite L.
  destruct (N.eqb_spec (n mod 2 ^ e) 0) as [H|H]; [exists e; repeat split; auto; lia|].
  destruct (N.eq_dec e 1) as [->|He]; [exfalso; apply H; exact Ev|].
  replace (2 ^ e / 2) with (2 ^ (e - 1)). 2: { replace e with (N.succ (e - 1)) at 2 by lia. rewrite N.pow_succ_r by lia. rewrite N.mul_comm, N.div_mul; [reflexivity|discriminate]. }
  destruct (IH n (e - 1) ltac:(lia) Ev ltac:(lia)) as (e' & E1 & E2 & E3). exists e'. split; [assumption|]. split; [assumption|lia].
Qed.
Lemma size_small e : 1 <= e < 4 -> size_ok (2 ^ e).
Proof. intros B. assert (e = 1 \/ e = 2 \/ e = 3) as [->|[->| ->]] by lia; [now left|right; now left|now right; right]. Qed.

(** Packets equal their entries *)
Theorem render_ok e n fuel x m (val : N -> N -> V) mem : w = 2 ^ e -> 1 <= e -> n <> 0 -> n mod 2 = 0 -> (N.to_nat e < fuel)%nat ->
  exists mem', render_scatter w upd2 fuel n (fun k => x k * n) m (fun j k => Some (val j k)) mem = Some mem' /\
    forall a, mem' a = entry upd2 w n x m val (mem a) a.
Proof.
  intros Hw Be Nn Ev Bf. unfold render_scatter.
  assert (Hm : exists f, N.min 8 w = 2 ^ f /\ 1 <= f < 4 /\ f <= e).
  { rewrite Hw. destruct (N.lt_ge_cases e 4) as [B|B]; [exists e|exists 3].
    - split; [|lia]. apply N.min_r. assert (H : 2 ^ e <= 2 ^ 3) by (apply N.pow_le_mono_r; lia). exact H.
    - split; [|lia]. apply N.min_l. assert (H : 2 ^ 3 <= 2 ^ e) by (apply N.pow_le_mono_r; lia). exact H. }
  destruct Hm as (f & -> & Bf' & Bfe). destruct (size_pow 4 n f ltac:(lia) Ev ltac:(lia)) as (e' & -> & Dv & Be').
  set (ps := 2 ^ e') in *. assert (Pps : ps <> 0) by (apply N.pow_nonzero; discriminate).
  assert (Hn : n = n / ps * ps). { apply N.mod_divide in Dv; [|assumption]. destruct Dv as [q Hq]. rewrite Hq. now rewrite N.div_mul. }
  assert (Hd : w = ps * 2 ^ N.of_nat (N.to_nat (e - e'))).
  { unfold ps. rewrite N2Nat.id, <- N.pow_add_r. rewrite Hw. f_equal. lia. }
  destruct (scatters_ok ps (N.to_nat (e - e')) fuel (fun k => x k * n) m (fun j k => Some (val j k)) (size_small e' ltac:(lia)) Hd ltac:(lia) (N.to_nat (n / ps)) 0 mem) as (mem' & -> & H).
  exists mem'. split; [reflexivity|]. intros a. rewrite H. clear H. unfold entry.
  (* the piece that contains component a mod n *)
  pose proof (N.div_mod a n Nn) as Da. pose proof (N.mod_lt a n Nn) as Ma. set (q := a / n) in *. set (r := a mod n) in *.
  pose proof (N.div_mod r ps Pps) as Dr. pose proof (N.mod_lt r ps Pps) as Mr. set (b := r / ps) in *. set (y := r mod ps) in *.
  assert (Bb : b < n / ps). { apply N.div_lt_upper_bound; [assumption|]. lia. }
  set (F := fun acc b => fold_left (stepn ps (fun k => 0 + N.of_nat b * ps + x k * n) m (fun k z => Some (val (0 + N.of_nat b * ps + z) k)) a) (lanes 0 (N.to_nat w)) acc).
  assert (Same : forall k b', (b' < N.to_nat (n / ps))%nat -> (N.of_nat b' * ps + x k * n <= a < N.of_nat b' * ps + x k * n + ps) <-> (x k = q /\ N.of_nat b' = b)).
  { intros k b' Bb'. assert ((N.of_nat b' + 1) * ps <= n / ps * ps) by (apply N.mul_le_mono_r; lia). split.
    - intros [L R]. assert (Ex : x k = q).
      { destruct (N.lt_total (x k) q) as [Lt|[E|Gt]]; [|assumption|]; exfalso.
        - assert ((x k + 1) * n <= q * n) by (apply N.mul_le_mono_r; lia). lia.
        - assert ((q + 1) * n <= x k * n) by (apply N.mul_le_mono_r; lia). lia. }
      split; [assumption|]. rewrite Ex in *.
      destruct (N.lt_total (N.of_nat b') b) as [Lt|[E|Gt]]; [|assumption|]; exfalso.
      + assert ((N.of_nat b' + 1) * ps <= b * ps) by (apply N.mul_le_mono_r; lia). lia.
      + assert ((b + 1) * ps <= N.of_nat b' * ps) by (apply N.mul_le_mono_r; lia). lia.
    - intros [-> ->]. lia. }
  assert (Other : forall b' acc, (b' < N.to_nat (n / ps))%nat -> N.of_nat b' <> b -> F acc b' = acc).
  { intros b' acc Bb' Ne. apply fold_id. intros k z _. unfold stepn. destruct (m k); cbn [andb]; [|reflexivity]. specialize (Same k b' Bb'). rewrite N.add_0_l.
    destruct (N.leb_spec (N.of_nat b' * ps + x k * n) a); cbn [andb]; [|reflexivity]. destruct (N.ltb_spec a (N.of_nat b' * ps + x k * n + ps)); [|reflexivity]. tauto. }
  assert (This : forall acc, F acc (N.to_nat b) = fold_left (fun acc k => if m k && (x k =? q) then upd2 acc (val r k) else acc) (lanes 0 (N.to_nat w)) acc).
  { intros acc. apply fold_congr. intros k z _. unfold stepn. rewrite N2Nat.id, N.add_0_l. specialize (Same k (N.to_nat b) ltac:(lia)). rewrite N2Nat.id in Same.
    destruct (m k); cbn [andb]; [|reflexivity]. destruct (N.eqb_spec (x k) q) as [E|E].
    - destruct (proj2 Same (conj E eq_refl)) as [L R]. apply N.leb_le in L as L'. apply N.ltb_lt in R as R'. rewrite L', R'. cbn [andb].
      do 2 f_equal. rewrite E in *. lia.
    - destruct (N.leb_spec (b * ps + x k * n) a); cbn [andb]; [|reflexivity]. destruct (N.ltb_spec a (b * ps + x k * n + ps)); [|reflexivity]. tauto. }
  replace (N.to_nat (n / ps)) with (N.to_nat b + (1 + (N.to_nat (n / ps) - N.to_nat b - 1)))%nat by lia.
  rewrite seq_app, fold_left_app. rewrite (fold_id F (seq 0 (N.to_nat b))).
  2: { intros b' acc I. apply in_seq in I. apply Other; lia. }
  cbn [Nat.add]. cbn [seq fold_left]. rewrite (fold_id F (seq (S (N.to_nat b)) _)).
  2: { intros b' acc I. apply in_seq in I. apply Other; lia. }
  apply This.
Qed.

(** One scatter per component *)
Fixpoint separate (n j : N) (c : nat) (x : N -> N) (m : N -> bool) (val : N -> N -> V) (mem : memory) : memory :=
  match c with
  | O => mem
  | S c => separate n (j + 1) c x m val (scatter1 w upd2 (fun k => x k * n + j) m (fun k => Some (val j k)) mem)
  end.
Lemma scatter1_at index m (val : N -> V) mem a :
  scatter1 w upd2 index m (fun k => Some (val k)) mem a = fold_left (fun acc k => if m k && (index k =? a) then upd2 acc (val k) else acc) (lanes 0 (N.to_nat w)) (mem a).
Proof.
  unfold scatter1. rewrite lanes_seq. replace (map (fun j => 0 + N.of_nat j) (seq 0 (N.to_nat w))) with (map N.of_nat (seq 0 (N.to_nat w))) by (apply map_ext; intros; lia).
  rewrite (store_fold 1 index m (fun k _ => Some (val k)) (fun k _ => Some (val k))) by reflexivity.
  apply fold_congr. intros k acc _. unfold stepn. destruct (m k); cbn [andb]; [|reflexivity].
  destruct (N.eqb_spec (index k) a) as [->|Ne].
  - destruct (N.leb_spec a a); [|lia]. destruct (N.ltb_spec a (a + 1)); [reflexivity|lia].
  - destruct (N.leb_spec (index k) a); cbn [andb]; [|reflexivity]. destruct (N.ltb_spec a (index k + 1)); [lia|reflexivity].
Qed.
Lemma separate_at n x m val a : n <> 0 -> forall c j mem, j + N.of_nat c <= n ->
  separate n j c x m val mem a = if (j <=? a mod n) && (a mod n <? j + N.of_nat c) then entry upd2 w n x m val (mem a) a else mem a.
Proof.
  intros Nn. induction c as [|c IH]; intros j mem B; cbn [separate].
  { destruct (N.leb_spec j (a mod n)); cbn [andb]; [|reflexivity]. destruct (N.ltb_spec (a mod n) (j + N.of_nat 0)); [lia|reflexivity]. }
  rewrite IH by lia. rewrite scatter1_at. pose proof (N.div_mod a n Nn) as Da. pose proof (N.mod_lt a n Nn) as Ma. unfold entry.
  set (q := a / n) in *. set (r := a mod n) in *.
  destruct (N.eq_dec r j) as [E|Ne].
  - rewrite E. destruct (N.leb_spec (j + 1) j); [lia|]. cbn [andb]. destruct (N.leb_spec j j); [|lia]. destruct (N.ltb_spec j (j + N.of_nat (S c))); [|lia]. cbn [andb].
    apply fold_congr. intros k acc _. destruct (m k); cbn [andb]; [|reflexivity].
    destruct (N.eqb_spec (x k) q) as [Ex|Ex]; destruct (N.eqb_spec (x k * n + j) a) as [Ea|Ea]; try reflexivity; exfalso.
    + apply Ea. rewrite Ex. lia.
    + apply Ex. destruct (N.lt_total (x k) q) as [Lt|[Eq|Gt]]; [exfalso|assumption|exfalso].
      * assert ((x k + 1) * n <= q * n) by (apply N.mul_le_mono_r; lia). lia.
      * assert ((q + 1) * n <= x k * n) by (apply N.mul_le_mono_r; lia). lia.
  - rewrite (fold_id (fun acc k => if m k && (x k * n + j =? a) then upd2 acc (val j k) else acc)).
    + destruct (N.leb_spec (j + 1) r), (N.leb_spec j r); try lia; cbn [andb]; [|reflexivity].
      destruct (N.ltb_spec r (j + 1 + N.of_nat c)), (N.ltb_spec r (j + N.of_nat (S c))); try lia; reflexivity.
    + intros k acc _. destruct (m k); cbn [andb]; [|reflexivity]. destruct (N.eqb_spec (x k * n + j) a) as [Ea|Ea]; [exfalso|reflexivity].
      apply Ne. unfold r. rewrite <- Ea. rewrite N.add_comm, N.mod_add by assumption. apply N.mod_small. lia.
Qed.
Theorem separate_ok n x m val mem a : n <> 0 -> separate n 0 (N.to_nat n) x m val mem a = entry upd2 w n x m val (mem a) a.
Proof.
  intros Nn. rewrite separate_at by lia. pose proof (N.mod_lt a n Nn). destruct (N.leb_spec 0 (a mod n)); [|lia]. destruct (N.ltb_spec (a mod n) (0 + N.of_nat (N.to_nat n))); [reflexivity|lia].
Qed.
End Packet.

(** Alignment *)
Lemma mod_trans a b c : c <> 0 -> (c | b) -> a mod b = 0 -> b <> 0 -> a mod c = 0.
Proof. intros Nc D H Nb. apply N.mod_divide in H; [|assumption]. apply N.mod_divide; [assumption|]. eapply N.divide_trans; eassumption. Qed.
Lemma pow_min a b : N.min (2 ^ a) (2 ^ b) = 2 ^ N.min a b.
Proof.
  destruct (N.le_ge_cases a b) as [H|H].
  - rewrite (N.min_l a b) by assumption. apply N.min_l. apply N.pow_le_mono_r; lia.
  - rewrite (N.min_r a b) by assumption. apply N.min_r. apply N.pow_le_mono_r; lia.
Qed.
Lemma aligned_ok e t n base x b : 1 <= e -> t <= 3 -> n <> 0 -> n mod 2 = 0 -> unaligned (2 ^ e) base (2 ^ t) = false ->
  let ps := packet_size 4 n (N.min 8 (2 ^ e)) in
  store_addr base (2 ^ t) (x * n) (b * ps) mod store_align ps (2 ^ t) = 0.
Proof.
  intros Be Bt Nn Ev U. unfold unaligned in U. apply Bool.negb_false_iff, N.eqb_eq in U. change 64 with (2 ^ 6) in U. change 8 with (2 ^ 3). cbn zeta. rewrite pow_min.
  rewrite <- N.pow_add_r, pow_min in U.
  destruct (size_pow 4 n (N.min 3 e) ltac:(lia) Ev ltac:(lia)) as (e' & -> & Dv & Be'). unfold store_addr, store_align.
  rewrite <- N.pow_add_r. set (c := 2 ^ (t + e')). assert (Nc : c <> 0) by (apply N.pow_nonzero; discriminate).
  apply N.mod_divide; [assumption|]. apply N.divide_add_r.
  - apply N.mod_divide; [assumption|]. eapply mod_trans; [assumption| |exact U|apply N.pow_nonzero; discriminate].
    exists (2 ^ (N.min 6 (e + t) - (t + e'))). unfold c. rewrite <- N.pow_add_r. f_equal. lia.
  - unfold c. rewrite N.pow_add_r. apply N.mul_divide_mono_l. apply N.divide_add_r; [apply N.divide_factor_r|].
    apply N.divide_mul_r. apply N.mod_divide; [apply N.pow_nonzero; discriminate|assumption].
Qed.

(** Skipped operations *)
Section Skip.
Implicit Types (m : N -> bool) (val : N -> N -> N).
Lemma skip_ok packet add is_add mode threshold size w n x m val old mask target values :
  (forall a, add a 0 = a) -> n <> 0 -> length values = N.to_nat n ->
  (forall l, mask = Some l -> forall k, m k = negb (l =? 0)) ->
  (forall l, target = Some l -> old = l) ->
  (forall j l, nth_error values (N.to_nat j) = Some (Some l) -> forall k, val j k = l) ->
  strategy_of packet is_add mode threshold size n mask target values = SSkip ->
  forall a, entry (fun old new => if is_add then add old new else new) w n x m val old a = old.
Proof.
  intros A0 Nn Len Hm Ht Hv. unfold strategy_of.
  assert (Each : forall f, forallb f values = true -> forall j, j < n -> exists v, nth_error values (N.to_nat j) = Some v /\ f v = true).
  { intros f F j Bj. destruct (nth_error values (N.to_nat j)) as [v|] eqn:E; [|apply nth_error_None in E; lia].
    exists v. split; [reflexivity|]. rewrite forallb_forall in F. apply F. eapply nth_error_In; exact E. }
  destruct (match mask with Some x => x =? 0 | None => false end) eqn:E1.
  - intros _ a. destruct mask as [l|]; [|discriminate]. apply fold_id. intros k acc _. rewrite (Hm l eq_refl k), E1. reflexivity.
  - destruct (forallb _ values) eqn:E2 at 1; cbn [andb]; [destruct is_add eqn:Ea|].
    + intros _ a. apply fold_id. intros k acc _. destruct (Each _ E2 (a mod n) (N.mod_lt a n Nn)) as (v & Ev & Fv). destruct v as [l|]; [|discriminate].
      apply N.eqb_eq in Fv. subst l. rewrite (Hv _ _ Ev). rewrite A0. now destruct (m k && _).
    + destruct (forallb (fun v => match v, target with Some a, Some b => a =? b | _, _ => false end) values) eqn:E3; cbn [andb negb].
      * intros _ a. unfold entry. assert (G : forall l acc, acc = old -> fold_left (fun acc k => if m k && (x k =? a / n) then val (a mod n) k else acc) l acc = old); [|now apply G].
        induction l as [|k l IH]; intros acc Ha; [assumption|]. cbn [fold_left]. apply IH. destruct (m k && _); [|assumption].
        destruct (Each _ E3 (a mod n) (N.mod_lt a n Nn)) as (v & Ev & Fv). destruct v as [l0|]; [|discriminate]. destruct target as [t|]; [|discriminate].
        apply N.eqb_eq in Fv. subst l0. rewrite (Hv _ _ Ev). symmetry. now apply Ht.
      * destruct packet; [destruct mode; cbn; try discriminate; destruct ((1 <? n) && _); discriminate|discriminate].
    + destruct (forallb (fun v => match v, target with Some a, Some b => a =? b | _, _ => false end) values) eqn:E3; cbn [andb].
      * destruct is_add eqn:Ea; cbn [negb].
        -- destruct packet; [destruct mode; cbn; try discriminate; try (destruct (size <=? threshold)); try destruct ((1 <? n) && _); try discriminate; destruct (1 <? n); cbn; try discriminate; destruct (n mod 2 =? 0); discriminate|discriminate].
        -- intros _ a. unfold entry. assert (G : forall l acc, acc = old -> fold_left (fun acc k => if m k && (x k =? a / n) then val (a mod n) k else acc) l acc = old); [|now apply G].
           induction l as [|k l IH]; intros acc Ha; [assumption|]. cbn [fold_left]. apply IH. destruct (m k && _); [|assumption].
           destruct (Each _ E3 (a mod n) (N.mod_lt a n Nn)) as (v & Ev & Fv). destruct v as [l0|]; [|discriminate]. destruct target as [t|]; [|discriminate].
           apply N.eqb_eq in Fv. subst l0. rewrite (Hv _ _ Ev). symmetry. now apply Ht.
      * cbn [andb]. match goal with |- (if ?b then _ else _) = _ -> _ => destruct b; discriminate end.
Qed.
End Skip.

(** Several vectors *)
Section Blocks.
Context {V : Type}.
Variable upd2 : V -> V -> V.
Variable w : N.
(** The packet instruction, executed for every vector *)
Fixpoint packets (fuel : nat) (n : N) (bs : list (block V)) (mem : memory (V := V)) : option memory :=
  match bs with
  | [] => Some mem
  | (x, m, val) :: bs => let? mem := render_scatter w upd2 fuel n (fun k => x k * n) m (fun j k => Some (val j k)) mem in packets fuel n bs mem
  end.
(** One scatter operation per component, executed for every vector *)
Fixpoint separates (n : N) (bs : list (block V)) (mem : memory (V := V)) : memory :=
  match bs with
  | [] => mem
  | (x, m, val) :: bs => separates n bs (separate w upd2 n 0 (N.to_nat n) x m val mem)
  end.
Lemma packets_ok e n fuel : w = 2 ^ e -> 1 <= e -> n <> 0 -> n mod 2 = 0 -> (N.to_nat e < fuel)%nat -> forall bs mem,
  exists mem', packets fuel n bs mem = Some mem' /\ forall a, mem' a = entries upd2 w n bs (mem a) a.
Proof.
  intros Hw Be Nn Ev Bf. induction bs as [|[[x m] val] bs IH]; intros mem; cbn [packets]; [exists mem; split; reflexivity|].
  destruct (render_ok w upd2 e n fuel x m val mem Hw Be Nn Ev Bf) as (m1 & -> & H1). cbn [bind]. destruct (IH m1) as (m2 & -> & H2).
  exists m2. split; [reflexivity|]. intros a. rewrite H2, H1. reflexivity.
Qed.
Lemma separates_ok n : n <> 0 -> forall bs mem a, separates n bs mem a = entries upd2 w n bs (mem a) a.
Proof.
  intros Nn. induction bs as [|[[x m] val] bs IH]; intros mem a; cbn [separates]; [reflexivity|]. rewrite IH, separate_ok by assumption. reflexivity.
Qed.
End Blocks.
