(** Conjunction and disjunction of masks by words. *)
From Verif Require Import Base Agg_Model Agg_Spec Agg_Inv.
Local Open Scope N_scope.

Lemma in_upto n l : In l (upto n) <-> l < n.
Proof.
  unfold upto. rewrite in_map_iff. split.
  - intros (k & <- & K). apply in_seq in K. lia.
  - intros L. exists (N.to_nat l). split; [lia|]. apply in_seq. lia.
Qed.
Lemma upto_length n : length (upto n) = N.to_nat n.
Proof. unfold upto. now rewrite map_length, seq_length. Qed.
Lemma upto_nth n k d : k < n -> nth (N.to_nat k) (upto n) d = k.
Proof.
  intros L. unfold upto. rewrite (nth_indep _ d (N.of_nat 0)) by (rewrite map_length, seq_length; lia).
  rewrite map_nth, seq_nth by lia. lia.
Qed.
Lemma upto_S n : upto (n + 1) = upto n ++ [n].
Proof.
  unfold upto. replace (N.to_nat (n + 1)) with (S (N.to_nat n)) by lia. rewrite seq_S, map_app. cbn. f_equal. f_equal. lia.
Qed.
Lemma upto_0 : upto 0 = []. Proof. reflexivity. Qed.

(** ** Bytes of words *)
Lemma byte_land x : byte x = Z.land x 255.
Proof. unfold byte. change 255%Z with (Z.ones 8). rewrite Z.land_ones by lia. reflexivity. Qed.
Lemma byte_of_bitop o a b k : byte_of (bitop o a b) k = bitop o (byte_of a k) (byte_of b k).
Proof.
  unfold byte_of. rewrite !byte_land. destruct o; cbn [bitop].
  all: try (rewrite Z.shiftr_land; apply Z.bits_inj'; intros n Hn; rewrite !Z.land_spec; destruct (Z.testbit _ n), (Z.testbit _ n), (Z.testbit _ n); reflexivity).
  rewrite Z.shiftr_lor. apply Z.bits_inj'. intros n Hn. rewrite !Z.land_spec, !Z.lor_spec, !Z.land_spec.
  now destruct (Z.testbit _ n), (Z.testbit _ n), (Z.testbit _ n).
Qed.
Lemma byte_range x : (0 <= byte x < 256)%Z.
Proof. unfold byte. apply Z.mod_pos_bound. lia. Qed.
Lemma byte_of_word d w k : k < 4 -> byte_of (word d w) (Z.of_N k) = byte (d (4 * w + k)).
Proof.
  intros K. unfold byte_of, word. rewrite Z.shiftr_div_pow2 by lia.
  pose proof (byte_range (d (4 * w))). pose proof (byte_range (d (4 * w + 1))).
  pose proof (byte_range (d (4 * w + 2))). pose proof (byte_range (d (4 * w + 3))).
  assert (C : k = 0 \/ k = 1 \/ k = 2 \/ k = 3) by lia. destruct C as [->|[->|[->| ->]]].
  - rewrite N.add_0_r. change (2 ^ (8 * Z.of_N 0))%Z with 1%Z. generalize dependent (byte (d (4 * w))). intros. unfold byte at 1. lia.
  - change (2 ^ (8 * Z.of_N 1))%Z with 256%Z. generalize dependent (byte (d (4 * w + 1))). intros. unfold byte at 1. lia.
  - change (2 ^ (8 * Z.of_N 2))%Z with 65536%Z. generalize dependent (byte (d (4 * w + 2))). intros. unfold byte at 1. lia.
  - change (2 ^ (8 * Z.of_N 3))%Z with 16777216%Z. generalize dependent (byte (d (4 * w + 3))). intros. unfold byte at 1. lia.
Qed.
Lemma byte_of_fold o d k ws : k < 4 -> forall a,
  byte_of (fold_left (fun r w => bitop o r (word d w)) ws a) (Z.of_N k) =
  fold_left (bitop o) (map (fun w => byte (d (4 * w + k))) ws) (byte_of a (Z.of_N k)).
Proof.
  intros K. induction ws as [|w ws IH]; intros a; cbn; auto.
  rewrite IH, byte_of_bitop, byte_of_word; auto.
Qed.

(** ** Lists of zeros and ones *)
Definition bit (x : Z) : Prop := x = 0%Z \/ x = 1%Z.
Definition nz (x : Z) : bool := negb (x =? 0)%Z.
Lemma bit_byte x : bit x -> byte x = x. Proof. intros [->| ->]; reflexivity. Qed.
Lemma or_list l : forall a, Forall bit l -> fold_left Z.lor l (b2z a) = b2z (a || existsb nz l).
Proof.
  induction l as [|x l IH]; intros a F; cbn; [now rewrite orb_false_r|].
  inversion F as [|y r B F']; subst. replace (Z.lor (b2z a) x) with (b2z (a || nz x)).
  - rewrite IH by auto. now rewrite orb_assoc.
  - destruct B as [->| ->], a; reflexivity.
Qed.
Lemma and_list l : forall a, Forall bit l -> fold_left Z.land l (b2z a) = b2z (a && forallb nz l).
Proof.
  induction l as [|x l IH]; intros a F; cbn; [now rewrite andb_true_r|].
  inversion F as [|y r B F']; subst. replace (Z.land (b2z a) x) with (b2z (a && nz x)).
  - rewrite IH by auto. now rewrite andb_assoc.
  - destruct B as [->| ->], a; reflexivity.
Qed.
Lemma and_list_255 l : l <> [] -> Forall bit l -> fold_left Z.land l 255%Z = b2z (forallb nz l).
Proof.
  destruct l as [|x l]; [congruence|]. intros _ F. inversion F as [|y r B F']; subst. cbn.
  replace (Z.land 255 x) with (b2z (nz x)) by (destruct B as [->| ->]; reflexivity). now apply and_list.
Qed.
Definition chosen (o : rop) (p : list bool) : bool := match o with Or => existsb (fun b => b) p | _ => forallb (fun b => b) p end.

(** ** The result *)
Section Result.
Variables (d : N -> Z) (n : N).
Hypothesis bd : forall l, l < 4 * n -> bit (d l).
Hypothesis n0 : 0 < n.
Definition col (k : N) : list Z := map (fun w => byte (d (4 * w + k))) (upto n).
Lemma col_bits k : k < 4 -> Forall bit (col k).
Proof.
  intros K. apply Forall_map, Forall_forall. intros w W. apply in_upto in W.
  rewrite bit_byte; apply bd; lia.
Qed.
Lemma col_nonempty k : col k <> [].
Proof. intros E. apply (f_equal (@length Z)) in E. unfold col in E. rewrite map_length, upto_length in E. cbn in E. lia. Qed.
Definition folded (o : rop) : Z := fold_left (fun r w => bitop o r (word d w)) (upto n) (ident o 0xffffffff%Z).
Lemma byte_or k : k < 4 -> byte_of (folded Or) (Z.of_N k) = b2z (existsb nz (col k)).
Proof.
  intros K. unfold folded. rewrite byte_of_fold by auto. fold (col k). cbn [ident bitop].
  replace (byte_of 0 (Z.of_N k)) with (b2z false) by (unfold byte_of; now rewrite Z.shiftr_0_l).
  now rewrite or_list by (now apply col_bits).
Qed.
Lemma byte_and k : k < 4 -> byte_of (folded And) (Z.of_N k) = b2z (forallb nz (col k)).
Proof.
  intros K. unfold folded. rewrite byte_of_fold by auto. fold (col k). cbn [ident bitop].
  replace (byte_of 0xffffffff (Z.of_N k)) with 255%Z.
  - apply and_list_255; [apply col_nonempty|now apply col_bits].
  - assert (C : k = 0 \/ k = 1 \/ k = 2 \/ k = 3) by lia. destruct C as [->|[->|[->| ->]]]; reflexivity.
Qed.
Definition lanes : list Z := map d (upto (4 * n)).
Lemma cols_or : existsb nz (col 0) || existsb nz (col 1) || existsb nz (col 2) || existsb nz (col 3) = existsb nz lanes.
Proof.
  apply eq_true_iff_eq. rewrite !orb_true_iff, !existsb_exists. split.
  - assert (G : forall k, k < 4 -> (exists x, In x (col k) /\ nz x = true) -> exists x, In x lanes /\ nz x = true).
    { intros k K (x & X & Nx). unfold col in X. apply in_map_iff in X. destruct X as (w & <- & W). apply in_upto in W.
      rewrite bit_byte in Nx by (apply bd; lia). eexists. split; [|exact Nx]. apply in_map. apply in_upto. lia. }
    intros [[[H|H]|H]|H]; [apply (G 0)|apply (G 1)|apply (G 2)|apply (G 3)]; auto; lia.
  - intros (x & X & Nx). apply in_map_iff in X. destruct X as (l & <- & L). apply in_upto in L.
    assert (G : forall k, k < 4 -> l mod 4 = k -> exists x, In x (col k) /\ nz x = true).
    { intros k K M. exists (byte (d (4 * (l / 4) + k))). replace (4 * (l / 4) + k) with l by lia.
      split; [|rewrite bit_byte; auto]. unfold col. apply in_map_iff. exists (l / 4). split; [|apply in_upto; lia].
      f_equal. f_equal. lia. }
    assert (C : l mod 4 = 0 \/ l mod 4 = 1 \/ l mod 4 = 2 \/ l mod 4 = 3) by lia.
    destruct C as [C|[C|[C|C]]]; [left; left; left|left; left; right|left; right|right]; apply G; auto; lia.
Qed.
Lemma cols_and : forallb nz (col 0) && forallb nz (col 1) && forallb nz (col 2) && forallb nz (col 3) = forallb nz lanes.
Proof.
  apply eq_true_iff_eq. rewrite !andb_true_iff, !forallb_forall. split.
  - intros (((H0 & H1) & H2) & H3) x X. apply in_map_iff in X. destruct X as (l & <- & L). apply in_upto in L.
    assert (G : forall k, k < 4 -> l mod 4 = k -> (forall x, In x (col k) -> nz x = true) -> nz (d l) = true).
    { intros k K M H. rewrite <- (bit_byte (d l)) by auto. apply H. unfold col. apply in_map_iff. exists (l / 4).
      split; [f_equal; f_equal; lia|apply in_upto; lia]. }
    assert (C : l mod 4 = 0 \/ l mod 4 = 1 \/ l mod 4 = 2 \/ l mod 4 = 3) by lia.
    destruct C as [C|[C|[C|C]]]; eapply G; try exact C; auto; lia.
  - intros H. assert (G : forall k, k < 4 -> forall x, In x (col k) -> nz x = true).
    { intros k K x X. unfold col in X. apply in_map_iff in X. destruct X as (w & <- & W). apply in_upto in W.
      rewrite bit_byte by (apply bd; lia). apply H. apply in_map. apply in_upto. lia. }
    repeat split; apply G; lia.
Qed.
Definition asked (o : rop) : bool := match o with Or => existsb nz lanes | _ => forallb nz lanes end.
Lemma b2z_or a b : Z.lor (b2z a) (b2z b) = b2z (a || b). Proof. now destruct a, b. Qed.
Lemma b2z_and a b : Z.land (b2z a) (b2z b) = b2z (a && b). Proof. now destruct a, b. Qed.
Lemma combine4_or : combine4 Or (folded Or) = b2z (asked Or).
Proof.
  unfold combine4. cbn [bitop]. change 0%Z with (Z.of_N 0). change 1%Z with (Z.of_N 1). change 2%Z with (Z.of_N 2). change 3%Z with (Z.of_N 3).
  rewrite !byte_or by lia. rewrite !b2z_or. cbn [asked]. now rewrite cols_or.
Qed.
Lemma combine4_and : combine4 And (folded And) = b2z (asked And).
Proof.
  unfold combine4. cbn [bitop]. change 0%Z with (Z.of_N 0). change 1%Z with (Z.of_N 1). change 2%Z with (Z.of_N 2). change 3%Z with (Z.of_N 3).
  rewrite !byte_and by lia. rewrite !b2z_and. cbn [asked]. now rewrite cols_and.
Qed.
Lemma combine4_async_or : combine4_async Or (folded Or) = b2z (asked Or).
Proof.
  rewrite <- combine4_or. unfold combine4_async, combine4. cbn [fold_left bitop ident]. now rewrite Z.lor_0_l.
Qed.
Lemma combine4_async_and : combine4_async And (folded And) = b2z (asked And).
Proof.
  rewrite <- combine4_and. unfold combine4_async, combine4. cbn [fold_left bitop ident].
  rewrite (Z.land_comm 255), <- byte_land. do 3 f_equal. unfold byte_of, byte. now rewrite Z.mod_mod by lia.
Qed.
End Result.
