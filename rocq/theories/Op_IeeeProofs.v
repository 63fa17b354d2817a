(** The laws of Op_FSpec hold for IEEE 754 arithmetic. *)
From Coq Require Import Floats.SpecFloat.
From Verif Require Import Base Op_Model Op_FSpec Op_Ieee Op_Bits.
Local Open Scope Z_scope.

(** [m * 2 ^ k] *)
Definition sh (k : nat) (m : positive) : positive := Nat.iter k xO m.
Lemma sh_val : forall k m, Zpos (sh k m) = Zpos m * 2 ^ Z.of_nat k.
Proof.
  induction k; intros; [cbn; lia|]. rewrite Nat2Z.inj_succ, Z.pow_succ_r by lia. change (sh (S k) m) with (xO (sh k m)).
  change (Zpos (xO (sh k m))) with (2 * Zpos (sh k m)). rewrite IHk. ring.
Qed.
Lemma sh_digits : forall k m, Zpos (digits2_pos (sh k m)) = Zpos (digits2_pos m) + Z.of_nat k.
Proof.
  induction k; intros; [cbn; lia|]. change (sh (S k) m) with (xO (sh k m)). cbn [digits2_pos]. rewrite Pos2Z.inj_succ, IHk. lia.
Qed.
Lemma sh_sh : forall j k m, sh j (sh k m) = sh (j + k) m.
Proof. induction j; intros; [reflexivity|]. cbn [Nat.add]. change (xO (sh j (sh k m)) = xO (sh (j + k) m)). now rewrite IHj. Qed.
Lemma iter_app : forall A (f : A -> A) a b x, Nat.iter (a + b) f x = Nat.iter a f (Nat.iter b f x).
Proof. induction a; intros; [reflexivity|]. change (f (Nat.iter (a + b) f x) = f (Nat.iter a f (Nat.iter b f x))). now rewrite IHa. Qed.
Lemma iter_comm : forall A (f : A -> A) a x, Nat.iter a f (f x) = f (Nat.iter a f x).
Proof. induction a; intros; [reflexivity|]. change (f (Nat.iter a f (f x)) = f (f (Nat.iter a f x))). now rewrite IHa. Qed.
Lemma iter_pos_nat : forall A (f : A -> A) p x, SpecFloat.iter_pos f p x = Nat.iter (Pos.to_nat p) f x.
Proof.
  induction p; intros; cbn [SpecFloat.iter_pos].
  - rewrite !IHp, <- iter_app, iter_comm. rewrite Pos2Nat.inj_xI. replace (S (2 * Pos.to_nat p)) with (S (Pos.to_nat p + Pos.to_nat p))%nat by lia. reflexivity.
  - rewrite !IHp, <- iter_app. f_equal. lia.
  - reflexivity.
Qed.
Lemma shift_pos_sh : forall d m, shift_pos d m = sh (Pos.to_nat d) m.
Proof. intros. unfold shift_pos, sh. apply Pos2Nat.inj_iter. Qed.
Lemma shr_nat : forall r e n, shr r e n = (Nat.iter (Z.to_nat n) shr_1 r, e + Z.max n 0).
Proof.
  intros r e [|p|p]; cbn [shr].
  - cbn. now rewrite Z.add_0_r.
  - rewrite iter_pos_nat. f_equal.
  - cbn. now rewrite Z.add_0_r.
Qed.
Lemma shr_sh : forall k m, Nat.iter k shr_1 (Build_shr_record (Zpos (sh k m)) false false) = Build_shr_record (Zpos m) false false.
Proof.
  induction k; intros; [reflexivity|]. match goal with |- Nat.iter (S k) ?f ?r = _ => change (Nat.iter (S k) f r) with (f (Nat.iter k f r)) end. rewrite <- iter_comm. change (shr_1 (Build_shr_record (Zpos (sh (S k) m)) false false)) with (Build_shr_record (Zpos (sh k m)) false false). apply IHk. Qed.

Section Round.
Variables prec emax : Z.
Notation fexp := (fexp prec emax).
Notation shr_fexp := (shr_fexp prec emax).
Notation round_aux := (binary_round_aux prec emax).
Notation round := (binary_round prec emax).
Notation normalize := (binary_normalize prec emax).

Lemma shr_scale : forall k m e, e <= fexp (Zpos (digits2_pos m) + e) ->
  shr_fexp (Zpos (sh k m)) (e - Z.of_nat k) loc_Exact = shr_fexp (Zpos m) e loc_Exact.
Proof.
  intros k m e H. unfold SpecFloat.shr_fexp. cbn [Zdigits2 shr_record_of_loc]. rewrite sh_digits, !shr_nat.
  replace (Zpos (digits2_pos m) + Z.of_nat k + (e - Z.of_nat k)) with (Zpos (digits2_pos m) + e) by lia.
  set (E := fexp (Zpos (digits2_pos m) + e)) in *. clearbody E. f_equal; [|lia].
  replace (Z.to_nat (E - (e - Z.of_nat k))) with (Z.to_nat (E - e) + k)%nat by lia. rewrite iter_app, shr_sh. reflexivity.
Qed.
Lemma aux_scale : forall s k m e, e <= fexp (Zpos (digits2_pos m) + e) ->
  round_aux s (Zpos (sh k m)) (e - Z.of_nat k) loc_Exact = round_aux s (Zpos m) e loc_Exact.
Proof. intros. unfold SpecFloat.binary_round_aux. now rewrite shr_scale. Qed.
Lemma canon : forall s k m e, bounded prec emax m e = true ->
  round_aux s (Zpos (sh k m)) (e - Z.of_nat k) loc_Exact = S754_finite s m e.
Proof.
  intros s k m e B. unfold bounded, canonical_mantissa in B. apply andb_prop in B as [B1 B2]. apply Zeq_bool_eq in B1.
  rewrite aux_scale by lia. unfold SpecFloat.binary_round_aux, SpecFloat.shr_fexp. cbn [Zdigits2 shr_record_of_loc]. rewrite B1, Z.sub_diag. cbn [shr shr_m loc_of_shr_record round_nearest_even Zdigits2 shr_record_of_loc].
  rewrite B1, Z.sub_diag. cbn [shr shr_m]. now rewrite B2.
Qed.
Lemma align_eq : forall m e e', shl_align m e e' = if e' <? e then (sh (Z.to_nat (e - e')) m, e') else (m, e).
Proof.
  intros. unfold shl_align. destruct (e' - e) eqn:D; (destruct (e' <? e) eqn:L; [apply Z.ltb_lt in L|apply Z.ltb_ge in L]); try lia; try reflexivity.
  rewrite shift_pos_sh. do 2 f_equal. lia.
Qed.
Lemma round_scale : forall s k m e, round s (sh k m) (e - Z.of_nat k) = round s m e.
Proof.
  intros. unfold SpecFloat.binary_round. rewrite sh_digits. replace (Zpos (digits2_pos m) + Z.of_nat k + (e - Z.of_nat k)) with (Zpos (digits2_pos m) + e) by lia.
  set (E := fexp (Zpos (digits2_pos m) + e)). rewrite !align_eq.
  destruct (E <? e - Z.of_nat k) eqn:A; [apply Z.ltb_lt in A|apply Z.ltb_ge in A]; (destruct (E <? e) eqn:B; [apply Z.ltb_lt in B|apply Z.ltb_ge in B]); try lia.
  - rewrite sh_sh. do 3 f_equal. lia.
  - replace k with ((Z.to_nat (E - (e - Z.of_nat k))) + Z.to_nat (e - E))%nat at 1 by lia. rewrite <- sh_sh.
    replace (e - Z.of_nat k) with (E - Z.of_nat (Z.to_nat (E - (e - Z.of_nat k)))) at 2 by lia.
    apply aux_scale. rewrite sh_digits. replace (Zpos (digits2_pos m) + Z.of_nat (Z.to_nat (e - E)) + E) with (Zpos (digits2_pos m) + e) by lia. fold E. lia.
  - apply aux_scale. fold E. lia.
Qed.
Lemma norm_scale : forall M k e z, normalize (M * 2 ^ Z.of_nat k) (e - Z.of_nat k) z = normalize M e z.
Proof.
  intros [|p|p] k e z; [reflexivity| |].
  - rewrite <- sh_val. apply round_scale.
  - change (Zneg p) with (- Zpos p). rewrite Z.mul_opp_l, <- sh_val. apply round_scale.
Qed.
Lemma align_val : forall m e e', e' <= e -> Zpos (fst (shl_align m e e')) = Zpos m * 2 ^ (e - e').
Proof.
  intros m e e' H. rewrite align_eq. destruct (e' <? e) eqn:L; [apply Z.ltb_lt in L|apply Z.ltb_ge in L]; cbn [fst].
  - rewrite sh_val. rewrite Z2Nat.id by lia. reflexivity.
  - replace (e - e') with 0 by lia. change (2 ^ 0) with 1. lia.
Qed.
Lemma opp_scale : forall s a b, cond_Zopp s (a * b) = cond_Zopp s a * b.
Proof. intros [|] a b; cbn; ring. Qed.
Lemma sum_scale : forall sx sy m k ex my ey, (0 <= k) ->
  normalize (cond_Zopp sx (Zpos (fst (shl_align (sh (Z.to_nat k) m) (ex - k) (Z.min (ex - k) ey)))) + cond_Zopp sy (Zpos (fst (shl_align my ey (Z.min (ex - k) ey))))) (Z.min (ex - k) ey) false =
  normalize (cond_Zopp sx (Zpos (fst (shl_align m ex (Z.min ex ey)))) + cond_Zopp sy (Zpos (fst (shl_align my ey (Z.min ex ey))))) (Z.min ex ey) false.
Proof.
  intros sx sy m k ex my ey K. rewrite !align_val by lia. rewrite sh_val, Z2Nat.id by lia.
  set (j := Z.min ex ey - Z.min (ex - k) ey). assert (J : 0 <= j) by lia.
  etransitivity; [|apply (norm_scale _ (Z.to_nat j))]. rewrite Z2Nat.id by exact J. subst j. f_equal; [|lia].
  rewrite Z.mul_add_distr_r. rewrite <- !opp_scale. f_equal; f_equal.
  - rewrite <- !Z.mul_assoc, <- !Z.pow_add_r by lia. do 2 f_equal. lia.
  - rewrite <- !Z.mul_assoc, <- !Z.pow_add_r by lia. do 2 f_equal. lia.
Qed.

(** Neutral operands of the operations on decoded numbers; [one] is [2^k * 2^-k]. *)
Variable k : nat.
Let one := S754_finite false (sh k 1) (- Z.of_nat k).
Lemma sh_mul_l : forall j m, (sh j 1 * m)%positive = sh j m.
Proof. intros. apply Pos2Z.inj. rewrite Pos2Z.inj_mul, !sh_val. lia. Qed.
Lemma sh_mul_r : forall j m, (m * sh j 1)%positive = sh j m.
Proof. intros. rewrite Pos.mul_comm. apply sh_mul_l. Qed.
Lemma mul_one_l : forall x, valid_binary prec emax x = true -> SFmul prec emax one x = x.
Proof.
  intros [s|s| |s m e] V; cbn [SFmul one xorb]; try (now destruct s). { reflexivity. }
  rewrite sh_mul_l. replace (- Z.of_nat k + e) with (e - Z.of_nat k) by lia. replace (if s then true else false) with s by now destruct s. now apply canon.
Qed.
Lemma mul_one_r : forall x, valid_binary prec emax x = true -> SFmul prec emax x one = x.
Proof.
  intros [s|s| |s m e] V; cbn [SFmul one]; rewrite ?xorb_false_r; try reflexivity.
  rewrite sh_mul_r. now apply canon.
Qed.
Lemma div_one_r : forall x, (0 < k)%nat -> valid_binary prec emax x = true -> SFdiv prec emax x one = x.
Proof.
  intros [s|s| |s m e] K V; cbn [SFdiv one]; rewrite ?xorb_false_r; try reflexivity.
  unfold SFdiv_core_binary. cbn [Zdigits2]. rewrite sh_digits. cbn [digits2_pos].
  set (E := fexp (Zpos (digits2_pos m) + e - (1 + Z.of_nat k + - Z.of_nat k))).
  assert (LE : E <= e).
  { cbn [valid_binary] in V. unfold bounded, canonical_mantissa in V. apply andb_prop in V as [V _]. apply Zeq_bool_eq in V. unfold E, SpecFloat.fexp in *. lia. }
  rewrite (Z.min_l E) by lia. set (d := e - - Z.of_nat k - E). assert (D : d = Z.of_nat k + (e - E)) by lia.
  assert (Sh : (match d with 0 => Zpos m | Zpos _ => Z.shiftl (Zpos m) d | Zneg _ => 0 end) = Zpos (sh (Z.to_nat (e - E)) m) * Zpos (sh k 1)).
  { rewrite !sh_val. rewrite Z2Nat.id by lia. replace (match d with 0 => Zpos m | Zpos _ => Z.shiftl (Zpos m) d | Zneg _ => 0 end) with (Zpos m * 2 ^ d).
    - rewrite D, Z.pow_add_r by lia. ring.
    - destruct d eqn:Q; [cbn; lia|rewrite Z.shiftl_mul_pow2 by lia; reflexivity|lia]. }
  rewrite Sh. pose proof (Z_div_mult (Zpos (sh (Z.to_nat (e - E)) m)) (Zpos (sh k 1)) ltac:(lia)) as Q. pose proof (Z_mod_mult (Zpos (sh (Z.to_nat (e - E)) m)) (Zpos (sh k 1))) as R.
  unfold Z.div, Z.modulo in Q, R. destruct (Z.div_eucl _ _) as [q r]. subst q r.
  replace (new_location (Zpos (sh k 1)) 0) with loc_Exact by (unfold new_location; destruct (Z.even _); reflexivity).
  replace E with (e - Z.of_nat (Z.to_nat (e - E))) at 2 by lia. now apply canon.
Qed.
Lemma fma_one_l : forall x y, valid_binary prec emax x = true -> SFfma prec emax one x y = SFadd prec emax x y.
Proof.
  intros x y V. pose proof (mul_one_l x V) as M. destruct x as [s|s| |s m e]; try (unfold SFfma; unfold one at 1; rewrite M; reflexivity).
  destruct y as [s2|s2| |s2 m2 e2]; unfold SFfma; unfold one at 1; cbn [SFadd]; try reflexivity; try exact M.
  rewrite sh_mul_l. replace (- Z.of_nat k + e) with (e - Z.of_nat k) by lia. cbn [xorb]. replace (if s then true else false) with s by now destruct s.
  pose proof (sum_scale s s2 m (Z.of_nat k) e m2 e2 ltac:(lia)) as Q. rewrite Nat2Z.id in Q. exact Q.
Qed.
Lemma fma_comm : forall x y z, SFfma prec emax x y z = SFfma prec emax y x z.
Proof.
  assert (MC : forall x y, SFmul prec emax x y = SFmul prec emax y x).
  { intros [s|s| |s m e] [s2|s2| |s2 m2 e2]; cbn [SFmul]; rewrite 1?(xorb_comm s); try reflexivity. now rewrite Pos.mul_comm, Z.add_comm. }
  intros x y z. pose proof (MC x y) as M. destruct x as [s|s| |s m e], y as [s2|s2| |s2 m2 e2]; unfold SFfma; rewrite ?M; try reflexivity.
  destruct z; try reflexivity. now rewrite Pos.mul_comm, (Z.add_comm e), xorb_comm.
Qed.
End Round.

(** ** Bit patterns *)
Lemma digits_bounds : forall m, 2 ^ (Zpos (digits2_pos m) - 1) <= Zpos m < 2 ^ Zpos (digits2_pos m).
Proof.
  induction m; cbn [digits2_pos]; [| |cbn; lia]; rewrite Pos2Z.inj_succ, Z.pow_succ_r by lia;
    replace (Z.succ (Zpos (digits2_pos m)) - 1) with (Z.succ (Zpos (digits2_pos m) - 1)) by lia; rewrite Z.pow_succ_r by lia; lia.
Qed.
Lemma digits_eq : forall m d, 0 < d -> 2 ^ (d - 1) <= Zpos m < 2 ^ d -> Zpos (digits2_pos m) = d.
Proof.
  intros m d D [A B]. pose proof (digits_bounds m) as [P Q].
  assert (d - 1 < Zpos (digits2_pos m)) by (apply (Z.pow_lt_mono_r_iff 2); lia).
  assert (Zpos (digits2_pos m) - 1 < d) by (apply (Z.pow_lt_mono_r_iff 2); lia). lia.
Qed.
Lemma digits_le : forall m d, 0 < d -> Zpos m < 2 ^ d -> Zpos (digits2_pos m) <= d.
Proof.
  intros m d D A. pose proof (digits_bounds m) as [P Q]. assert (Zpos (digits2_pos m) - 1 < d) by (apply (Z.pow_lt_mono_r_iff 2); lia). lia.
Qed.

Local Open Scope N_scope.
(** The three fields of a pattern *)
Lemma fields : forall t x, is_float t = true -> x < 2 ^ width t ->
  x = (if 2 ^ (width t - 1) <=? x then 2 ^ (width t - 1) else 0) + x / 2 ^ man_bits t mod 2 ^ exp_bits t * 2 ^ man_bits t + x mod 2 ^ man_bits t.
Proof.
  intros t x F H. destruct (2 ^ (width t - 1) <=? x) eqn:S; [apply N.leb_le in S|apply N.leb_gt in S]; destruct t; try discriminate; cbn [width man_bits exp_bits] in *.
  all: repeat match goal with |- context [2 ^ ?a] => let v := eval vm_compute in (2 ^ a) in change (2 ^ a) with v end.
  all: repeat match goal with H : context [2 ^ ?a] |- _ => let v := eval vm_compute in (2 ^ a) in change (2 ^ a) with v in H end.
  all: lia.
Qed.
Lemma dec_enc : forall t x, is_float t = true -> number t x -> encode t (decode t x) = x.
Proof.
  intros t x F [R NN]. pose proof (fields t x F R) as X. unfold is_nan in NN. unfold decode. set (s := 2 ^ (width t - 1) <=? x) in *. clearbody s.
  assert (ML : x mod 2 ^ man_bits t < 2 ^ man_bits t) by (apply N.mod_lt, N.pow_nonzero; discriminate).
  set (m := x mod 2 ^ man_bits t) in *. set (e := x / 2 ^ man_bits t mod 2 ^ exp_bits t) in *. clearbody m e.
  destruct (e =? 0) eqn:E0.
  - apply N.eqb_eq in E0. subst e. destruct m as [|p]; cbn [encode]; [destruct s; lia|].
    replace (N.pos p <? 2 ^ man_bits t) with true by (symmetry; now apply N.ltb_lt). destruct s; lia.
  - destruct (e =? 2 ^ exp_bits t - 1) eqn:E1.
    + cbn [andb] in NN. apply negb_false_iff in NN. rewrite NN. apply N.eqb_eq in NN, E1. subst m. cbn [encode]. rewrite <- E1. destruct s; lia.
    + destruct (m + 2 ^ man_bits t) as [|p] eqn:P. { destruct (2 ^ man_bits t) eqn:Q; [exfalso; revert Q; apply N.pow_nonzero; discriminate|lia]. }
      cbn [encode]. rewrite <- P. replace (m + 2 ^ man_bits t <? 2 ^ man_bits t) with false by (symmetry; apply N.ltb_ge; lia).
      apply N.eqb_neq in E0. replace (Z.to_N (femin t + Z.of_N e - 1 - femin t + 1)) with e by lia.
      rewrite N.add_sub. exact (eq_sym X).
Qed.
Lemma dec_valid : forall t x, is_float t = true -> valid_binary (fprec t) (femax t) (decode t x) = true.
Proof.
  intros t x F. unfold decode.
  assert (ML : x mod 2 ^ man_bits t < 2 ^ man_bits t) by (apply N.mod_lt, N.pow_nonzero; discriminate).
  assert (EL : x / 2 ^ man_bits t mod 2 ^ exp_bits t < 2 ^ exp_bits t) by (apply N.mod_lt, N.pow_nonzero; discriminate).
  set (m := x mod 2 ^ man_bits t) in *. set (e := x / 2 ^ man_bits t mod 2 ^ exp_bits t) in *. clearbody m e.
  destruct (e =? 0) eqn:E0.
  - destruct m as [|p]; [reflexivity|]. cbn [valid_binary]. unfold bounded, canonical_mantissa.
    assert (D : (Zpos (digits2_pos p) <= Z.of_N (man_bits t))%Z).
    { apply digits_le; [destruct t; try discriminate; reflexivity|]. change 2%Z with (Z.of_N 2). rewrite <- N2Z.inj_pow. lia. }
    apply andb_true_intro. split.
    + apply Zeq_is_eq_bool. unfold SpecFloat.fexp, SpecFloat.emin, femin, fprec in *. lia.
    + destruct t; try discriminate; vm_compute; reflexivity.
  - destruct (e =? 2 ^ exp_bits t - 1) eqn:E1; [now destruct (m =? 0)|].
    destruct (m + 2 ^ man_bits t) as [|p] eqn:P; [reflexivity|]. cbn [valid_binary]. unfold bounded, canonical_mantissa.
    apply N.eqb_neq in E0, E1.
    assert (D : Zpos (digits2_pos p) = fprec t).
    { assert (PZ : Zpos p = (Z.of_N m + 2 ^ Z.of_N (man_bits t))%Z). { change (Zpos p) with (Z.of_N (N.pos p)). rewrite <- P. change 2%Z with (Z.of_N 2). rewrite <- N2Z.inj_pow. lia. }
      assert (MZ : (Z.of_N m < 2 ^ Z.of_N (man_bits t))%Z). { change 2%Z with (Z.of_N 2). rewrite <- N2Z.inj_pow. lia. }
      apply digits_eq; unfold fprec; [lia|]. rewrite Z.add_simpl_r. rewrite Z.pow_add_r by lia. change (2 ^ 1)%Z with 2%Z. lia. }
    rewrite D. apply andb_true_intro. split.
    + apply Zeq_is_eq_bool. unfold SpecFloat.fexp, SpecFloat.emin, femin. lia.
    + apply Zle_is_le_bool. unfold femin, femax, fprec. clear -F EL E0 E1. destruct t; try discriminate; cbn [exp_bits man_bits] in *;
      repeat match goal with |- context [(2 ^ ?a)%Z] => let v := eval vm_compute in (2 ^ a)%Z in change (2 ^ a)%Z with v end;
      repeat match goal with H : context [2 ^ ?a] |- _ => let v := eval vm_compute in (2 ^ a) in change (2 ^ a) with v in H end; lia.
Qed.
Lemma dec_zero : forall t x, is_float t = true -> fzero t x = true -> exists s, decode t x = S754_zero s.
Proof.
  intros t x F Z. unfold fzero in Z. apply orb_prop in Z. destruct Z as [Z|Z]; apply N.eqb_eq in Z; subst x; destruct t; try discriminate; eexists; vm_compute; reflexivity.
Qed.
Lemma dec_nonzero : forall t x, is_float t = true -> x < 2 ^ width t -> fzero t x = false -> forall s, decode t x <> S754_zero s.
Proof.
  intros t x F R Z s E. pose proof (dec_enc t x F) as Q.
  assert (NN : is_nan t x = false).
  { unfold decode in E. unfold is_nan. destruct (_ =? 0) eqn:E0 in E; [apply N.eqb_eq in E0; rewrite E0; destruct t; try discriminate; reflexivity|].
    destruct (_ =? 2 ^ exp_bits t - 1) in E |- *; [|reflexivity]. destruct (_ =? 0) in E; discriminate. }
  rewrite E in Q. specialize (Q (conj R NN)). cbn [encode] in Q. unfold fzero in Z. subst x. destruct s; [rewrite N.eqb_refl, orb_true_r in Z; discriminate|discriminate].
Qed.
Lemma dec_one : forall t, is_float t = true -> decode t (type_one t) = S754_finite false (sh (N.to_nat (man_bits t)) 1) (- Z.of_nat (N.to_nat (man_bits t))).
Proof. destruct t; try discriminate; intros _; vm_compute; reflexivity. Qed.
Lemma dec_number : forall t x, is_float t = true -> number t x -> decode t x <> S754_nan.
Proof.
  intros t x F [R NN] E. unfold decode in E. unfold is_nan in NN. destruct (_ =? 0) in E; [destruct (x mod _); discriminate|].
  destruct (_ =? 2 ^ exp_bits t - 1) eqn:E1 in E.
  - rewrite E1 in NN. cbn [andb] in NN. apply negb_false_iff in NN. rewrite NN in E. discriminate.
  - destruct (x mod _ + _) eqn:P; [|discriminate]. destruct (2 ^ man_bits t) eqn:Q; [revert Q; apply N.pow_nonzero; discriminate|lia].
Qed.
Lemma enc_back : forall t x f, is_float t = true -> number t x -> f = decode t x -> wrap t (encode t f) = x.
Proof. intros t x f F N ->. rewrite dec_enc by assumption. apply wrap_small, N. Qed.

Theorem machine_laws : forall t, is_float t = true -> laws machine t.
Proof.
  intros t F. split; intros; unfold op2, machine; cbn [map].
  - apply enc_back; auto. destruct (dec_zero t z F H) as [s ->]. pose proof (dec_nonzero t b F (proj1 H0) H1) as NZ. pose proof (dec_number t b F H0).
    destruct (decode t b); cbn [SFadd]; try reflexivity. now elim (NZ s0).
  - apply enc_back; auto. destruct (dec_zero t z F H) as [s ->]. pose proof (dec_nonzero t a F (proj1 H0) H1) as NZ. pose proof (dec_number t a F H0).
    destruct (decode t a); cbn [SFadd]; try reflexivity. now elim (NZ s0).
  - apply enc_back; auto. destruct (dec_zero t z F H) as [s ->]. pose proof (dec_nonzero t a F (proj1 H0) H1) as NZ. pose proof (dec_number t a F H0).
    destruct (decode t a); cbn [SFsub]; try reflexivity. now elim (NZ s0).
  - apply enc_back; auto. rewrite dec_one by assumption. apply mul_one_l. now apply dec_valid.
  - apply enc_back; auto. rewrite dec_one by assumption. apply mul_one_r. now apply dec_valid.
  - destruct (dec_zero t y F H) as [s1 ->]. destruct (dec_zero t z F H0) as [s2 ->]. cbn [SFmul encode]. unfold fzero.
    destruct (xorb s1 s2); [|rewrite wrap_small; [reflexivity|destruct t; try discriminate; reflexivity]].
    rewrite wrap_small by (destruct t; try discriminate; reflexivity). rewrite N.eqb_refl. apply orb_true_r.
  - apply enc_back; auto. rewrite dec_one by assumption. apply div_one_r; [destruct t; try discriminate; cbn; lia|]. now apply dec_valid.
Qed.
Theorem machine_fma : forall t, is_float t = true -> fma_laws machine t.
Proof.
  intros t F. split; intros; unfold op2, op3, machine; cbn [map].
  - rewrite dec_one, fma_one_l by (auto using dec_valid). reflexivity.
  - rewrite fma_comm, dec_one, fma_one_l by (auto using dec_valid). reflexivity.
  - destruct (dec_zero t z F H1) as [s Z]. unfold op2, machine in H2, H3. cbn [map] in H2, H3.
    assert (Q : SFfma (fprec t) (femax t) (decode t a) (decode t b) (S754_zero s) = SFmul (fprec t) (femax t) (decode t a) (decode t b)); [|rewrite Z, Q; reflexivity].
    pose proof (dec_number t a F H). pose proof (dec_number t b F H0).
    assert (PZ : forall s', SFmul (fprec t) (femax t) (decode t a) (decode t b) <> S754_zero s').
    { intros s' E. rewrite E in H3. cbn [encode] in H3. rewrite wrap_small in H3 by (destruct s', t; try discriminate; reflexivity). unfold fzero in H3.
      destruct s'; [rewrite N.eqb_refl, orb_true_r in H3; discriminate|discriminate]. }
    unfold SFfma. destruct (decode t a) as [s1|s1| |s1 m1 e1], (decode t b) as [s2|s2| |s2 m2 e2]; cbn [SFmul] in *; try reflexivity; try (exfalso; eapply PZ; reflexivity).
  - apply enc_back; auto. destruct (dec_zero t y F H) as [s1 ->]. destruct (dec_zero t z F H0) as [s2 ->]. pose proof (dec_nonzero t c F (proj1 H1) H2) as NZ. pose proof (dec_number t c F H1).
    unfold SFfma. cbn [SFmul]. destruct (decode t c); cbn [SFadd]; try reflexivity. now elim (NZ s).
Qed.
