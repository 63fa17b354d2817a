(** IEEE 754 arithmetic of binary16, binary32 and binary64 and arithmetic of machine integers, as
    an instance of the arithmetic of Cov_Model.  Values are bit patterns. *)
From Coq Require Import Floats.SpecFloat.
From Verif Require Import Base Cov_Model Cov_Spec.
From Verif Require Op_Model Op_FSpec Op_Ieee Op_Bits Op_IeeeProofs.
Local Open Scope N_scope.

Definition fty (t : N) : Op_Model.ty := if t =? Float16 then Op_Model.F16 else if t =? Float32 then Op_Model.F32 else Op_Model.F64.
Definition bits (t : N) : N := 8 * tsz t.
Definition signed (t : N) : bool := (t =? 3) || (t =? 5) || (t =? 7) || (t =? 9).
Definition dec (t x : N) : spec_float := Op_Ieee.decode (fty t) x.
Definition enc (t : N) (f : spec_float) : N := Op_Ieee.encode (fty t) f mod 2 ^ bits t.
Definition prec (t : N) : Z := Op_Ieee.fprec (fty t).
Definition emax (t : N) : Z := Op_Ieee.femax (fty t).
(** Number represented by a pattern of an integer type *)
Definition int (t x : N) : Z := if signed t && (2 ^ (bits t - 1) <=? x) then (Z.of_N x - 2 ^ Z.of_N (bits t))%Z else Z.of_N x.
Definition pat (t : N) (z : Z) : N := Z.to_N (z mod 2 ^ Z.of_N (bits t)).
Definition is_nan (f : spec_float) : bool := match f with S754_nan => true | _ => false end.
(** Number, rounded towards zero *)
Definition truncated (f : spec_float) : Z :=
  match f with S754_finite s m e => cond_Zopp s (if (0 <=? e)%Z then (Zpos m * 2 ^ e)%Z else (Zpos m / 2 ^ (- e))%Z) | _ => 0%Z end.
(** The nearest number of type [t] *)
Definition rounded (t : N) (f : spec_float) : spec_float :=
  match f with S754_finite s m e => binary_round (prec t) (emax t) s m e | _ => f end.
Definition convert (s t x : N) : N :=
  if is_float s then if is_float t then enc t (rounded t (dec s x)) else pat t (truncated (dec s x))
  else if is_float t then enc t (binary_normalize (prec t) (emax t) (int s x) 0 false) else pat t (int s x).
Definition fmin (a c : spec_float) : spec_float := if is_nan a then c else if is_nan c then a else if SFltb c a then c else a.
Definition fmax (a c : spec_float) : spec_float := if is_nan a then c else if is_nan c then a else if SFltb a c then c else a.
Definition binop (o : op) (t x y : N) : N :=
  if is_float t then
    let a := dec t x in
    let c := dec t y in
    match o with
    | Add => enc t (SFadd (prec t) (emax t) a c)
    | Sub => enc t (SFsub (prec t) (emax t) a c)
    | Mul => enc t (SFmul (prec t) (emax t) a c)
    | Min => enc t (fmin a c)
    | Max => enc t (fmax a c)
    | _ => 0
    end
  else
    match o with
    | Add => pat t (int t x + int t y)
    | Sub => pat t (int t x - int t y)
    | Mul => pat t (int t x * int t y)
    | Min => pat t (Z.min (int t x) (int t y))
    | Max => pat t (Z.max (int t x) (int t y))
    | _ => 0
    end.
(** [f]: the functions of the mathematical library *)
Definition ieee (f : uop -> N -> N -> N) : arith N := {|
  of_bits t x := x mod 2 ^ bits t;
  arith2 := binop;
  less t x y := if is_float t then SFltb (dec t x) (dec t y) else (int t x <? int t y)%Z;
  fused t x y z := if is_float t then enc t (Op_Ieee.SFfma (prec t) (emax t) (dec t x) (dec t y) (dec t z)) else pat t (int t x * int t y + int t z);
  arith1 := f;
  conv := convert;
  instr c s t x :=
    match c with
    | FpExt | FpTrunc | FpToSi | FpToUi | SiToFp => convert s t x
    | SExt => pat t (if 2 ^ (bits s - 1) <=? x then (Z.of_N x - 2 ^ Z.of_N (bits s))%Z else Z.of_N x)
    | ZExt | Trunc => pat t (Z.of_N x)
    | UiToFp => enc t (binary_normalize (prec t) (emax t) (Z.of_N x) 0 false)
    end |}.

(** Equal numbers, up to the sign of zero and the kind of NaN *)
Definition alike (a c : spec_float) : Prop := a = c \/ exists s s', a = S754_zero s /\ c = S754_zero s'.
Definition same_value (t x y : N) : Prop :=
  x < 2 ^ bits t /\ y < 2 ^ bits t /\ if is_float t then alike (dec t x) (dec t y) else x = y.

Section Proofs.
Variable f : uop -> N -> N -> N.
Hypothesis FP : forall u t x y, same_value t x y -> same_value t (f u t x) (f u t y).

Lemma fty_float t : Op_Model.is_float (fty t) = true.
Proof. unfold fty. destruct (t =? Float16), (t =? Float32); reflexivity. Qed.
Lemma is_float_cases t : is_float t = true -> t = 13 \/ t = 14 \/ t = 15.
Proof. unfold is_float, Float16, Float32, Float64. lia. Qed.
Lemma width_bits t : is_float t = true -> Op_Model.width (fty t) = bits t.
Proof. intros H. destruct (is_float_cases t H) as [->|[->| ->]]; reflexivity. Qed.
Lemma pow_pos n : 0 < 2 ^ n.
Proof. apply N.neq_0_lt_0, N.pow_nonzero. discriminate. Qed.
Lemma enc_range t a : enc t a < 2 ^ bits t.
Proof. apply N.mod_lt, N.pow_nonzero. discriminate. Qed.
Lemma zpow n : (2 ^ Z.of_N n = Z.of_N (2 ^ n))%Z.
Proof. now rewrite N2Z.inj_pow. Qed.
Lemma pat_range t z : pat t z < 2 ^ bits t.
Proof. unfold pat. rewrite zpow. pose proof (pow_pos (bits t)). pose proof (Z.mod_pos_bound z (Z.of_N (2 ^ bits t)) ltac:(lia)). lia. Qed.
Lemma alike_refl a : alike a a. Proof. now left. Qed.
Lemma alike_sym a c : alike a c -> alike c a.
Proof. intros [->|(s & s' & -> & ->)]; [now left|right; eauto]. Qed.
Lemma alike_trans a c d : alike a c -> alike c d -> alike a d.
Proof. intros [->|(s & s' & -> & ->)]; auto. intros [<-|(u & u' & H & ->)]; right; eauto. Qed.
Lemma dec_enc_zero t s : is_float t = true -> exists s', dec t (enc t (S754_zero s)) = S754_zero s'.
Proof. intros H. destruct (is_float_cases t H) as [->|[->| ->]]; destruct s; eexists; vm_compute; reflexivity. Qed.
Lemma enc_alike t a c : is_float t = true -> alike a c -> same_value t (enc t a) (enc t c).
Proof.
  intros F H. split; [apply enc_range|]. split; [apply enc_range|]. rewrite F. destruct H as [->|(s & s' & -> & ->)]; [now left|].
  destruct (dec_enc_zero t s F) as (u & ->). destruct (dec_enc_zero t s' F) as (u' & ->). right; eauto.
Qed.
Lemma dec_enc_nan t : is_float t = true -> dec t (enc t S754_nan) = S754_nan.
Proof. intros H. destruct (is_float_cases t H) as [->|[->| ->]]; vm_compute; reflexivity. Qed.
(** Encoding the number of a pattern *)
Lemma enc_dec t x a : is_float t = true -> x < 2 ^ bits t -> alike a (dec t x) -> same_value t (enc t a) x.
Proof.
  intros F H A. split; [apply enc_range|]. split; [exact H|]. rewrite F.
  destruct (Op_Model.is_nan (fty t) x) eqn:NN.
  - assert (E : dec t x = S754_nan).
    { unfold dec, Op_Ieee.decode. unfold Op_Model.is_nan in NN. apply andb_prop in NN as (N1 & N2).
      destruct (_ =? 0) eqn:E0 at 1; [exfalso; apply N.eqb_eq in E0; rewrite E0 in N1; unfold fty in N1; destruct (t =? Float16), (t =? Float32); discriminate|].
      rewrite N1. now destruct (_ =? 0). }
    rewrite E in *. destruct A as [->|(s & s' & _ & Q)]; [|discriminate]. rewrite dec_enc_nan by auto. now left.
  - assert (N : Op_FSpec.number (fty t) x) by (split; [rewrite width_bits by auto; exact H|exact NN]).
    assert (Q : enc t (dec t x) = x).
    { unfold enc, dec. rewrite Op_IeeeProofs.dec_enc by (auto using fty_float). now apply N.mod_small. }
    destruct (enc_alike t a (dec t x) F A) as (_ & _ & Z). rewrite F, Q in Z. exact Z.
Qed.
Lemma dec_valid t x : is_float t = true -> valid_binary (prec t) (emax t) (dec t x) = true.
Proof. intros _. apply Op_IeeeProofs.dec_valid, fty_float. Qed.

(** ** Congruence *)
Lemma add_alike p e a a' c c' : alike a a' -> alike c c' -> alike (SFadd p e a c) (SFadd p e a' c').
Proof.
  intros [->|(s & s' & -> & ->)] [->|(u & u' & -> & ->)]; [now left| | |].
  - destruct a' as [v|v| |v m ex]; try (now left). right. cbn [SFadd]. destruct (eqb v u), (eqb v u'); eauto.
  - destruct c' as [v|v| |v m ex]; try (now left). right. cbn [SFadd]. destruct (eqb s v), (eqb s' v); eauto.
  - right. cbn [SFadd]. destruct (eqb s u), (eqb s' u'); eauto.
Qed.
Lemma sub_alike p e a a' c c' : alike a a' -> alike c c' -> alike (SFsub p e a c) (SFsub p e a' c').
Proof.
  intros [->|(s & s' & -> & ->)] [->|(u & u' & -> & ->)]; [now left| | |].
  - destruct a' as [v|v| |v m ex]; try (now left). right. cbn [SFsub]. destruct (eqb v (negb u)), (eqb v (negb u')); eauto.
  - destruct c' as [v|v| |v m ex]; try (now left). right. cbn [SFsub]. destruct (eqb s (negb v)), (eqb s' (negb v)); eauto.
  - right. cbn [SFsub]. destruct (eqb s (negb u)), (eqb s' (negb u')); eauto.
Qed.
Lemma mul_alike p e a a' c c' : alike a a' -> alike c c' -> alike (SFmul p e a c) (SFmul p e a' c').
Proof.
  intros [->|(s & s' & -> & ->)] [->|(u & u' & -> & ->)]; [now left| | |].
  - destruct a' as [v|v| |v m ex]; try (now left); right; cbn [SFmul]; eauto.
  - destruct c' as [v|v| |v m ex]; try (now left); right; cbn [SFmul]; eauto.
  - right. cbn [SFmul]. eauto.
Qed.
Lemma ltb_alike a a' c c' : alike a a' -> alike c c' -> SFltb a c = SFltb a' c'.
Proof.
  intros [->|(s & s' & -> & ->)] [->|(u & u' & -> & ->)]; unfold SFltb; try reflexivity; try (destruct a' as [v|v| |v m ex]; reflexivity); (destruct c' as [v|v| |v m ex]; reflexivity).
Qed.
Lemma nan_alike a a' : alike a a' -> is_nan a = is_nan a'.
Proof. intros [->|(s & s' & -> & ->)]; reflexivity. Qed.
Lemma min_alike a a' c c' : alike a a' -> alike c c' -> alike (fmin a c) (fmin a' c').
Proof. intros A C. unfold fmin. rewrite (nan_alike _ _ A), (nan_alike _ _ C), (ltb_alike _ _ _ _ C A). destruct (is_nan a'), (is_nan c'), (SFltb c' a'); auto. Qed.
Lemma max_alike a a' c c' : alike a a' -> alike c c' -> alike (fmax a c) (fmax a' c').
Proof. intros A C. unfold fmax. rewrite (nan_alike _ _ A), (nan_alike _ _ C), (ltb_alike _ _ _ _ A C). destruct (is_nan a'), (is_nan c'), (SFltb a' c'); auto. Qed.
(** [SFfma] is the sum of the product unless all numbers are finite *)
Definition finite (a : spec_float) : bool := match a with S754_finite _ _ _ => true | _ => false end.
Lemma fma_other p e a c d : finite a && finite c = false -> Op_Ieee.SFfma p e a c d = SFadd p e (SFmul p e a c) d.
Proof. destruct a, c; cbn [finite andb]; try discriminate; intros _; destruct d; reflexivity. Qed.
Lemma fma_alike p e a a' c c' d d' : alike a a' -> alike c c' -> alike d d' -> alike (Op_Ieee.SFfma p e a c d) (Op_Ieee.SFfma p e a' c' d').
Proof.
  intros A C D. destruct (finite a && finite c) eqn:Fi.
  - apply andb_prop in Fi as (Fa & Fc). destruct A as [<-|(s & s' & -> & ->)]; [|discriminate]. destruct C as [<-|(s & s' & -> & ->)]; [|discriminate].
    destruct D as [<-|(s & s' & -> & ->)]; [now left|]. destruct a, c; try discriminate. now left.
  - assert (finite a' && finite c' = false).
    { destruct A as [<-|(s & s' & -> & ->)]; [|reflexivity]. destruct C as [<-|(s & s' & -> & ->)]; [exact Fi|cbn; now destruct (finite a)]. }
    rewrite !fma_other by auto. now apply add_alike; [apply mul_alike|].
Qed.
Lemma rounded_alike t a c : alike a c -> alike (rounded t a) (rounded t c).
Proof. intros [->|(s & s' & -> & ->)]; [now left|right; cbn; eauto]. Qed.

Lemma same_refl t x : x < 2 ^ bits t -> same_value t x x.
Proof. intros H. split; [auto|]. split; [auto|]. destruct (is_float t); [now left|reflexivity]. Qed.
Lemma pat_same t z : same_value t (pat t z) (pat t z).
Proof. apply same_refl, pat_range. Qed.
Lemma int_pat t x : x < 2 ^ bits t -> pat t (int t x) = x.
Proof.
  intros H. unfold pat, int. rewrite zpow. pose proof (pow_pos (bits t)).
  destruct (signed t && (2 ^ (bits t - 1) <=? x)).
  - replace (Z.of_N x - Z.of_N (2 ^ bits t))%Z with (Z.of_N x + -1 * Z.of_N (2 ^ bits t))%Z by lia. rewrite Z.mod_add by lia. rewrite Z.mod_small by lia. lia.
  - rewrite Z.mod_small by lia. lia.
Qed.
Lemma int_zero t : is_float t = false -> int t 0 = 0%Z.
Proof.
  intros _. unfold int. pose proof (pow_pos (bits t - 1)). replace (2 ^ (bits t - 1) <=? 0) with false by lia. now rewrite andb_false_r.
Qed.
(** The number one, if the type has one *)
Lemma pat_one t y : is_float t = false -> pat t (int t (1 mod 2 ^ bits t) * y) = pat t y.
Proof.
  intros F. destruct (N.eq_dec (tsz t) 0) as [Z0|NZ].
  - unfold pat, bits. rewrite Z0. change (2 ^ Z.of_N (8 * 0))%Z with 1%Z. now rewrite !Z.mod_1_r.
  - assert (H : 1 < 2 ^ bits t) by (apply N.pow_gt_1; unfold bits; lia). rewrite N.mod_small by exact H.
    replace (int t 1) with 1%Z; [now rewrite Z.mul_1_l|]. unfold int. assert (1 < 2 ^ (bits t - 1)) by (apply N.pow_gt_1; unfold bits; lia).
    replace (2 ^ (bits t - 1) <=? 1) with false by lia. now rewrite andb_false_r.
Qed.
Lemma one_dec t : is_float t = true -> dec t (one_bits t mod 2 ^ bits t) = S754_finite false (Op_IeeeProofs.sh (N.to_nat (Op_Model.man_bits (fty t))) 1) (- Z.of_nat (N.to_nat (Op_Model.man_bits (fty t)))).
Proof. intros H. destruct (is_float_cases t H) as [->|[->| ->]]; vm_compute; reflexivity. Qed.
Lemma zero_dec t z : is_float t = true -> zero_bits t z = true -> exists s, dec t (z mod 2 ^ bits t) = S754_zero s.
Proof.
  intros H Z. unfold zero_bits in Z. destruct (is_float_cases t H) as [->|[->| ->]]; cbn in Z.
  - assert (z = 0 \/ z = 32768) as [->| ->] by (change (13 =? Float16) with true in Z; change (13 =? Float32) with false in Z; change (13 =? Float64) with false in Z; lia); eexists; vm_compute; reflexivity.
  - assert (z = 0 \/ z = 2147483648) as [->| ->] by (change (14 =? Float16) with false in Z; change (14 =? Float32) with true in Z; change (14 =? Float64) with false in Z; lia); eexists; vm_compute; reflexivity.
  - assert (z = 0 \/ z = 9223372036854775808) as [->| ->] by (change (15 =? Float16) with false in Z; change (15 =? Float32) with false in Z; change (15 =? Float64) with true in Z; lia); eexists; vm_compute; reflexivity.
Qed.
Lemma zero_int t z : is_float t = false -> zero_bits t z = true -> z = 0.
Proof. unfold zero_bits, is_float. lia. Qed.
Lemma one_int t : is_float t = false -> one_bits t = 1.
Proof. unfold is_float, one_bits. destruct (t =? Float16), (t =? Float32), (t =? Float64); try discriminate; reflexivity. Qed.
Lemma add_zero_l p e s a : alike (SFadd p e (S754_zero s) a) a.
Proof. destruct a as [v|v| |v m ex]; try (now left). right. cbn [SFadd]. destruct (eqb s v); eauto. Qed.
Lemma add_zero_r p e s a : alike (SFadd p e a (S754_zero s)) a.
Proof. destruct a as [v|v| |v m ex]; try (now left). right. cbn [SFadd]. destruct (eqb v s); eauto. Qed.

Theorem ieee_laws : laws (ieee f) same_value.
Proof.
  split; cbn [of_bits arith2 less fused arith1 conv instr ieee].
  - intros t x y (A & B & C). split; [auto|]. split; [auto|]. destruct (is_float t); [now apply alike_sym|auto].
  - intros t x y z (A & B & C) (_ & D & E). split; [auto|]. split; [auto|]. destruct (is_float t); [eapply alike_trans; eauto|congruence].
  - intros t z. apply same_refl. apply N.mod_lt, N.pow_nonzero. discriminate.
  - intros o t x x' y y' (_ & _ & C) (_ & _ & E). unfold binop. destruct (is_float t) eqn:F.
    + destruct o; try (apply enc_alike; auto using add_alike, sub_alike, mul_alike, min_alike, max_alike); (apply same_refl, pow_pos).
    + subst. destruct o; try apply pat_same; (apply same_refl, pow_pos).
  - intros t x x' y y' (_ & _ & C) (_ & _ & E). destruct (is_float t); [now apply ltb_alike|now subst].
  - intros t x x' y y' z z' (_ & _ & C) (_ & _ & E) (_ & _ & G). destruct (is_float t) eqn:F; [apply enc_alike; auto using fma_alike|subst; apply pat_same].
  - exact FP.
  - intros s t x x' (_ & _ & C). unfold convert. destruct (is_float s) eqn:Fs, (is_float t) eqn:F; subst; try apply pat_same.
    + apply enc_alike; auto using rounded_alike.
    + destruct C as [->|(u & u' & -> & ->)]; apply pat_same.
    + apply enc_alike; auto. now left.
  - intros t x (A & _ & _). unfold convert. destruct (is_float t) eqn:F.
    + apply enc_dec; auto. left. pose proof (dec_valid t x F) as V. destruct (dec t x) as [v|v| |v m e]; try reflexivity. cbn [rounded].
      cbn [valid_binary] in V.
      assert (E := Op_IeeeProofs.canon (prec t) (emax t) v 0 m e V). cbn [Op_IeeeProofs.sh Nat.iter] in E. rewrite Z.sub_0_r in E.
      unfold binary_round. unfold bounded, canonical_mantissa in V. apply andb_prop in V as (V & _). apply Zeq_bool_eq in V.
      rewrite V. unfold shl_align. rewrite Z.sub_diag. exact E.
    + rewrite int_pat by auto. now apply same_refl.
  - intros s t x Fs F _ (A & _ & _). apply same_refl. unfold convert. rewrite Fs, F. apply enc_range.
  - intros s t x Fs F _ (A & _ & _). apply same_refl. unfold convert. rewrite Fs, F. apply enc_range.
  - intros t z x Z (A & _ & _). unfold binop. destruct (is_float t) eqn:F.
    + destruct (zero_dec t z F Z) as (s & ->). split; apply enc_dec; auto using add_zero_l, add_zero_r.
    + rewrite (zero_int t z F Z), N.mod_0_l by (apply N.pow_nonzero; discriminate). rewrite int_zero, Z.add_0_l, Z.add_0_r, int_pat by auto. split; now apply same_refl.
  - intros t x (A & _ & _). unfold binop. destruct (is_float t) eqn:F.
    + rewrite one_dec by auto. split; apply enc_dec; auto; left; [apply Op_IeeeProofs.mul_one_l|apply Op_IeeeProofs.mul_one_r]; now apply dec_valid.
    + rewrite (one_int t F), pat_one, (Z.mul_comm (int t x)), pat_one, int_pat by auto. split; now apply same_refl.
  - intros t x y F (A & _ & _) (B & _ & _). unfold binop. rewrite F, one_dec by auto.
    split; apply enc_alike; auto; left; [|rewrite Op_IeeeProofs.fma_comm]; apply Op_IeeeProofs.fma_one_l; now apply dec_valid.
  - intros t z x y F Z (A & _ & _) (B & _ & _). unfold binop. rewrite F. destruct (zero_dec t z F Z) as (s & ->). apply enc_alike; auto.
    destruct (finite (dec t x) && finite (dec t y)) eqn:Fi.
    + left. destruct (dec t x), (dec t y); try discriminate. reflexivity.
    + rewrite fma_other by exact Fi. apply add_zero_r.
Qed.
End Proofs.
