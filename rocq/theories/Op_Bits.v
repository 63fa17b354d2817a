(** Node semantics and literal evaluation against exact integer arithmetic. *)
From Verif Require Import Base Op_Model Op_Spec.
Local Open Scope N_scope.

Definition zw (t : ty) : Z := (2 ^ Z.of_N (width t))%Z.
Lemma zw_pos : forall t, (0 < zw t)%Z.
Proof. intros. unfold zw. apply Z.pow_pos_nonneg; lia. Qed.
Lemma width_pos : forall t, 1 <= width t.
Proof. now intros []. Qed.
Lemma zw_N : forall t, Z.of_N (2 ^ width t) = zw t.
Proof. intros. unfold zw. now rewrite N2Z.inj_pow. Qed.
Lemma half : forall t, Z.of_N (2 ^ (width t - 1)) = (2 ^ (Z.of_N (width t) - 1))%Z.
Proof. intros. pose proof (width_pos t). rewrite N2Z.inj_pow, N2Z.inj_sub; [reflexivity|lia]. Qed.
Lemma zw_half : forall t, zw t = (2 * 2 ^ (Z.of_N (width t) - 1))%Z.
Proof.
  intros. pose proof (width_pos t). unfold zw. replace (Z.of_N (width t)) with (1 + (Z.of_N (width t) - 1))%Z at 1 by lia.
  rewrite Z.pow_add_r by lia. reflexivity.
Qed.
Lemma pow_half : forall t, 2 ^ width t = 2 * 2 ^ (width t - 1).
Proof.
  intros. pose proof (width_pos t). replace (width t) with (1 + (width t - 1)) at 1 by lia.
  now rewrite N.pow_add_r.
Qed.

Lemma wrap_bits : forall t x z, (Z.of_N x mod zw t = z mod zw t)%Z -> wrap t x = bits t z.
Proof.
  intros t x z H. unfold bits. fold (zw t). rewrite <- H. unfold wrap. apply N2Z.inj.
  rewrite N2Z.inj_mod, zw_N, Z2N.id; [reflexivity|].
  apply Z.mod_pos_bound, zw_pos.
Qed.
Lemma bits_congr : forall t z z', (z mod zw t = z' mod zw t)%Z -> bits t z = bits t z'.
Proof. intros t z z' H. unfold bits. fold (zw t). now rewrite H. Qed.
Lemma bits_lt : forall t z, bits t z < 2 ^ width t.
Proof.
  intros. unfold bits. fold (zw t). pose proof (Z.mod_pos_bound z (zw t) (zw_pos t)). rewrite <- zw_N in *. lia.
Qed.
Lemma wrap_lt : forall t x, wrap t x < 2 ^ width t.
Proof. intros. apply N.mod_lt, N.pow_nonzero. discriminate. Qed.
Lemma wrap_small : forall t x, x < 2 ^ width t -> wrap t x = x.
Proof. intros. now apply N.mod_small. Qed.
Lemma zwrap_bits : forall t z, zwrap t z = bits t z.
Proof. reflexivity. Qed.
Lemma wrap_of_bits : forall t z, wrap t (bits t z) = bits t z.
Proof. intros. apply wrap_small, bits_lt. Qed.

Lemma sbits_mod : forall t a, a < 2 ^ width t -> (sbits (width t) a mod zw t = Z.of_N a mod zw t)%Z.
Proof.
  intros t a H. unfold sbits. destruct (a <? 2 ^ (width t - 1)); [reflexivity|].
  fold (zw t). rewrite <- (Z_mod_plus_full (Z.of_N a - zw t) 1). f_equal. lia.
Qed.
Lemma num_mod : forall t a, a < 2 ^ width t -> (num t a mod zw t = Z.of_N a mod zw t)%Z.
Proof. intros t a H. unfold num. destruct (is_sint t); [now apply sbits_mod|reflexivity]. Qed.
Lemma bits_num : forall t a, a < 2 ^ width t -> bits t (num t a) = a.
Proof.
  intros t a H. rewrite <- (wrap_bits t a) by (symmetry; now apply num_mod). now apply wrap_small.
Qed.
Lemma sbits_range : forall t a, a < 2 ^ width t ->
  (- 2 ^ (Z.of_N (width t) - 1) <= sbits (width t) a < 2 ^ (Z.of_N (width t) - 1))%Z.
Proof.
  intros t a H. unfold sbits. fold (zw t). pose proof (zw_half t). pose proof (half t).
  assert (0 < 2 ^ (Z.of_N (width t) - 1))%Z by (apply Z.pow_pos_nonneg; pose proof (width_pos t); lia).
  rewrite <- zw_N in *. destruct (N.ltb_spec a (2 ^ (width t - 1))); lia.
Qed.
Lemma num_unsigned : forall t a, is_sint t = false -> num t a = Z.of_N a.
Proof. intros t a H. unfold num. now rewrite H. Qed.
Lemma num_signed : forall t a, is_sint t = true -> num t a = sbits (width t) a.
Proof. intros t a H. unfold num. now rewrite H. Qed.
Lemma num_inj : forall t a b, a < 2 ^ width t -> b < 2 ^ width t -> num t a = num t b -> a = b.
Proof. intros t a b A B H. rewrite <- (bits_num t a A), <- (bits_num t b B). now f_equal. Qed.
Lemma num_range : forall t a, a < 2 ^ width t ->
  if is_sint t then (- 2 ^ (Z.of_N (width t) - 1) <= num t a < 2 ^ (Z.of_N (width t) - 1))%Z
  else (0 <= num t a < zw t)%Z.
Proof.
  intros t a H. destruct (is_sint t) eqn:S.
  - rewrite num_signed by assumption. now apply sbits_range.
  - rewrite num_unsigned by assumption. rewrite <- zw_N. lia.
Qed.
Lemma bits_small : forall t z, (0 <= z < zw t)%Z -> bits t z = Z.to_N z.
Proof. intros t z H. unfold bits. fold (zw t). now rewrite Z.mod_small. Qed.
Lemma num_bits : forall t z, (if is_sint t then (- 2 ^ (Z.of_N (width t) - 1) <= z < 2 ^ (Z.of_N (width t) - 1))%Z
  else (0 <= z < zw t)%Z) -> num t (bits t z) = z.
Proof.
  intros t z H. pose proof (zw_half t) as Hh. pose proof (half t) as Hn.
  destruct (is_sint t) eqn:S.
  - rewrite num_signed by assumption. unfold sbits. fold (zw t).
    destruct (Z.leb_spec 0 z).
    + rewrite bits_small by lia. destruct (N.ltb_spec (Z.to_N z) (2 ^ (width t - 1))); lia.
    + unfold bits. fold (zw t). rewrite <- (Z_mod_plus_full z 1), Z.mod_small by lia.
      destruct (N.ltb_spec (Z.to_N (z + 1 * zw t)) (2 ^ (width t - 1))); lia.
  - rewrite num_unsigned, bits_small by assumption. lia.
Qed.

(** congruence steps *)
Lemma cong_add : forall m a b a' b', (a mod m = a' mod m -> b mod m = b' mod m -> (a + b) mod m = (a' + b') mod m)%Z.
Proof. intros m a b a' b' A B. now rewrite Zplus_mod, A, B, <- Zplus_mod. Qed.
Lemma cong_sub : forall m a b a' b', (a mod m = a' mod m -> b mod m = b' mod m -> (a - b) mod m = (a' - b') mod m)%Z.
Proof. intros m a b a' b' A B. now rewrite Zminus_mod, A, B, <- Zminus_mod. Qed.
Lemma cong_mul : forall m a b a' b', (a mod m = a' mod m -> b mod m = b' mod m -> (a * b) mod m = (a' * b') mod m)%Z.
Proof. intros m a b a' b' A B. now rewrite Zmult_mod, A, B, <- Zmult_mod. Qed.
Lemma bits_mod : forall t z, (Z.of_N (bits t z) mod zw t = z mod zw t)%Z.
Proof.
  intros. unfold bits. fold (zw t). pose proof (Z.mod_pos_bound z (zw t) (zw_pos t)).
  rewrite Z2N.id by lia. apply Z.mod_mod. lia.
Qed.

(** bitwise *)
Lemma ones_land : forall t z, (z mod zw t = Z.land z (Z.ones (Z.of_N (width t))))%Z.
Proof. intros. unfold zw. rewrite Z.land_ones; [reflexivity|lia]. Qed.
Lemma num_small : forall t a, a < 2 ^ width t -> (num t a mod zw t = Z.of_N a)%Z.
Proof. intros t a H. rewrite num_mod by assumption. apply Z.mod_small. rewrite <- zw_N. lia. Qed.
Lemma bits_bitwise : forall (f : N -> N -> N) (g : Z -> Z -> Z) h t a b,
  (forall x y i, N.testbit (f x y) i = h (N.testbit x i) (N.testbit y i)) ->
  (forall x y i, (0 <= i)%Z -> Z.testbit (g x y) i = h (Z.testbit x i) (Z.testbit y i)) ->
  h false false = false ->
  a < 2 ^ width t -> b < 2 ^ width t -> bits t (g (num t a) (num t b)) = f a b.
Proof.
  intros f g h t a b F G Z0 A B. apply N2Z.inj. unfold bits. fold (zw t).
  rewrite Z2N.id by apply Z.mod_pos_bound, zw_pos. apply Z.bits_inj'. intros i I.
  rewrite ones_land, Z.land_spec, G by assumption.
  rewrite <- (Z2N.id i) by assumption. set (j := Z.to_N i). rewrite Z.testbit_of_N, F.
  assert (E : forall x, x < 2 ^ width t ->
    N.testbit x j = Z.testbit (num t x) (Z.of_N j) && Z.testbit (Z.ones (Z.of_N (width t))) (Z.of_N j)).
  { intros x X. rewrite <- Z.land_spec, <- ones_land, num_small by assumption. now rewrite Z.testbit_of_N. }
  rewrite (E a A), (E b B).
  destruct (Z.testbit (Z.ones (Z.of_N (width t))) (Z.of_N j)); rewrite ?andb_true_r, ?andb_false_r; auto.
Qed.
Lemma bits_land : forall t a b, a < 2 ^ width t -> b < 2 ^ width t -> bits t (Z.land (num t a) (num t b)) = N.land a b.
Proof. intros. apply (bits_bitwise _ _ andb); auto using N.land_spec. intros; apply Z.land_spec. Qed.
Lemma bits_lor : forall t a b, a < 2 ^ width t -> b < 2 ^ width t -> bits t (Z.lor (num t a) (num t b)) = N.lor a b.
Proof. intros. apply (bits_bitwise _ _ orb); auto using N.lor_spec. intros; apply Z.lor_spec. Qed.
Lemma bits_lxor : forall t a b, a < 2 ^ width t -> b < 2 ^ width t -> bits t (Z.lxor (num t a) (num t b)) = N.lxor a b.
Proof. intros. apply (bits_bitwise _ _ xorb); auto using N.lxor_spec. intros; apply Z.lxor_spec. Qed.
Lemma lxor_ones : forall t a, a < 2 ^ width t -> N.lxor a (2 ^ width t - 1) = 2 ^ width t - 1 - a.
Proof.
  intros t a H. replace (2 ^ width t - 1) with (N.ones (width t)) by (rewrite N.ones_equiv; lia).
  assert (E : N.lnot a (width t) = N.ones (width t) - a).
  { destruct (N.eq_dec a 0) as [->|Z].
    - rewrite N.lnot_0_l. lia.
    - apply N.lnot_sub_low. apply N.log2_lt_pow2; lia. }
  exact E.
Qed.

Lemma div_le_self : forall a b, b <> 0 -> a / b <= a.
Proof.
  intros a b B. apply N.div_le_upper_bound; [assumption|]. rewrite <- (N.mul_1_l a) at 1.
  apply N.mul_le_mono_r. lia.
Qed.

Lemma int_not_float : forall t, is_int t = true -> is_float t = false.
Proof. now intros []. Qed.
Lemma int_not_bool : forall t, is_int t = true -> is_bool t = false.
Proof. now intros []. Qed.
Lemma int_cases : forall t, is_int t = true -> is_sint t = true /\ is_uint t = false \/ is_sint t = false /\ is_uint t = true.
Proof. intros []; cbn; intros; try discriminate; auto. Qed.
Lemma min_int_bits : forall t a, is_sint t = true -> a < 2 ^ width t ->
  (num t a =? min_int t)%Z = (a =? 2 ^ (width t - 1)).
Proof.
  intros t a S A. rewrite num_signed by assumption. unfold sbits, min_int. fold (zw t).
  pose proof (half t). pose proof (zw_half t).
  assert (0 < 2 ^ (Z.of_N (width t) - 1))%Z by (apply Z.pow_pos_nonneg; pose proof (width_pos t); lia).
  destruct (N.ltb_spec a (2 ^ (width t - 1))), (N.eqb_spec a (2 ^ (width t - 1))); lia.
Qed.
Lemma minus_one_bits : forall t b, is_sint t = true -> b < 2 ^ width t ->
  (num t b =? -1)%Z = (b =? 2 ^ width t - 1).
Proof.
  intros t b S B. rewrite num_signed by assumption. unfold sbits. fold (zw t).
  pose proof (half t). pose proof (zw_half t). pose proof (zw_N t).
  assert (0 < 2 ^ (Z.of_N (width t) - 1))%Z by (apply Z.pow_pos_nonneg; pose proof (width_pos t); lia).
  destruct (N.ltb_spec b (2 ^ (width t - 1))), (N.eqb_spec b (2 ^ width t - 1)); lia.
Qed.
Lemma num_zero : forall t b, b < 2 ^ width t -> (num t b =? 0)%Z = (b =? 0).
Proof.
  intros t b B. unfold num, sbits. fold (zw t). rewrite <- zw_N.
  destruct (is_sint t), (N.eqb_spec b 0) as [->|]; try (apply Z.eqb_refl); try lia.
  - destruct (0 <? 2 ^ (width t - 1)) eqn:E; [reflexivity|]. apply N.ltb_ge in E.
    pose proof (N.pow_nonzero 2 (width t - 1)). lia.
  - destruct (b <? 2 ^ (width t - 1)); lia.
Qed.
Lemma div_high : forall z m, (0 < m)%Z -> (z mod (m * m) / m = (z / m) mod m)%Z.
Proof.
  intros z m M. rewrite Z.rem_mul_r by lia. rewrite Z.add_comm, Z.mul_comm, Z.div_add_l by lia.
  rewrite Z.div_small with (a := (z mod m)%Z) by (apply Z.mod_pos_bound; lia). lia.
Qed.
Lemma ty_eqb_refl : forall t, ty_eqb t t = true.
Proof. now intros []. Qed.
Lemma ty_eqb_eq : forall t u, ty_eqb t u = true -> t = u.
Proof. now intros [] []. Qed.
Lemma shift_amount : forall t b, is_int t = true -> b < 2 ^ width t ->
  shift_defined t (num t b) = (b <? width t).
Proof.
  intros t b I B. unfold shift_defined.
  assert (W : (Z.of_N (width t) <= 2 ^ (Z.of_N (width t) - 1))%Z) by (destruct t; try discriminate; now vm_compute).
  pose proof (half t) as H.
  destruct (is_sint t) eqn:S.
  - rewrite num_signed by assumption. unfold sbits. fold (zw t). rewrite <- zw_N.
    destruct (N.ltb_spec b (2 ^ (width t - 1))), (N.ltb_spec b (width t)); lia.
  - rewrite num_unsigned by assumption. destruct (N.ltb_spec b (width t)); lia.
Qed.
Lemma num_amount : forall t b, is_int t = true -> b < 2 ^ width t -> b < width t -> num t b = Z.of_N b.
Proof.
  intros t b I B L.
  assert (W : (Z.of_N (width t) <= 2 ^ (Z.of_N (width t) - 1))%Z) by (destruct t; try discriminate; now vm_compute).
  pose proof (half t) as H. unfold num, sbits. destruct (is_sint t); [|reflexivity].
  destruct (N.ltb_spec b (2 ^ (width t - 1))); lia.
Qed.
Lemma zcmp : forall a b, (a =? b)%Z = match (a ?= b)%Z with Datatypes.Eq => true | _ => false end.
Proof. intros. now destruct (Z.compare_spec a b), (Z.eqb_spec a b); try lia. Qed.
Lemma ir_compare : forall k p t a b,
  (k, p) = (Eq, Z.eqb) \/ (k, p) = (Lt, Z.ltb) \/ (k, p) = (Le, Z.leb) \/ (k, p) = (Gt, Z.gtb) \/ (k, p) = (Ge, Z.geb) ->
  cmp t p a b = b2n (truth k (ordering t a b)).
Proof.
  intros k p t a b E. unfold cmp, ordering, ieee. f_equal. destruct (is_float t) eqn:F.
  - unfold fcmp. destruct (is_nan t a), (is_nan t b); cbn [negb andb orb];
      try (destruct E as [E|[E|[E|[E|E]]]]; now injection E as -> ->).
    destruct E as [E|[E|[E|[E|E]]]]; injection E as -> ->; rewrite ?zcmp; unfold Z.ltb, Z.leb, Z.gtb, Z.geb;
      now destruct (fpos t a ?= fpos t b)%Z.
  - assert (icmp t p a b = p (num t a) (num t b)) as ->.
    { unfold icmp, num. destruct t; try discriminate; reflexivity. }
    destruct E as [E|[E|[E|[E|E]]]]; injection E as -> ->; rewrite ?zcmp; unfold Z.ltb, Z.leb, Z.gtb, Z.geb;
      now destruct (num t a ?= num t b)%Z.
Qed.
Lemma ir_neq : forall t a b, is_float t = false ->
  cmp t (fun x y => negb (x =? y)%Z) a b = b2n (truth Neq (ordering t a b)).
Proof.
  intros t a b F. unfold cmp, ordering. rewrite F. f_equal.
  assert (icmp t (fun x y => negb (x =? y)%Z) a b = negb (num t a =? num t b)%Z) as ->.
  { unfold icmp, num. destruct t; try discriminate; reflexivity. }
  rewrite zcmp. now destruct (num t a ?= num t b)%Z.
Qed.

Section WithFop.
Variable fop : kind -> ty -> list ty -> list N -> N.
Notation ir := (ir fop).

Ltac types t := destruct t; try discriminate.


(** *** The generated code computes the specified operation *)
Lemma ir_neg : forall t a, is_int t = true -> a < 2 ^ width t ->
  ir Neg t [t] [a] = option_map (bits t) (spec1 Neg t (num t a)).
Proof.
  intros t a I A. cbn. rewrite int_not_float by assumption. f_equal. apply wrap_bits.
  rewrite N2Z.inj_sub, zw_N by lia. rewrite <- (Z.sub_0_l (num t a)). apply cong_sub.
  - rewrite Z.mod_same, Z.mod_0_l; pose proof (zw_pos t); lia.
  - symmetry. now apply num_mod.
Qed.
Lemma ir_not : forall t a, is_int t || is_bool t = true -> a < 2 ^ width t ->
  ir Not t [t] [a] = option_map (bits t) (spec1 Not t (num t a)).
Proof.
  intros t a I A. cbn. f_equal. rewrite lxor_ones by assumption.
  rewrite <- (wrap_small t (2 ^ width t - 1 - a)) by lia. apply wrap_bits.
  rewrite N2Z.inj_sub, N2Z.inj_sub, zw_N by lia.
  apply cong_sub; [|symmetry; now apply num_mod].
  rewrite <- (Z_mod_plus_full (-1) 1). f_equal. lia.
Qed.
Lemma ir_abs : forall t a, is_sint t = true -> a < 2 ^ width t ->
  ir Abs t [t] [a] = option_map (bits t) (spec1 Abs t (num t a)).
Proof.
  intros t a I A. cbn. assert (is_float t = false) as -> by now types t. f_equal.
  rewrite num_signed by assumption. unfold sbits. fold (zw t). pose proof (pow_half t) as P.
  destruct (N.ltb_spec a (2 ^ (width t - 1))).
  - rewrite <- (wrap_small t a) at 1 by assumption. apply wrap_bits. f_equal. lia.
  - apply wrap_bits. f_equal. rewrite <- zw_N. lia.
Qed.
Lemma ir_arith : forall k f t a b, is_int t = true -> a < 2 ^ width t -> b < 2 ^ width t ->
  (k, f) = (Add, Z.add) \/ (k, f) = (Sub, Z.sub) \/ (k, f) = (Mul, Z.mul) ->
  ir k t [t; t] [a; b] = Some (bits t (f (num t a) (num t b))).
Proof.
  intros k f t a b I A B [E|[E|E]]; injection E as -> ->; cbn; rewrite int_not_float by assumption; f_equal; apply wrap_bits.
  - rewrite N2Z.inj_add. apply cong_add; symmetry; now apply num_mod.
  - rewrite N2Z.inj_add, N2Z.inj_sub, zw_N by lia.
    replace (Z.of_N a + (zw t - Z.of_N b))%Z with (Z.of_N a - Z.of_N b + 1 * zw t)%Z by lia.
    rewrite Z_mod_plus_full. apply cong_sub; symmetry; now apply num_mod.
  - rewrite N2Z.inj_mul. apply cong_mul; symmetry; now apply num_mod.
Qed.
Lemma ir_fma : forall t a b c, is_int t = true -> a < 2 ^ width t -> b < 2 ^ width t -> c < 2 ^ width t ->
  ir Fma t [t; t; t] [a; b; c] = Some (bits t (num t a * num t b + num t c)).
Proof.
  intros t a b c I A B C. cbn. rewrite int_not_float by assumption. f_equal. apply wrap_bits.
  rewrite N2Z.inj_add. apply cong_add; [|symmetry; now apply num_mod].
  unfold wrap. rewrite N2Z.inj_mod, zw_N by (apply N.pow_nonzero; discriminate).
  rewrite Z.mod_mod by (pose proof (zw_pos t); lia). rewrite N2Z.inj_mul. apply cong_mul; symmetry; now apply num_mod.
Qed.
Lemma ir_div : forall t a b, is_int t = true -> a < 2 ^ width t -> b < 2 ^ width t ->
  ir Div t [t; t] [a; b] = option_map (bits t) (spec2 Div t (num t a) (num t b)).
Proof.
  intros t a b I A B. cbn. rewrite int_not_float by assumption. unfold div_defined.
  rewrite num_zero by assumption. destruct (N.eqb_spec b 0); [reflexivity|]. cbn [negb andb].
  destruct (int_cases t I) as [[S U]|[S U]]; rewrite U, S; cbn [andb].
  - rewrite min_int_bits, minus_one_bits by assumption. destruct (_ && _); cbn; [reflexivity|].
    now rewrite !num_signed.
  - cbn. f_equal. rewrite !num_unsigned by assumption.
    rewrite <- N2Z.inj_quot. rewrite bits_small; [now rewrite N2Z.id|]. rewrite <- zw_N.
    assert (a / b <= a) by (apply div_le_self; assumption). revert H A. generalize (a / b). intros. lia.
Qed.
Lemma ir_mod : forall t a b, is_int t = true -> a < 2 ^ width t -> b < 2 ^ width t ->
  ir Mod t [t; t] [a; b] = option_map (bits t) (spec2 Mod t (num t a) (num t b)).
Proof.
  intros t a b I A B. cbn. rewrite int_not_float by assumption. unfold div_defined.
  rewrite num_zero by assumption. destruct (N.eqb_spec b 0); [reflexivity|]. cbn [negb andb].
  destruct (int_cases t I) as [[S U]|[S U]]; rewrite U, S; cbn [andb].
  - rewrite min_int_bits, minus_one_bits by assumption. destruct (_ && _); cbn; [reflexivity|].
    now rewrite !num_signed.
  - cbn. f_equal. rewrite !num_unsigned by assumption.
    rewrite <- N2Z.inj_rem. rewrite bits_small; [now rewrite N2Z.id|]. rewrite <- zw_N.
    pose proof (N.mod_lt a b n) as L. revert L B. generalize (a mod b). intros. lia.
Qed.
Lemma ir_mul_hi : forall t a b, is_int t = true -> a < 2 ^ width t -> b < 2 ^ width t ->
  ir MulHi t [t; t] [a; b] = option_map (bits t) (spec2 MulHi t (num t a) (num t b)).
Proof.
  intros t a b I A B. cbn [ir option_map spec2]. rewrite int_not_float by assumption. fold (zw t).
  assert (E : forall x z, Z.of_N x = (z mod (zw t * zw t))%Z ->
    N.shiftr x (width t) mod 2 ^ width t = bits t (z / zw t)).
  { intros x z X. change (wrap t (N.shiftr x (width t)) = bits t (z / zw t)). apply wrap_bits.
    rewrite N.shiftr_div_pow2, N2Z.inj_div, zw_N, X, div_high, Z.mod_mod; [reflexivity| |apply zw_pos].
    pose proof (zw_pos t). lia. }
  assert (M : (2 ^ Z.of_N (2 * width t) = zw t * zw t)%Z).
  { unfold zw. rewrite <- Z.pow_add_r by lia. f_equal. lia. }
  pose proof (zw_pos t) as P.
  destruct (int_cases t I) as [[S U]|[S U]]; rewrite U; f_equal; apply E.
  - rewrite M, Z2N.id by (apply Z.mod_pos_bound; nia). now rewrite !num_signed.
  - rewrite !num_unsigned, N2Z.inj_mod, N2Z.inj_mul, N2Z.inj_pow by assumption. now rewrite <- M.
Qed.
Lemma ir_mul_wide : forall t t' a b, wide t = Some t' -> a < 2 ^ width t -> b < 2 ^ width t ->
  ir MulWide t' [t; t] [a; b] = option_map (bits t') (spec2 MulWide t (num t a) (num t b)).
Proof.
  intros t t' a b W A B. cbn [ir option_map spec2]. f_equal.
  destruct t; try discriminate; injection W as <-; [reflexivity|].
  cbn [is_uint]. apply wrap_bits. rewrite N2Z.inj_mul. reflexivity.
Qed.
Lemma ir_minmax : forall k f t a b, is_int t = true -> a < 2 ^ width t -> b < 2 ^ width t ->
  (k, f) = (Min, Z.min) \/ (k, f) = (Max, Z.max) ->
  ir k t [t; t] [a; b] = Some (bits t (f (num t a) (num t b))).
Proof.
  intros k f t a b I A B E.
  assert (U : is_uint t = true -> num t a = Z.of_N a /\ num t b = Z.of_N b).
  { intros U. assert (is_sint t = false) by (destruct (int_cases t I) as [[? ?]|[? ?]]; congruence).
    rewrite !num_unsigned by assumption. auto. }
  assert (S : is_uint t = false -> num t a = sbits (width t) a /\ num t b = sbits (width t) b).
  { intros U'. assert (is_sint t = true) by (destruct (int_cases t I) as [[? ?]|[? ?]]; congruence).
    rewrite !num_signed by assumption. auto. }
  destruct E as [E|E]; injection E as -> ->; cbn [ir]; rewrite int_not_float by assumption; f_equal;
    destruct (is_uint t).
  - destruct (U eq_refl) as [Ha Hb]. destruct (N.min_spec a b) as [[L ->]|[L ->]].
    + rewrite Z.min_l by lia. now rewrite bits_num.
    + rewrite Z.min_r by lia. now rewrite bits_num.
  - destruct (S eq_refl) as [<- <-]. destruct (Z.ltb_spec (num t a) (num t b)).
    + rewrite Z.min_l by lia. now rewrite bits_num.
    + rewrite Z.min_r by lia. now rewrite bits_num.
  - destruct (U eq_refl) as [Ha Hb]. destruct (N.max_spec a b) as [[L ->]|[L ->]].
    + rewrite Z.max_r by lia. now rewrite bits_num.
    + rewrite Z.max_l by lia. now rewrite bits_num.
  - destruct (S eq_refl) as [<- <-]. destruct (Z.ltb_spec (num t b) (num t a)).
    + rewrite Z.max_l by lia. now rewrite bits_num.
    + rewrite Z.max_r by lia. now rewrite bits_num.
Qed.
Lemma ir_bitwise : forall k f t a b, a < 2 ^ width t -> b < 2 ^ width t ->
  (k, f) = (And, Z.land) \/ (k, f) = (Or, Z.lor) \/ (k, f) = (Xor, Z.lxor) ->
  ir k t [t; t] [a; b] = Some (bits t (f (num t a) (num t b))).
Proof.
  intros k f t a b A B [E|[E|E]]; injection E as -> ->; cbn [ir]; rewrite ?ty_eqb_refl; f_equal; symmetry;
    auto using bits_land, bits_lor, bits_lxor.
Qed.
(** A shift amount read as an integer is within the width iff its bits are. *)
Lemma ir_shl : forall t a b, is_int t = true -> a < 2 ^ width t -> b < 2 ^ width t ->
  ir Shl t [t; t] [a; b] = option_map (bits t) (spec2 Shl t (num t a) (num t b)).
Proof.
  intros t a b I A B. cbn [ir spec2]. rewrite shift_amount by assumption.
  destruct (N.ltb_spec b (width t)); [|reflexivity]. cbn. f_equal. apply wrap_bits.
  rewrite N.shiftl_mul_pow2, N2Z.inj_mul, N2Z.inj_pow, num_amount with (b := b) by assumption.
  apply cong_mul; [|reflexivity]. symmetry. now apply num_mod.
Qed.
Lemma ir_shr : forall t a b, is_int t = true -> a < 2 ^ width t -> b < 2 ^ width t ->
  ir Shr t [t; t] [a; b] = option_map (bits t) (spec2 Shr t (num t a) (num t b)).
Proof.
  intros t a b I A B. cbn [ir spec2]. rewrite shift_amount by assumption.
  destruct (N.ltb_spec b (width t)); [|reflexivity]. cbn. f_equal.
  rewrite num_amount with (b := b) by assumption.
  destruct (int_cases t I) as [[S U]|[S U]]; rewrite U.
  - rewrite num_signed, Z.shiftr_div_pow2 by (assumption || lia). reflexivity.
  - rewrite num_unsigned by assumption. rewrite N.shiftr_div_pow2.
    rewrite <- (wrap_small t (a / 2 ^ b)).
    + apply wrap_bits. rewrite N2Z.inj_div, N2Z.inj_pow. reflexivity.
    + eapply N.le_lt_trans; [|exact A]. apply div_le_self, N.pow_nonzero. discriminate.
Qed.
End WithFop.
