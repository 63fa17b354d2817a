(** Floating point: which results of the builders are promised.  Values are bit
    patterns; [fop] is the arithmetic of the machine (an uninterpreted function of the
    operation, the types and the operands), restricted here by [laws]. *)
From Verif Require Import Base Op_Model.
Local Open Scope N_scope.

(** +0 or -0 *)
Definition fzero (t : ty) (x : N) : bool := (x =? 0) || (x =? 2 ^ (width t - 1)).
Definition number (t : ty) (x : N) : Prop := x < 2 ^ width t /\ is_nan t x = false.

Section FSpec.
Variable fop : kind -> ty -> list ty -> list N -> N.
Definition op2 (k : kind) (t : ty) (a b : N) : N := wrap t (fop k t [t; t] [a; b]).
Definition op3 (t : ty) (a b c : N) : N := wrap t (fop Fma t [t; t; t] [a; b; c]).
(** Facts of IEEE 754 about neutral operands.  They hold for binary16, binary32 and
    binary64 (Op_Ieee.v). *)
Record laws (t : ty) : Prop := mkLaws {
  add_l : forall z b, fzero t z = true -> number t b -> fzero t b = false -> op2 Add t z b = b;
  add_r : forall a z, fzero t z = true -> number t a -> fzero t a = false -> op2 Add t a z = a;
  sub_r : forall a z, fzero t z = true -> number t a -> fzero t a = false -> op2 Sub t a z = a;
  mul_l : forall b, number t b -> op2 Mul t (type_one t) b = b;
  mul_r : forall a, number t a -> op2 Mul t a (type_one t) = a;
  mul_z : forall y z, fzero t y = true -> fzero t z = true -> fzero t (op2 Mul t y z) = true;
  div_r : forall a, number t a -> op2 Div t a (type_one t) = a }.
(** The fused operation with a neutral factor or summand. *)
Record fma_laws (t : ty) : Prop := mkFma {
  fma_l : forall b c, number t b -> number t c -> op3 t (type_one t) b c = op2 Add t b c;
  fma_r : forall a c, number t a -> number t c -> op3 t a (type_one t) c = op2 Add t a c;
  fma_z : forall a b z, number t a -> number t b -> fzero t z = true -> is_nan t (op2 Mul t a b) = false ->
    fzero t (op2 Mul t a b) = false -> op3 t a b z = op2 Mul t a b;
  fma_zz : forall y z c, fzero t y = true -> fzero t z = true -> number t c -> fzero t c = false -> op3 t y z c = c }.

(** Lanes about which a claim is made: no NaN, and no sum of two zeros, whose sign
    the simplifications do not respect. *)
Definition claimed2 (k : kind) (t : ty) (a b : N) : bool :=
  negb (is_nan t a) && negb (is_nan t b) &&
  match k with Add | Sub => negb (fzero t a && fzero t b) | _ => true end.
Definition claimed3 (t : ty) (a b c : N) : bool :=
  let p := op2 Mul t a b in
  negb (is_nan t a) && negb (is_nan t b) && negb (is_nan t c) && negb (is_nan t p) && negb (fzero t p && fzero t c).
End FSpec.
