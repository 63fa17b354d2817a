(** IEEE 754 binary16, binary32 and binary64 with rounding to nearest even, as an
    instance of the arithmetic [fop] of the machine.  Based on Coq.Floats.SpecFloat. *)
From Coq Require Import Floats.SpecFloat.
From Verif Require Import Base Op_Model.
Local Open Scope N_scope.

Definition fprec (t : ty) : Z := (Z.of_N (man_bits t) + 1)%Z.
Definition femax (t : ty) : Z := (2 ^ (Z.of_N (exp_bits t) - 1))%Z.
Definition femin (t : ty) : Z := (3 - femax t - fprec t)%Z.

Definition decode (t : ty) (x : N) : spec_float :=
  let s := 2 ^ (width t - 1) <=? x in
  let m := x mod 2 ^ man_bits t in
  let e := x / 2 ^ man_bits t mod 2 ^ exp_bits t in
  if e =? 0 then
    match m with 0 => S754_zero s | N.pos p => S754_finite s p (femin t) end
  else if e =? 2 ^ exp_bits t - 1 then
    if m =? 0 then S754_infinity s else S754_nan
  else
    match m + 2 ^ man_bits t with
    | 0 => S754_nan
    | N.pos p => S754_finite s p (femin t + Z.of_N e - 1)%Z
    end.

Definition encode (t : ty) (f : spec_float) : N :=
  let sign (s : bool) := if s then 2 ^ (width t - 1) else 0 in
  match f with
  | S754_zero s => sign s
  | S754_infinity s => sign s + (2 ^ exp_bits t - 1) * 2 ^ man_bits t
  | S754_nan => (2 ^ exp_bits t - 1) * 2 ^ man_bits t + 2 ^ (man_bits t - 1)
  | S754_finite s m e =>
      if N.pos m <? 2 ^ man_bits t then sign s + N.pos m
      else sign s + Z.to_N (e - femin t + 1) * 2 ^ man_bits t + (N.pos m - 2 ^ man_bits t)
  end.

(** a * b + c with one rounding *)
Definition SFfma (prec emax : Z) (x y z : spec_float) : spec_float :=
  match x, y, z with
  | S754_finite sx mx ex, S754_finite sy my ey, S754_finite sz mz ez =>
      let ep := (ex + ey)%Z in
      let e := Z.min ep ez in
      binary_normalize prec emax
        (cond_Zopp (xorb sx sy) (Zpos (fst (shl_align (mx * my) ep e))) +
         cond_Zopp sz (Zpos (fst (shl_align mz ez e))))%Z e false
  | S754_finite _ _ _, S754_finite _ _ _, S754_zero _ => SFmul prec emax x y
  | S754_finite _ _ _, S754_finite _ _ _, S754_infinity _ => z
  | S754_finite _ _ _, S754_finite _ _ _, S754_nan => z
  | _, _, _ => SFadd prec emax (SFmul prec emax x y) z
  end.

Definition machine (k : kind) (t : ty) (_ : list ty) (args : list N) : N :=
  let p := fprec t in let em := femax t in
  match k, map (decode t) args with
  | Neg, [a] => encode t (SFopp a)
  | Abs, [a] => encode t (SFabs a)
  | Add, [a; b] => encode t (SFadd p em a b)
  | Sub, [a; b] => encode t (SFsub p em a b)
  | Mul, [a; b] => encode t (SFmul p em a b)
  | Div, [a; b] => encode t (SFdiv p em a b)
  | Fma, [a; b; c] => encode t (SFfma p em a b c)
  | _, _ => 0
  end.
