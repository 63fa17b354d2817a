(** Numbers denoted by bit patterns. *)
From Verif Require Import Base.
Local Open Scope N_scope.

(** Value of a binary interchange pattern without sign, as a multiple of the smallest
    positive number of the format; [p]: stored bits of the significand. *)
Definition units (p b : N) : N :=
  if b <? 2 ^ p then b else (2 ^ p + b mod 2 ^ p) * 2 ^ (b / 2 ^ p - 1).
(** In multiples of 2^-149: single precision, half precision (2^-24). *)
Definition float_value (b : N) : N := units 23 b.
Definition half_value (h : N) : N := units 10 h * 2 ^ 125.

Definition dist (a b : N) : N := if a <=? b then b - a else a - b.
(** [r] is the half precision number closest to [x], ties to even.  0x7c00 stands for the
    first number beyond the largest one (2^16), which becomes infinity. *)
Definition nearest_even (x r : N) : Prop :=
  r <= 0x7c00 /\
  forall h, h <= 0x7c00 -> h <> r ->
    dist x (half_value r) < dist x (half_value h) \/
    (dist x (half_value r) = dist x (half_value h) /\ N.even r = true).
