(** Half precision conversions: include/drjit-core/half.h:130-178 (the software fallbacks;
    hardware conversions, half.h:74-92, are not modelled).

    Simplifications: single precision products by powers of two are computed with the
    default rounding mode (to nearest, ties to even) and with subnormal numbers; numbers are
    bit patterns. *)
From Verif Require Import Base.
Local Open Scope N_scope.

(** ** Single precision arithmetic *)
Definition inf_f : N := 0x7f800000.
Definition inf_h : N := 0x7c00.

(** [m / 2^s] rounded to nearest, ties to even *)
Definition rne (m s : N) : N :=
  let q := m / 2 ^ s in
  let t := m mod 2 ^ s in
  if (2 ^ s <? 2 * t) || ((2 * t =? 2 ^ s) && N.odd q) then q + 1 else q.
(** Bits of [m * 2^e] rounded to single precision *)
Definition round32 (m : N) (e : Z) : N :=
  if m =? 0 then 0 else
  let E := Z.max (Z.of_N (N.log2 m) + e - 23) (-149) in
  let q := if (E <=? e)%Z then m * 2 ^ Z.to_N (e - E) else rne m (Z.to_N (E - e)) in
  N.min (Z.to_N (E + 149) * 2 ^ 23 + q) inf_f.
(** Significand and exponent of a finite number without sign *)
Definition mant (b : N) : N := if b <? 2 ^ 23 then b else 2 ^ 23 + b mod 2 ^ 23.
Definition expo (b : N) : Z := if b <? 2 ^ 23 then -149 else Z.of_N (b / 2 ^ 23) - 150.

Section Half.
(** Result of a product with a NaN. *)
Variable qnan : N -> N.
(** [b * 2^k] for [b] without sign *)
Definition fmul (b : N) (k : Z) : N :=
  if inf_f <? b then qnan b else if b =? inf_f then inf_f else round32 (mant b) (expo b + k).
(** the same for numbers with a sign *)
Definition fmul_s (b : N) (k : Z) : N :=
  N.lor (N.land b 0x80000000) (fmul (N.land b 0x7fffffff) k).

(** half.h:130-144 *)
Definition half_to_float (value : N) : N :=
  let sign := N.land value 0x8000 in
  let bits := N.lxor value sign in
  let is_norm := bits <? inf_h in
  let bits := N.lor (u32 (N.shiftl sign 16)) (u32 (N.shiftl bits 13)) in
  let bits := fmul_s bits 112 in
  N.lor bits (if is_norm then 0 else inf_f).

(** half.h:146-178; [mask c]: all bits set if [c] *)
Definition mask (c : bool) : N := if c then 2 ^ 32 - 1 else 0.
Definition float_to_half (value : N) : N :=
  let sign := N.land value 0x80000000 in
  let bits := N.lxor value sign in
  let is_nan := inf_f <? bits in
  let is_sub := bits <? 0x38800000 in
  let norm := bits in
  let subn := fmul (fmul norm (-125)) 13 in
  let norm := fmul norm (-112) in
  let bits := norm in
  let bits := u32 (bits + N.land (N.shiftr bits 13) 1) in
  let bits := u32 (bits + (N.shiftl 1 12 - 1)) in
  let bits := N.lxor bits (N.land (mask is_sub) (N.lxor subn bits)) in
  let bits := N.shiftr bits 13 in
  let bits := N.lxor bits (N.land (mask (inf_h <? bits)) (N.lxor inf_h bits)) in
  let bits := N.lxor bits (N.land (mask is_nan) (N.lxor 0x7e00 bits)) in
  let bits := N.lor bits (N.shiftr sign 16) in
  bits mod 2 ^ 16.

(** half.h:48 with a half precision operand: [half(float(a) * float(b))]; the product of
    magnitudes is exact up to the final rounding. *)
Definition mag_mul (a b : N) : N :=
  if inf_f <? a then qnan a else if inf_f <? b then qnan b
  else if a =? inf_f then (if b =? 0 then qnan 0 else inf_f)
  else if b =? inf_f then (if a =? 0 then qnan 0 else inf_f)
  else round32 (mant a * mant b) (expo a + expo b).
Definition float_mul (u v : N) : N :=
  N.lor (N.land (N.lxor u v) 0x80000000) (mag_mul (N.land u 0x7fffffff) (N.land v 0x7fffffff)).
Definition half_mul (a b : N) : N := float_to_half (float_mul (half_to_float a) (half_to_float b)).

(** half.h:38, [half(double)]: the argument first becomes a [float].  [d]: bits of a finite
    double without sign. *)
Definition float_of_double (d : N) : N :=
  if d <? 2 ^ 52 then round32 d (-1074)
  else round32 (2 ^ 52 + d mod 2 ^ 52) (Z.of_N (d / 2 ^ 52) - 1075).
Definition half_of_double (d : N) : N := float_to_half (float_of_double d).
End Half.
