(** Text for memory sizes: log.cpp:205-234 (print_float_with_unit), 236-252
    (jitc_mem_string).

    Characters are numbers.  "%.*f" rounds the exact value correctly, ties to even (as glibc
    does).  std::log10 is a parameter, see Fmt_Spec.v.  Texts are far shorter than the buffer
    (64 characters), whose bounds are not modelled. *)
From Verif Require Import Base.
Local Open Scope N_scope.

(** [a / b], rounded to the nearest integer, ties to even *)
Definition round_div (a b : N) : N :=
  let q := a / b in let r := a mod b in
  if 2 * r <? b then q else if b <? 2 * r then q + 1 else if N.even q then q else q + 1.
(** (double) size *)
Definition dbl (n : N) : N :=
  let e := N.log2 n - 52 in round_div n (2 ^ e) * 2 ^ e.

(** Last digit first *)
Fixpoint low (k : nat) (n : N) : list N :=
  match k with O => [] | S k => 48 + n mod 10 :: low k (n / 10) end.
Fixpoint high_ (fuel : nat) (n : N) : list N :=
  match fuel with
  | O => []
  | S fuel => if n <? 10 then [48 + n] else 48 + n mod 10 :: high_ fuel (n / 10)
  end.
Definition high (n : N) : list N := high_ (S (N.to_nat (N.size n))) n.
(** "%.*f" of [d / 10^k], backwards *)
Definition printed (k : nat) (d : N) : list N :=
  match k with O => high d | _ => low k d ++ 46 :: high (d / 10 ^ N.of_nat k) end.
(** 221-225: while (c = buf[pos], pos > 0 && (c == '0' || c == '.')) pos--; *)
Fixpoint strip (r : list N) : list N :=
  match r with
  | c :: rest => match rest with [] => r | _ => if (c =? 48) || (c =? 46) then strip rest else r end
  | [] => []
  end.
(** Value [num / den]; [lg]: int(std::log10(value)) *)
Definition digits_after_comma (lg : N -> N -> N) (num den : N) : nat :=
  if num =? 0 then 0%nat else N.to_nat (3 - lg num den).
Definition print_float_with_unit (lg : N -> N -> N) (num den : N) (unit : list N) : list N :=
  let k := digits_after_comma lg num den in
  rev (strip (printed k (round_div (num * 10 ^ N.of_nat k) den))) ++ 32 :: unit.

Definition orders : list (list N) := [[66]; [75; 105; 66]; [77; 105; 66]; [71; 105; 66]; [84; 105; 66]; [80; 105; 66]; [69; 105; 66]].
(** 245-246: value > 1024 with value = num / 1024^i *)
Fixpoint scale (n : nat) (i : nat) (num : N) : nat :=
  match n with
  | O => i
  | S n => if num <=? 1024 * 1024 ^ N.of_nat i then i else scale n (S i) num
  end.
Definition mem_string (lg : N -> N -> N) (size : N) : list N :=
  let num := dbl size in
  let i := scale 6 0 num in
  print_float_with_unit lg num (1024 ^ N.of_nat i) (nth i orders []).
