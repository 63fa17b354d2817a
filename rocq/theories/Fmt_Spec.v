(** Reading a text such as "12.5 KiB". *)
From Verif Require Import Base.
Local Open Scope N_scope.

(** Number read so far: digits, how many of them after the point, whether there was one *)
Definition rd (st : N * N * bool) (c : N) : N * N * bool :=
  let '(p, q, dot) := st in
  if c =? 46 then (p, q, true) else (p * 10 + (c - 48), if dot then q + 1 else q, dot).
Fixpoint split_space (l : list N) : list N * list N :=
  match l with
  | [] => ([], [])
  | c :: l => if c =? 32 then ([], l) else let '(a, b) := split_space l in (c :: a, b)
  end.
(** B, KiB, MiB, ... *)
Definition unit_exp (u : list N) : option N :=
  match u with
  | [66] => Some 0
  | [75; 105; 66] => Some 1
  | [77; 105; 66] => Some 2
  | [71; 105; 66] => Some 3
  | [84; 105; 66] => Some 4
  | [80; 105; 66] => Some 5
  | [69; 105; 66] => Some 6
  | _ => None
  end.
(** [p / 10^q * 1024^u] bytes *)
Definition read_size (l : list N) : option (N * N * N) :=
  let '(num, unit) := split_space l in
  let '(p, q, _) := fold_left rd num (0, 0, false) in
  let? u := unit_exp unit in Some (p, q, u).
(** An integer part of a logarithm that is not too large, where the logarithm itself may be
    off by a rounding error *)
Definition log10_ok (lg : N -> N -> N) : Prop :=
  forall num den, 0 < den -> den <= num -> 10000 * (10 ^ lg num den * den) <= 10001 * num.
