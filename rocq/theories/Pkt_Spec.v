(** What a (packet) scatter does: every entry sees the contributions of the active lanes
    that refer to it, in the order of the lanes. *)
From Verif Require Import Base.
Local Open Scope N_scope.

Fixpoint lanes (from : N) (c : nat) : list N := match c with O => [] | S c => from :: lanes (from + 1) c end.
(** Entry [a] after packets of [n] components were scattered to packet positions [x]:
    component [a mod n] of the lanes with position [a / n] *)
Definition entry {V} (upd2 : V -> V -> V) (w n : N) (x : N -> N) (m : N -> bool) (val : N -> N -> V) (old : V) (a : N) : V :=
  fold_left (fun acc k => if m k && (x k =? a / n) then upd2 acc (val (a mod n) k) else acc) (lanes 0 (N.to_nat w)) old.
(** Several vectors of lanes one after another; each has positions, a mask, and components *)
Notation block V := ((N -> N) * (N -> bool) * (N -> N -> V))%type.
Definition entries {V} (upd2 : V -> V -> V) (w n : N) (bs : list (block V)) (old : V) (a : N) : V :=
  fold_left (fun acc '(x, m, val) => entry upd2 w n x m val acc a) bs old.
