(** What block reductions and prefix reductions must compute. *)
From Verif Require Import Base Par_Model Red_Model.
Local Open Scope N_scope.

(** Elements [a .. b-1] of a list (those that exist). *)
Definition slice {A} (xs : list A) (a b : N) : list A :=
  firstn (N.to_nat (b - a)) (skipn (N.to_nat a) xs).

(** Number of blocks of [bs] elements covering [n] elements. *)
Definition nblocks (n bs : N) : N := (n + bs - 1) / bs.

(** Elements of block [b]; the last block may be shorter. *)
Definition block {A} (xs : list A) (bs b : N) : list A :=
  slice xs (b * bs) ((b + 1) * bs).

Section S.
Context {T Value : Type}.
Variables (up : T -> Value) (down : Value -> T).
Variables (init : Value) (rop : Value -> Value -> Value).

(** [reduces xs v]: [v] is obtained by combining the elements [xs], each exactly
    once and in this order, in some bracketing: adjacent sub-sequences may be
    reduced separately, each accumulation starting from the identity or from its
    first item. *)
Inductive reduces : list T -> T -> Prop :=
| red_one x : reduces [x] x
| red_parts xss ys :
    Forall2 reduces xss ys ->
    reduces (concat xss) (down (fold_left (fun a y => rop a (up y)) ys init))
| red_from xss y ys :
    Forall2 reduces xss (y :: ys) ->
    reduces (concat xss) (down (fold_left (fun a y => rop a (up y)) ys (up y))).
End S.

(** Elements entering position [j] of a scan with blocks of [bs] elements. *)
Definition scan_inputs {A} (xs : list A) (bs : N) (exclusive reverse : bool) (j : N) : list A :=
  if reverse
  then slice xs (if exclusive then j + 1 else j) ((j / bs + 1) * bs)
  else slice xs (j / bs * bs) (if exclusive then j else j + 1).

Section S.
Context {T Value : Type}.
Variables (up : T -> Value) (down : Value -> T).
Variables (init : Value) (rop : Value -> Value -> Value).

(** [v] is a possible result at position [j]: a bracketing of the entering elements;
    for reverse scans the operands of the (commutative) operation may also be
    exchanged. *)
Definition scanned (xs : list T) (bs : N) (exclusive reverse : bool) (j : N) (v : T) : Prop :=
  if reverse
  then exists zs, Permutation zs (scan_inputs xs bs exclusive reverse j) /\
                  reduces up down init rop zs v
  else reduces up down init rop (scan_inputs xs bs exclusive reverse j) v.
End S.

(** Reference for integer types: the exact result, wrapped to the type at the end. *)
Definition int_reduce (t : ity) (o : redop) (xs : list Z) : Z :=
  match o with
  | RAdd => it_wrap t (fold_right Z.add 0%Z xs)
  | RMul => it_wrap t (fold_right Z.mul 1%Z xs)
  | RMin => fold_right Z.min (it_max t) xs
  | RMax => fold_right Z.max (it_min t) xs
  | ROr => fold_right Z.lor 0%Z xs
  | RAnd => fold_right Z.land (it_wrap t (-1)) xs
  end.

(** The integer element types of the reduction kernels. *)
Definition is_int_type (t : ity) : Prop := In (it_bits t) [8; 16; 32; 64]%Z.
