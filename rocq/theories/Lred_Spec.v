(** Reductions of the lanes of a variable of integer type. *)
From Verif Require Import Base Op_Model Op_Spec Lred_Model.
Local Open Scope N_scope.

(** [x] is the reduction of the values [vs] (in any order). *)
Definition reduction (op : rop) (t : ty) (vs : list N) (x : N) : Prop :=
  match op with
  | RAdd => x = bits t (fold_right Z.add 0%Z (map (num t) vs))
  | RMul => x = bits t (fold_right Z.mul 1%Z (map (num t) vs))
  | RMin => In x vs /\ Forall (fun y => num t x <= num t y)%Z vs
  | RMax => In x vs /\ Forall (fun y => num t y <= num t x)%Z vs
  | RAnd => vs <> [] /\ x = fold_right N.land (2 ^ width t - 1) vs
  | ROr => vs <> [] /\ x = fold_right N.lor 0 vs
  end.

(** [x] reduces those of the first [n] lanes of variable [h] that satisfy [sel]. *)
Definition reduces fop st h n op t (sel : N -> Prop) (x : N) : Prop :=
  forall L vs, NoDup L -> (forall j, In j L <-> j < n /\ sel j) ->
    Forall2 (fun j v => value fop st h j = Some v) L vs -> reduction op t vs x.

(** A call returned a variable of type [t] and size [n] whose lanes satisfy [P]. *)
Definition returns fop st (res : out (store * nat)) (t : ty) (n : N) (P : N -> N -> Prop) : Prop :=
  exists st' r, res = Ok (st', r) /\ wf fop st' /\ kept fop st st' /\ has st' r t n /\
    forall l, l < n -> exists x, value fop st' r l = Some x /\ P l x.

(** Lanes that contribute to a lane of a prefix reduction. *)
Definition in_prefix (bs : N) (exclusive reverse : bool) (l j : N) : Prop :=
  j / bs = l / bs /\
  (if reverse then (if exclusive then l < j else l <= j)
   else (if exclusive then j < l else j <= l)).

(** std::pow is exact for integers whose power is exactly representable. *)
Definition pow_exact (powd : Z -> Z -> option Z) : Prop :=
  forall x e, (0 <= e)%Z -> (Z.abs (x ^ e) <= 2 ^ 53)%Z -> powd x e = Some (x ^ e)%Z.
(** [a ^ n] fits the type, and [n] as well. *)
Definition pow_fits (t : ty) (a : Z) (n : N) : Prop :=
  num t (n mod 2 ^ width t) = Z.of_N n /\ num t (bits t (a ^ Z.of_N n)) = (a ^ Z.of_N n)%Z /\
  (Z.abs (a ^ Z.of_N n) <= 2 ^ 53)%Z.
(** The closed form for [n] equal values is computed without undefined behaviour. *)
Definition scalar_ok powd (op : rop) (t : ty) (n a : N) : Prop :=
  match op with
  | RAdd => arith_ok t (num t a * num t (n mod 2 ^ width t))
  | RMul => pow_exact powd /\ pow_fits t (num t a) n
  | _ => True
  end.
