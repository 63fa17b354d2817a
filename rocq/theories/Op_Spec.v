(** What the arithmetic, comparison and bit builders should compute. *)
From Verif Require Import Base Op_Model.
Local Open Scope N_scope.

(** The [width t]-bit two's complement representation of an integer. *)
Definition bits (t : ty) (z : Z) : N := Z.to_N (z mod 2 ^ Z.of_N (width t)).

(** Results of the operations on exact integers; [None]: not specified (division by
    zero or overflow of a division, shift amounts outside [0, width)). *)
Definition min_int (t : ty) : Z := (- 2 ^ (Z.of_N (width t) - 1))%Z.
Definition div_defined (t : ty) (a b : Z) : bool :=
  negb (b =? 0)%Z && negb (is_sint t && (a =? min_int t)%Z && (b =? -1)%Z).
Definition shift_defined (t : ty) (b : Z) : bool := (0 <=? b)%Z && (b <? Z.of_N (width t))%Z.

Definition spec1 (k : kind) (t : ty) (a : Z) : option Z :=
  match k with
  | Neg => Some (- a)%Z
  | Not => Some (-1 - a)%Z
  | Abs => Some (Z.abs a)
  | _ => None
  end.
Definition spec2 (k : kind) (t : ty) (a b : Z) : option Z :=
  match k with
  | Add => Some (a + b)%Z
  | Sub => Some (a - b)%Z
  | Mul => Some (a * b)%Z
  | MulWide => Some (a * b)%Z
  | MulHi => Some (a * b / 2 ^ Z.of_N (width t))%Z
  | Div => if div_defined t a b then Some (Z.quot a b) else None
  | Mod => if div_defined t a b then Some (Z.rem a b) else None
  | Min => Some (Z.min a b)
  | Max => Some (Z.max a b)
  | And => Some (Z.land a b)
  | Or => Some (Z.lor a b)
  | Xor => Some (Z.lxor a b)
  | Shl => if shift_defined t b then Some (a * 2 ^ b)%Z else None
  | Shr => if shift_defined t b then Some (a / 2 ^ b)%Z else None
  | _ => None
  end.

(** IEEE 754 comparison of two bit patterns: [None] when an operand is a NaN. *)
Definition ieee (t : ty) (a b : N) : option comparison :=
  if is_nan t a || is_nan t b then None else Some (fpos t a ?= fpos t b)%Z.
Definition ordering (t : ty) (a b : N) : option comparison :=
  if is_float t then ieee t a b else Some (num t a ?= num t b)%Z.
Definition truth (k : kind) (o : option comparison) : bool :=
  match k, o with
  | Eq, Some Datatypes.Eq => true
  | Neq, Some Datatypes.Eq => false
  | Neq, _ => true
  | Lt, Some Datatypes.Lt => true
  | Le, Some (Datatypes.Lt | Datatypes.Eq) => true
  | Gt, Some Datatypes.Gt => true
  | Ge, Some (Datatypes.Gt | Datatypes.Eq) => true
  | _, _ => false
  end.

(** Bit counting on [w] bits. *)
Definition popcount (w : N) (x r : N) : Prop :=
  exists l, NoDup l /\ (forall i, In i l <-> i < w /\ N.testbit x i = true) /\ N.of_nat (length l) = r.
Definition leading_zeros (w x r : N) : Prop :=
  r <= w /\ (forall i, w - r <= i -> i < w -> N.testbit x i = false) /\
  (r < w -> N.testbit x (w - r - 1) = true).
Definition trailing_zeros (w x r : N) : Prop :=
  r <= w /\ (forall i, i < r -> N.testbit x i = false) /\ (r < w -> N.testbit x r = true).
Definition reversal (w x r : N) : Prop :=
  r < 2 ^ w /\ forall i, i < w -> N.testbit r i = N.testbit x (w - 1 - i).
Definition bit_fact (k : kind) : N -> N -> N -> Prop :=
  match k with
  | Popc => popcount | Clz => leading_zeros | Ctz => trailing_zeros | Brev => reversal
  | _ => fun _ _ _ => False
  end.

(** C++17: an operation on literals is undefined if its exact result does not fit the
    signed type it is computed in (types narrower than 32 bits are computed in int),
    or if a shift is too wide. *)
Definition fits (w : N) (z : Z) : Prop := (- 2 ^ (Z.of_N w - 1) <= z < 2 ^ (Z.of_N w - 1))%Z.
Definition computed_signed (t : ty) : bool := is_sint t || (width t <? 32).
Definition computed_width (t : ty) : N := N.max 32 (width t).
Definition arith_ok (t : ty) (z : Z) : Prop := computed_signed t = true -> fits (computed_width t) z.
Definition fold1_ok (k : kind) (t : ty) (a : Z) : Prop :=
  match k with
  | Neg => (* negation happens in a signed type for every type *)
      ~ (32 <= width t /\ bits t a = 2 ^ (width t - 1))
  | Abs => ~ (is_sint t = true /\ 32 <= width t /\ a = min_int t)
  | _ => True
  end.
Definition fold2_ok (k : kind) (t : ty) (a b : Z) : Prop :=
  match k with
  | Add => arith_ok t (a + b)
  | Sub => arith_ok t (a - b)
  | Mul => arith_ok t (a * b)
  | Shl => if width t <? 32 then
             bits t b < 32 /\ bits t a * 2 ^ bits t b < 2 ^ 32
           else bits t b < width t
  | Shr => (0 <= b < Z.of_N (computed_width t))%Z
  | _ => True
  end.
Definition fold3_ok (t : ty) (a b c : Z) : Prop :=
  arith_ok t (a * b) /\ arith_ok t (a * b + c).

(** ** Variables *)

Section Vars.
Variable fop : kind -> ty -> list ty -> list N -> N.
Notation value := (value fop).

Definition has (st : store) (h : nat) (t : ty) (n : N) : Prop :=
  exists d, get st h = Some (mkVar t n d).
Definition literal_is (st : store) (h : nat) (x : N) : Prop :=
  exists v, get st h = Some v /\ v_desc v = Lit x.

(** Variables are not empty, operands come earlier and have the size of the result
    or are scalars, and all contents are within the range of their type. *)
Definition var_ok (st : store) (i : nat) (v : var) : Prop :=
  1 <= v_size v /\
  match v_desc v with
  | Lit x => x < 2 ^ width (v_ty v)
  | Arr f => forall l, f l < 2 ^ width (v_ty v)
  | Ctr => v_size v <> 1
  | Op _ deps => Forall (fun d => (d <= i)%nat /\ exists u, get st d = Some u /\
                                  (v_size u = 1 \/ v_size u = v_size v)) deps
  end.
Definition ranged (st : store) : Prop :=
  forall h v l x, get st h = Some v -> value st h l = Some x -> x < 2 ^ width (v_ty v).
Definition wf (st : store) : Prop :=
  (forall i v, nth_error st i = Some v -> var_ok st i v) /\ ranged st.

(** The variables of [st] live on in [st'] with the same type, the same definition and
    the same value in every lane; only scalars and literals may have been resized. *)
Definition kept (st st' : store) : Prop :=
  forall h t n d, get st h = Some (mkVar t n d) ->
    (exists n', get st' h = Some (mkVar t n' d) /\ (n' = n \/ n = 1 \/ exists x, d = Lit x)) /\
    forall l, value st' h l = value st h l.

(** A builder succeeded with a variable of type [t] and size [n] whose lanes are
    related to the lane number by [P]. *)
Definition built (st : store) (res : out (store * nat)) (t : ty) (n : N) (P : N -> N -> Prop) : Prop :=
  exists st' r, res = Ok (st', r) /\ wf st' /\ kept st st' /\ has st' r t n /\
    forall l, (exists x, P l x) -> exists x, value st' r l = Some x /\ P l x.

(** Lanes of the operands. *)
Definition lanes1 st a0 t0 (R : Z -> option Z) t (l x : N) : Prop :=
  exists a z, value st a0 l = Some a /\ R (num t0 a) = Some z /\ x = bits t z.
Definition lanes2 st a0 t0 a1 t1 (R : Z -> Z -> option Z) t (l x : N) : Prop :=
  exists a b z, value st a0 l = Some a /\ value st a1 l = Some b /\
    R (num t0 a) (num t1 b) = Some z /\ x = bits t z.
Definition lanes3 st a0 t0 a1 t1 a2 t2 (R : Z -> Z -> Z -> option Z) t (l x : N) : Prop :=
  exists a b c z, value st a0 l = Some a /\ value st a1 l = Some b /\ value st a2 l = Some c /\
    R (num t0 a) (num t1 b) (num t2 c) = Some z /\ x = bits t z.

(** Operand sizes that may be combined. *)
Definition compat (n m : N) : Prop := n = m \/ n = 1 \/ m = 1.
End Vars.
