(** Arithmetic, logical and comparison builders: src/op.cpp:76-1612, 1823-1896,
    with the node semantics of the generated code (src/llvm_eval.cpp:523-1005).

    Simplifications: reference counts, value numbering, dirty/symbolic/consumed
    bits, JIT arrays and cooperative vectors are omitted (value numbering only
    decides which handles are equal; every statement below is for all handles);
    logging omitted; floating point arithmetic is an arbitrary parameter, and the
    detours of half precision operations through single precision (op.cpp:282-343)
    are omitted; the LLVM backend. *)
From Verif Require Import Base.
Local Open Scope N_scope.

(** jit.h VarType (without Void, BaseInt, Pointer, BaseFloat) *)
Inductive ty := Bool | I8 | U8 | I16 | U16 | I32 | U32 | I64 | U64 | F16 | F32 | F64.
Definition ty_eqb (a b : ty) : bool :=
  match a, b with
  | Bool, Bool | I8, I8 | U8, U8 | I16, I16 | U16, U16 | I32, I32 | U32, U32
  | I64, I64 | U64, U64 | F16, F16 | F32, F32 | F64, F64 => true
  | _, _ => false
  end.
(** var.cpp type_size, in bits; booleans hold 0 or 1 *)
Definition width (t : ty) : N :=
  match t with
  | Bool => 1 | I8 | U8 => 8 | I16 | U16 | F16 => 16 | I32 | U32 | F32 => 32 | I64 | U64 | F64 => 64
  end.
(** internal.h:1420-1448 *)
Definition is_sint (t : ty) : bool := match t with I8 | I16 | I32 | I64 => true | _ => false end.
Definition is_uint (t : ty) : bool := match t with U8 | U16 | U32 | U64 => true | _ => false end.
Definition is_int (t : ty) : bool := is_sint t || is_uint t.
Definition is_bool (t : ty) : bool := match t with Bool => true | _ => false end.
Definition is_float (t : ty) : bool := match t with F16 | F32 | F64 => true | _ => false end.
Definition wide (t : ty) : option ty := match t with U32 => Some U64 | I32 => Some I64 | _ => None end.

Definition wrap (t : ty) (x : N) : N := x mod 2 ^ width t.
Definition zwrap (t : ty) (z : Z) : N := Z.to_N (z mod 2 ^ Z.of_N (width t)).
(** Two's complement reading of a bit pattern of [w] bits. *)
Definition sbits (w x : N) : Z := if x <? 2 ^ (w - 1) then Z.of_N x else (Z.of_N x - 2 ^ Z.of_N w)%Z.
Definition num (t : ty) (x : N) : Z := if is_sint t then sbits (width t) x else Z.of_N x.

(** var.cpp:147-165 *)
Definition type_one (t : ty) : N :=
  match t with F16 => 0x3c00 | F32 => 0x3f800000 | F64 => 0x3ff0000000000000 | _ => 1 end.
Definition type_min (t : ty) : N :=
  match t with
  | I8 => 0x80 | I16 => 0x8000 | I32 => 0x80000000 | I64 => 0x8000000000000000
  | F16 => 0xfc00 | F32 => 0xff800000 | F64 => 0xfff0000000000000 | _ => 0
  end.
Definition type_max (t : ty) : N :=
  match t with
  | Bool => 1 | I8 => 0x7f | U8 => 0xff | I16 => 0x7fff | U16 => 0xffff | I32 => 0x7fffffff
  | U32 => 0xffffffff | I64 => 0x7fffffffffffffff | U64 => 0xffffffffffffffff
  | F16 => 0x7c00 | F32 => 0x7f800000 | F64 => 0x7ff0000000000000
  end.

Inductive kind :=
| Neg | Not | Abs | Add | Sub | Mul | Div | Mod | MulHi | MulWide | Fma | Min | Max
| Eq | Neq | Lt | Le | Gt | Ge | Select | Popc | Clz | Brev | Ctz | And | Or | Xor | Shl | Shr
| Cast | Bitcast.

(** ** Generated code *)

(** Exponent and significand widths of the floating point types. *)
Definition exp_bits (t : ty) : N := match t with F16 => 5 | F32 => 8 | _ => 11 end.
Definition man_bits (t : ty) : N := match t with F16 => 10 | F32 => 23 | _ => 52 end.
Definition is_nan (t : ty) (x : N) : bool :=
  (x / 2 ^ man_bits t mod 2 ^ exp_bits t =? 2 ^ exp_bits t - 1) && negb (x mod 2 ^ man_bits t =? 0).
(** Position of a number that is not a NaN in the order of the type; both zeros
    have position 0. *)
Definition fpos (t : ty) (x : N) : Z :=
  let mag := Z.of_N (x mod 2 ^ (width t - 1)) in
  if x <? 2 ^ (width t - 1) then mag else (- mag)%Z.
(** LLVM fcmp with an ordered predicate *)
Definition fcmp (t : ty) (p : Z -> Z -> bool) (a b : N) : bool :=
  negb (is_nan t a) && negb (is_nan t b) && p (fpos t a) (fpos t b).

Definition b2n (b : bool) : N := if b then 1 else 0.
(** LLVM icmp: unsigned for unsigned integers and booleans (llvm_eval.cpp:831-879) *)
Definition icmp (t : ty) (p : Z -> Z -> bool) (a b : N) : bool :=
  if is_uint t || is_bool t then p (Z.of_N a) (Z.of_N b) else p (sbits (width t) a) (sbits (width t) b).
Definition cmp (t : ty) (p : Z -> Z -> bool) (a b : N) : N :=
  b2n (if is_float t then fcmp t p a b else icmp t p a b).

(** llvm.ctpop, llvm.ctlz, llvm.cttz, llvm.bitreverse on [w] bits *)
Definition ctpop (w : nat) (x : N) : N :=
  N.of_nat (length (filter (fun i => N.testbit x (N.of_nat i)) (seq 0 w))).
Fixpoint ctlz (w : nat) (x : N) : N :=
  match w with O => 0 | S w => if N.testbit x (N.of_nat w) then 0 else 1 + ctlz w x end.
Fixpoint cttz_from (i w : nat) (x : N) : N :=
  match w with O => 0 | S w => if N.testbit x (N.of_nat i) then 0 else 1 + cttz_from (S i) w x end.
Definition cttz (w : nat) (x : N) : N := cttz_from 0 w x.
Fixpoint bitrev (w : nat) (x : N) : N :=
  match w with O => 0 | S w => N.b2n (N.testbit x 0) * 2 ^ N.of_nat w + bitrev w (x / 2) end.

Section Ops.
(** Floating point arithmetic, conversions and negation, on bit patterns. *)
Variable fop : kind -> ty -> list ty -> list N -> N.

(** Value of a node of type [t] and kind [k] given the types and values of its
    operands; [None]: undefined behaviour or poison. *)
Definition ir (k : kind) (t : ty) (ts : list ty) (vs : list N) : option N :=
  let w := width t in
  let ones := 2 ^ w - 1 in
  match k, ts, vs with
  | Not, [_], [a] => Some (N.lxor a ones)
  | Eq, [t0; _], [a; b] => Some (cmp t0 Z.eqb a b)
  | Neq, [t0; _], [a; b] => Some (cmp t0 (fun x y => negb (Z.eqb x y)) a b)
  | Lt, [t0; _], [a; b] => Some (cmp t0 Z.ltb a b)
  | Le, [t0; _], [a; b] => Some (cmp t0 Z.leb a b)
  | Gt, [t0; _], [a; b] => Some (cmp t0 Z.gtb a b)
  | Ge, [t0; _], [a; b] => Some (cmp t0 Z.geb a b)
  | Select, _, [c; a; b] => Some (if c =? 1 then a else b)
  | Popc, _, [a] => Some (ctpop (N.to_nat w) a)
  | Clz, _, [a] => Some (ctlz (N.to_nat w) a)
  | Ctz, _, [a] => Some (cttz (N.to_nat w) a)
  | Brev, _, [a] => Some (bitrev (N.to_nat w) a)
  | And, [t0; t1], [a; b] => Some (if ty_eqb t0 t1 then N.land a b else if b =? 1 then a else 0)
  | Or, [t0; t1], [a; b] => Some (if ty_eqb t0 t1 then N.lor a b else N.lor a (if b =? 1 then ones else 0))
  | Xor, _, [a; b] => Some (N.lxor a b)
  | Shl, _, [a; b] => if b <? w then Some (wrap t (N.shiftl a b)) else None
  | Shr, _, [a; b] => if b <? w then
                        Some (if is_uint t then N.shiftr a b else zwrap t (Z.shiftr (sbits w a) (Z.of_N b)))
                      else None
  | Bitcast, _, [a] => Some a
  | Cast, [t0], [a] =>
      if is_float t || is_float t0 then Some (wrap t (fop k t ts vs))
      else if is_bool t then Some (b2n (negb (a =? 0)))
      else if is_bool t0 then Some (if a =? 1 then 1 else 0)
      else if w <? width t0 then Some (wrap t a)
      else Some (if is_uint t0 then a else zwrap t (sbits (width t0) a))
  | MulWide, [t0; _], [a; b] =>
      Some (if is_uint t then wrap t (a * b) else zwrap t (sbits (width t0) a * sbits (width t0) b))
  | _, _, _ =>
      if is_float t then Some (wrap t (fop k t ts vs)) else
      match k, vs with
      | Neg, [a] => Some (wrap t (2 ^ w - a))
      | Abs, [a] => Some (if a <? 2 ^ (w - 1) then a else wrap t (2 ^ w - a))
      | Add, [a; b] => Some (wrap t (a + b))
      | Sub, [a; b] => Some (wrap t (a + (2 ^ w - b)))
      | Mul, [a; b] => Some (wrap t (a * b))
      | Fma, [a; b; c] => Some (wrap t (wrap t (a * b) + c))
      | Div, [a; b] =>
          if b =? 0 then None
          else if is_uint t then Some (a / b)
          else if (a =? 2 ^ (w - 1)) && (b =? ones) then None
          else Some (zwrap t (Z.quot (sbits w a) (sbits w b)))
      | Mod, [a; b] =>
          if b =? 0 then None
          else if is_uint t then Some (a mod b)
          else if (a =? 2 ^ (w - 1)) && (b =? ones) then None
          else Some (zwrap t (Z.rem (sbits w a) (sbits w b)))
      | MulHi, [a; b] =>
          if is_uint t then Some (N.shiftr ((a * b) mod 2 ^ (2 * w)) w mod 2 ^ w)
          else Some (N.shiftr (Z.to_N ((sbits w a * sbits w b) mod 2 ^ Z.of_N (2 * w))) w mod 2 ^ w)
      | Min, [a; b] => Some (if is_uint t then N.min a b
                             else if (sbits w a <? sbits w b)%Z then a else b)
      | Max, [a; b] => Some (if is_uint t then N.max a b
                             else if (sbits w b <? sbits w a)%Z then a else b)
      | _, _ => None
      end
  end.

(** ** Variables *)

Inductive desc :=
| Lit (x : N)                       (** literal *)
| Arr (f : N -> N)                  (** evaluated array *)
| Ctr                               (** VarKind::Counter *)
| Op (k : kind) (deps : list nat).
Record var := mkVar { v_ty : ty; v_size : N; v_desc : desc }.
(** Handle [h > 0] names entry [h - 1]; handle 0 is the empty variable. *)
Definition store := list var.
Definition get (st : store) (h : nat) : option var :=
  match h with O => None | S i => nth_error st i end.

(** Values of all variables: type, size, and the value of every lane.  A variable
    of size 1 is read at lane 0 by everyone. *)
Definition entry : Type := ty * N * (N -> option N).
Definition lookup (env : list entry) (h : nat) : option entry :=
  match h with O => None | S i => nth_error env i end.
Definition read (env : list entry) (h : nat) (l : N) : option N :=
  match lookup env h with
  | Some (_, n, f) => f (if n =? 1 then 0 else l)
  | None => None
  end.
Fixpoint seq_opt {A} (l : list (option A)) : option (list A) :=
  match l with
  | [] => Some []
  | x :: r => let? x := x in let? r := seq_opt r in Some (x :: r)
  end.
Definition eval_node (env : list entry) (v : var) : entry :=
  (v_ty v, v_size v, fun l =>
    match v_desc v with
    | Lit x => Some x
    | Arr f => Some (f l)
    | Ctr => Some (wrap (v_ty v) l)
    | Op k deps =>
        let? ts := seq_opt (map (fun d => option_map (fun e => fst (fst e)) (lookup env d)) deps) in
        let? vs := seq_opt (map (fun d => read env d l) deps) in
        ir k (v_ty v) ts vs
    end).
Definition denote (st : store) : list entry := fold_left (fun env v => env ++ [eval_node env v]) st [].
Definition value (st : store) (h : nat) (l : N) : option N := read (denote st) h l.

(** Outcome of a builder: a result, an exception, jitc_fail (abort), undefined
    behaviour of the host program. *)
Inductive out (A : Type) : Type := Ok (a : A) | Raise | Abort | Ub.
Arguments Ok {A}. Arguments Raise {A}. Arguments Abort {A}. Arguments Ub {A}.
Definition obind {A B} (x : out A) (f : A -> out B) : out B :=
  match x with Ok a => f a | Raise => Raise | Abort => Abort | Ub => Ub end.
Notation "'let!' x := e 'in' b" := (obind e (fun x => b)) (at level 200, x pattern, b at level 200).

(** Flags: JitFlag::ConstantPropagation, JitFlag::FastMath. *)
Variables (cp fast : bool).
(** Whether the only reference to a variable from outside the store is that of the
    caller (it may change whenever the store does). *)
Variable uniq : store -> nat -> bool.

Definition is_literal (v : var) : bool := match v_desc v with Lit _ => true | _ => false end.
Definition lit_is (v : var) (x : N) : bool := match v_desc v with Lit y => y =? x | _ => false end.
(** internal.h:1475-1501, var.cpp:167-173 *)
Definition is_zero (v : var) : bool := lit_is v 0.
Definition is_any_zero (v : var) : bool :=
  lit_is v 0 || is_float (v_ty v) && lit_is v (2 ^ (width (v_ty v) - 1)).
Definition is_one (v : var) : bool := lit_is v (type_one (v_ty v)).
Definition is_max (v : var) : bool := lit_is v (type_max (v_ty v)).
Definition is_min (v : var) : bool := lit_is v (type_min (v_ty v)).

Definition push (st : store) (v : var) : out (store * nat) := Ok (st ++ [v], S (length st)).
(** var.cpp:933-968 jitc_var_literal: only type_size bytes are kept (one byte for
    booleans) *)
Definition literal (st : store) (t : ty) (x n : N) : out (store * nat) :=
  if n =? 0 then Ok (st, O)
  else push st (mkVar t n (Lit (if is_bool t then x mod 2 ^ 8 else wrap t x))).
Definition node (st : store) (k : kind) (t : ty) (n : N) (deps : list nat) : out (store * nat) :=
  push st (mkVar t n (Op k deps)).

Definition depends (h : nat) (v : var) : bool :=
  match v_desc v with Op _ deps => existsb (Nat.eqb h) deps | _ => false end.
(** var.cpp:1999-2053 jitc_var_resize of a variable that is not dirty *)
Definition resize (st : store) (h : nat) (n : N) : out (store * nat) :=
  match get st h with
  | None => Ub
  | Some v =>
      if v_size v =? n then Ok (st, h)
      else if negb (v_size v =? 1) && negb (is_literal v) then Raise
      else if (match v_desc v with Arr _ => false | _ => true end) && uniq st h && negb (existsb (depends h) st)
      then Ok (set_nth (h - 1) (mkVar (v_ty v) n (v_desc v)) st, h)
      else match v_desc v with
           | Lit x => literal st (v_ty v) x n
           | _ => node st Bitcast (v_ty v) n [h]
           end
  end.

(** op.cpp:34-53 OpInfo *)
Record info := mkInfo { i_ty : ty; i_size : N; i_simplify : bool; i_literal : bool }.

(** op.cpp:76-223 jitc_var_check_impl for one to three operands: [None] entries are
    empty operands.  The type is that of the first operand that is not empty; the
    checks of debug builds (operand types) are preconditions of the theorems. *)
Definition vsize (v : option var) : N := match v with Some v => v_size v | None => 0 end.
Definition check (st : store) (hs : list nat) : out info :=
  let vs := map (get st) hs in
  let size := fold_right N.max 0 (map vsize vs) in
  let lits := map (fun v => match v with Some v => is_literal v | None => true end) vs in
  let anylit := existsb (fun v => match v with Some v => is_literal v | None => false end) vs in
  let same := match hs with [a; b] => Nat.eqb a b | _ => false end in
  let t := match find (fun v => match v with Some _ => true | None => false end) vs with
           | Some (Some v) => v_ty v | _ => Bool end in
  if (0 <? size) && negb (forallb (fun v => (vsize v =? size) || (vsize v =? 1)) vs) then Raise
  else Ok (mkInfo t size ((anylit || (0 <? size) && same) && (cp || (size =? 0))) (forallb (fun b => b) lits)).

(** ** Evaluation of literals by the host compiler (C++17) *)

Definition lit_of (v : var) : N := match v_desc v with Lit x => x | _ => 0 end.
(** Integer promotion: types narrower than int are computed in int. *)
Definition promote (t : ty) : ty := if width t <? 32 then I32 else t.
Definition in_range (t : ty) (z : Z) : bool :=
  (- 2 ^ (Z.of_N (width t) - 1) <=? z)%Z && (z <? 2 ^ (Z.of_N (width t) - 1))%Z.
(** Result [z] of an arithmetic operation of type [t]: overflow of a signed type is
    undefined, unsigned types wrap. *)
Definition cxx (t : ty) (z : Z) : out N :=
  if is_sint t then (if in_range t z then Ok (zwrap t z) else Ub) else Ok (zwrap t z).

(** op.cpp:252-276: [r] is the 64-bit container; the result type is [i_ty]. *)
Definition eval_literal (st : store) (i : info) (r : out N) : out (store * nat) :=
  let! x := r in literal st (i_ty i) x (i_size i).

(** op.cpp:390-396 *)
Definition eval_neg (t : ty) (a : N) : out N :=
  if is_bool t then Abort
  else if is_float t then Ok (wrap t (fop Neg t [t] [a]))
  else let! x := cxx (match promote t with U32 => I32 | U64 => I64 | p => p end) (- sbits (width t) a)%Z in Ok (wrap t x).
Definition eval_not (t : ty) (a : N) : out N := Ok (N.lxor a (2 ^ width t - 1)).
(** op.cpp:479-483 *)
Definition eval_abs (t : ty) (a : N) : out N :=
  if is_float t then Ok (wrap t (fop Abs t [t] [a]))
  else if is_sint t then let! x := cxx (promote t) (Z.abs (num t a)) in Ok (wrap t x) else Ok a.
(** [l0 + l1], [l0 - l1], [l0 * l1] have the promoted type *)
Definition eval_arith (k : kind) (f : Z -> Z -> Z) (t : ty) (a b : N) : out N :=
  if is_float t then Ok (wrap t (fop k t [t; t] [a; b]))
  else cxx (promote t) (f (num t a) (num t b)).
(** op.cpp:595-609 *)
Definition eval_div (t : ty) (a b : N) : out N :=
  if is_bool t then Abort
  else if is_float t then Ok (wrap t (fop Div t [t; t] [a; b]))
  else if b =? 0 then Ok (2 ^ width t - 1)
  else if is_sint t && (a =? type_min t) && (b =? 2 ^ width t - 1) then Ok a
  else let! x := cxx (promote t) (Z.quot (num t a) (num t b)) in Ok (wrap t x).
(** op.cpp:652-666 *)
Definition eval_mod (t : ty) (a b : N) : out N :=
  if negb (is_int t) then Abort
  else if b =? 0 then Ok (2 ^ width t - 1)
  else if is_sint t && (a =? type_min t) && (b =? 2 ^ width t - 1) then Ok 0
  else let! x := cxx (promote t) (Z.rem (num t a) (num t b)) in Ok (wrap t x).
(** op.cpp:694-713 *)
Definition eval_mul_hi (t : ty) (a b : N) : out N :=
  match t with
  | I32 | I64 | U32 | U64 => Ok (zwrap t (Z.shiftr (num t a * num t b) (Z.of_N (width t))))
  | _ => Abort
  end.
(** op.cpp:772-780 *)
Definition eval_fma (t : ty) (a b c : N) : out N :=
  if is_bool t then Abort
  else if is_float t then Ok (wrap t (fop Fma t [t; t; t] [a; b; c]))
  else let! p := cxx (promote t) (num t a * num t b) in
       let! s := cxx (promote t) (num (promote t) p + num t c) in Ok (wrap t s).
(** op.cpp:829-831 *)
Definition eval_min (t : ty) (a b : N) : out N :=
  if is_float t then Ok (if fcmp t Z.ltb a b || is_nan t a then a else b)
  else Ok (if (num t a <? num t b)%Z then a else b).
Definition eval_max (t : ty) (a b : N) : out N :=
  if is_float t then Ok (if fcmp t Z.gtb a b || is_nan t a then a else b)
  else Ok (if (num t a >? num t b)%Z then a else b).
(** [==], [<], ... of C++: false for NaN operands; [!=] is the negation of [==] *)
Definition eval_cmp (p : Z -> Z -> bool) (t : ty) (a b : N) : out N :=
  Ok (b2n (if is_float t then fcmp t p a b else p (num t a) (num t b))).
Definition eval_neq (t : ty) (a b : N) : out N :=
  Ok (b2n (negb (if is_float t then fcmp t Z.eqb a b else (num t a =? num t b)%Z))).
(** op.cpp:1322-1336; [fuel] iterations of the loop *)
Fixpoint popc_loop (fuel : nat) (x r : N) : option N :=
  if x =? 0 then Some r else
  match fuel with O => None | S f => popc_loop f (N.shiftr x 1) (r + N.land x 1) end.
Definition eval_popc (t : ty) (a : N) : out N :=
  if is_int t then match popc_loop (N.to_nat (width t)) a 0 with Some r => Ok (wrap t r) | None => Ub end else Abort.
(** op.cpp:1355-1367 *)
Fixpoint clz_loop (fuel : nat) (x r : N) : option N :=
  if x =? 0 then Some r else
  match fuel with O => None | S f => clz_loop f (N.shiftr x 1) (r - 1) end.
Definition eval_clz (t : ty) (a : N) : out N :=
  if is_int t then match clz_loop (N.to_nat (width t)) a (width t) with Some r => Ok (wrap t r) | None => Ub end else Abort.
(** op.cpp:1386-1401 *)
Fixpoint brev_loop (t : ty) (n : nat) (x r : N) : N :=
  match n with O => r | S n => brev_loop t n (N.shiftr x 1) (wrap t (N.lor (N.shiftl r 1) (N.land x 1))) end.
Definition eval_brev (t : ty) (a : N) : out N :=
  if is_int t then Ok (brev_loop t (N.to_nat (width t)) a 0) else Abort.
(** op.cpp:1420-1434 *)
Fixpoint ctz_loop (t : ty) (fuel : nat) (x r : N) : option N :=
  if x =? 0 then Some r else
  match fuel with O => None | S f => ctz_loop t f (wrap t (N.shiftl x 1)) (r - 1) end.
Definition eval_ctz (t : ty) (a : N) : out N :=
  if is_int t then match ctz_loop t (N.to_nat (width t)) a (width t) with Some r => Ok (wrap t r) | None => Ub end else Abort.
(** op.cpp:1453-1458, 1489-1494, 1524-1529 *)
Definition eval_bits (f : N -> N -> N) (t : ty) (a b : N) : out N := Ok (f a b).
(** op.cpp:1557-1564: the left operand is promoted to int when narrower *)
Definition eval_shl (t : ty) (a b : N) : out N :=
  if negb (is_int t) then Abort
  else if width t <? 32 then
    if (b <? 32) && (N.shiftl a b <? 2 ^ 32) then Ok (wrap t (N.shiftl a b)) else Ub
  else if b <? width t then Ok (wrap t (N.shiftl a b)) else Ub.
(** op.cpp:1588-1592 *)
Definition eval_shr (t : ty) (a b : N) : out N :=
  if negb (is_int t) then Abort
  else if (0 <=? num t b)%Z && (num t b <? Z.of_N (width (promote t)))%Z
  then Ok (zwrap t (Z.shiftr (num t a) (num t b))) else Ub.

(** ** The builders *)

(** op.cpp:363-365; subtraction of 1 in 64 bits *)
Definition is_pow2 (x : N) : bool := negb (x =? 0) && (N.land x (sub64 x 1) =? 0).
(** 63 - __builtin_clzl(x) *)
Definition log2_64 (x : N) : N := 63 - ctlz 64 x.

Definition with1 (st : store) (a0 : nat) (f : info -> var -> out (store * nat)) : out (store * nat) :=
  let! i := check st [a0] in
  match get st a0 with
  | Some v0 => f i v0
  | None => Ok (st, O)
  end.
(** Without operands (size 0), nothing is created. *)
Definition with2 (st : store) (a0 a1 : nat) (f : info -> var -> var -> out (store * nat)) : out (store * nat) :=
  let! i := check st [a0; a1] in
  match get st a0, get st a1 with
  | Some v0, Some v1 => f i v0 v1
  | _, _ => Ok (st, O)
  end.
(** The common last step: create a node. *)
Definition mk1 st k i a0 := node st k (i_ty i) (i_size i) [a0].
Definition mk2 st k i a0 a1 := node st k (i_ty i) (i_size i) [a0; a1].
Definition make_zero (st : store) (i : info) := literal st (i_ty i) 0 (i_size i).
Definition make_true (st : store) (i : info) := literal st Bool 1 (i_size i).
Definition set_ty (i : info) (t : ty) := mkInfo t (i_size i) (i_simplify i) (i_literal i).

(** One operand: op.cpp:398-415 (neg), 426-443 (not), 1338-1351 (popc),
    1369-1382 (clz), 1403-1416 (brev), 1436-1449 (ctz) *)
Definition unary (k : kind) (ev : ty -> N -> out N) (st : store) (a0 : nat) : out (store * nat) :=
  with1 st a0 (fun i v0 =>
    if i_simplify i && i_literal i then eval_literal st i (ev (v_ty v0) (lit_of v0))
    else mk1 st k i a0).
Definition var_neg := unary Neg eval_neg.
Definition var_not := unary Not eval_not.
Definition var_popc := unary Popc eval_popc.
Definition var_clz := unary Clz eval_clz.
Definition var_brev := unary Brev eval_brev.
Definition var_ctz := unary Ctz eval_ctz.

(** op.cpp:485-504 *)
Definition var_abs (st : store) (a0 : nat) : out (store * nat) :=
  with1 st a0 (fun i v0 =>
    if i_simplify i && i_literal i then eval_literal st i (eval_abs (v_ty v0) (lit_of v0))
    else if is_uint (i_ty i) then Ok (st, a0)
    else mk1 st Abs i a0).

(** op.cpp:508-531 *)
Definition var_add (st : store) (a0 a1 : nat) : out (store * nat) :=
  with2 st a0 a1 (fun i v0 v1 =>
    if i_simplify i then
      if i_literal i then eval_literal st i (eval_arith Add Z.add (v_ty v0) (lit_of v0) (lit_of v1))
      else if is_any_zero v0 then resize st a1 (i_size i)
      else if is_any_zero v1 then resize st a0 (i_size i)
      else mk2 st Add i a0 a1
    else mk2 st Add i a0 a1).

(** op.cpp:535-558 *)
Definition var_sub (st : store) (a0 a1 : nat) : out (store * nat) :=
  with2 st a0 a1 (fun i v0 v1 =>
    if i_simplify i then
      if i_literal i then eval_literal st i (eval_arith Sub Z.sub (v_ty v0) (lit_of v0) (lit_of v1))
      else if is_any_zero v1 then resize st a0 (i_size i)
      else if Nat.eqb a0 a1 && negb (is_float (v_ty v0)) then make_zero st i
      else mk2 st Sub i a0 a1
    else mk2 st Sub i a0 a1).

(** op.cpp:1566-1584, 1594-1612 *)
Definition shift_op (k : kind) (ev : ty -> N -> N -> out N) (st : store) (a0 a1 : nat) : out (store * nat) :=
  with2 st a0 a1 (fun i v0 v1 =>
    if i_simplify i then
      if i_literal i then eval_literal st i (ev (v_ty v0) (lit_of v0) (lit_of v1))
      else if is_zero v0 || is_zero v1 then resize st a0 (i_size i)
      else mk2 st k i a0 a1
    else mk2 st k i a0 a1).
Definition var_shl := shift_op Shl eval_shl.
Definition var_shr := shift_op Shr eval_shr.

(** op.cpp:380-386 *)
Definition shift_by (sh : store -> nat -> nat -> out (store * nat)) (st : store) (i : info)
    (h : nat) (amount : N) : out (store * nat) :=
  let! r := literal st (i_ty i) (log2_64 amount) (i_size i) in
  sh (fst r) h (snd r).

(** op.cpp:562-591 *)
Definition var_mul (st : store) (a0 a1 : nat) : out (store * nat) :=
  with2 st a0 a1 (fun i v0 v1 =>
    if i_simplify i then
      if i_literal i then eval_literal st i (eval_arith Mul Z.mul (v_ty v0) (lit_of v0) (lit_of v1))
      else if is_one v0 || is_any_zero v1 && (is_int (v_ty v0) || fast) then resize st a1 (i_size i)
      else if is_one v1 || is_any_zero v0 && (is_int (v_ty v0) || fast) then resize st a0 (i_size i)
      else if is_uint (i_ty i) && is_literal v0 && is_pow2 (lit_of v0) then shift_by var_shl st i a1 (lit_of v0)
      else if is_uint (i_ty i) && is_literal v1 && is_pow2 (lit_of v1) then shift_by var_shl st i a0 (lit_of v1)
      else mk2 st Mul i a0 a1
    else mk2 st Mul i a0 a1).

(** op.cpp:611-648, and 1616-1628 for the reciprocal of a literal *)
Definition var_div (st : store) (a0 a1 : nat) : out (store * nat) :=
  with2 st a0 a1 (fun i v0 v1 =>
    if i_simplify i then
      if i_literal i then eval_literal st i (eval_div (v_ty v0) (lit_of v0) (lit_of v1))
      else if is_one v1 then resize st a0 (i_size i)
      else if is_uint (i_ty i) && is_literal v1 && is_pow2 (lit_of v1) then shift_by var_shr st i a0 (lit_of v1)
      else if is_float (i_ty i) && (16 <? width (i_ty i)) && is_literal v1 then
        let t := i_ty i in
        let! r := literal st t (fop Div t [t; t] [type_one t; lit_of v1]) (v_size v1) in
        var_mul (fst r) a0 (snd r)
      else if Nat.eqb a0 a1 && negb (is_float (v_ty v0)) then literal st (i_ty i) 1 (i_size i)
      else mk2 st Div i a0 a1
    else mk2 st Div i a0 a1).

(** op.cpp:1460-1485 *)
Definition var_and (st : store) (a0 a1 : nat) : out (store * nat) :=
  with2 st a0 a1 (fun i v0 v1 =>
    let same := ty_eqb (v_ty v0) (v_ty v1) in
    if negb same && negb (is_bool (v_ty v1)) then Raise else
    if i_simplify i then
      if i_literal i && same then eval_literal st i (eval_bits N.land (v_ty v0) (lit_of v0) (lit_of v1))
      else if is_zero v0 || is_zero v1 then make_zero st i
      else if is_one v1 && is_bool (v_ty v1) || Nat.eqb a0 a1 then resize st a0 (i_size i)
      else if is_one v0 && is_bool (v_ty v0) then resize st a1 (i_size i)
      else mk2 st And i a0 a1
    else mk2 st And i a0 a1).

(** op.cpp:1496-1520 *)
Definition var_or (st : store) (a0 a1 : nat) : out (store * nat) :=
  with2 st a0 a1 (fun i v0 v1 =>
    let same := ty_eqb (v_ty v0) (v_ty v1) in
    if negb same && negb (is_bool (v_ty v1)) then Raise else
    if i_simplify i then
      if i_literal i && same then eval_literal st i (eval_bits N.lor (v_ty v0) (lit_of v0) (lit_of v1))
      else if is_bool (v_ty v0) && is_one v1 || is_zero v0 && same || Nat.eqb a0 a1 then resize st a1 (i_size i)
      else if is_bool (v_ty v0) && is_one v0 || is_zero v1 then resize st a0 (i_size i)
      else mk2 st Or i a0 a1
    else mk2 st Or i a0 a1).

(** op.cpp:1531-1553 *)
Definition var_xor (st : store) (a0 a1 : nat) : out (store * nat) :=
  with2 st a0 a1 (fun i v0 v1 =>
    if i_simplify i then
      if i_literal i then eval_literal st i (eval_bits N.lxor (v_ty v0) (lit_of v0) (lit_of v1))
      else if is_zero v1 then resize st a0 (i_size i)
      else if is_zero v0 then resize st a1 (i_size i)
      else if Nat.eqb a0 a1 then make_zero st i
      else mk2 st Xor i a0 a1
    else mk2 st Xor i a0 a1).

(** op.cpp:668-690: the second operand is dereferenced even if empty *)
Definition var_mod (st : store) (a0 a1 : nat) : out (store * nat) :=
  let! i := check st [a0; a1] in
  match get st a0, get st a1 with
  | Some v0, Some v1 =>
      if i_simplify i && i_literal i then eval_literal st i (eval_mod (v_ty v0) (lit_of v0) (lit_of v1))
      else if is_uint (i_ty i) && is_literal v1 && is_pow2 (lit_of v1) then
        let! r := literal st (i_ty i) (lit_of v1 - 1) (i_size i) in
        var_and (fst r) a0 (snd r)
      else if is_literal v1 && is_one v1 then literal st (i_ty i) 0 (i_size i)
      else mk2 st Mod i a0 a1
  | _, _ => Ub
  end.

(** op.cpp:715-735 *)
Definition var_mul_hi (st : store) (a0 a1 : nat) : out (store * nat) :=
  with2 st a0 a1 (fun i v0 v1 =>
    if i_simplify i then
      if i_literal i then eval_literal st i (eval_mul_hi (v_ty v0) (lit_of v0) (lit_of v1))
      else if is_zero v0 then resize st a0 (i_size i)
      else if is_zero v1 then resize st a1 (i_size i)
      else mk2 st MulHi i a0 a1
    else mk2 st MulHi i a0 a1).

(** op.cpp:837-866, 870-899 *)
Definition minmax (k : kind) (ev : ty -> N -> N -> out N) (neutral absorb : var -> bool)
    (st : store) (a0 a1 : nat) : out (store * nat) :=
  with2 st a0 a1 (fun i v0 v1 =>
    let fl := is_float (i_ty i) in
    if i_simplify i then
      if i_literal i then eval_literal st i (ev (v_ty v0) (lit_of v0) (lit_of v1))
      else if Nat.eqb a0 a1 then resize st a0 (i_size i)
      else if neutral v0 || negb fl && absorb v1 then resize st a1 (i_size i)
      else if neutral v1 || negb fl && absorb v0 then resize st a0 (i_size i)
      else mk2 st k i a0 a1
    else mk2 st k i a0 a1).
Definition var_min := minmax Min eval_min is_max is_min.
Definition var_max := minmax Max eval_max is_min is_max.

(** op.cpp:1113-1265: [same]: result for identical operands, if the rule applies *)
Definition compare (k : kind) (ev : ty -> N -> N -> out N) (same : var -> option bool)
    (st : store) (a0 a1 : nat) : out (store * nat) :=
  with2 st a0 a1 (fun i v0 v1 =>
    let i := set_ty i Bool in
    if i_simplify i then
      if i_literal i then eval_literal st i (ev (v_ty v0) (lit_of v0) (lit_of v1))
      else match (if Nat.eqb a0 a1 then same v0 else None) with
           | Some true => make_true st i
           | Some false => make_zero st i
           | None => mk2 st k i a0 a1
           end
    else mk2 st k i a0 a1).
Definition unless_float (b : bool) (v : var) : option bool := if is_float (v_ty v) then None else Some b.
Definition var_eq := compare Eq (eval_cmp Z.eqb) (unless_float true).
Definition var_neq := compare Neq eval_neq (fun _ => Some false).
Definition var_lt := compare Lt (eval_cmp Z.ltb) (fun _ => Some false).
Definition var_le := compare Le (eval_cmp Z.leb) (unless_float true).
Definition var_gt := compare Gt (eval_cmp Z.gtb) (fun _ => Some false).
Definition var_ge := compare Ge (eval_cmp Z.geb) (unless_float true).

(** op.cpp:1269-1318, without JIT arrays; empty operands are dereferenced (1277) *)
Definition var_select (st : store) (a0 a1 a2 : nat) : out (store * nat) :=
  let! i := check st [a0; a1; a2] in
  match get st a0, get st a1, get st a2 with
  | Some v0, Some v1, Some v2 =>
      if negb (is_bool (v_ty v0)) || negb (ty_eqb (v_ty v1) (v_ty v2)) then Raise else
      let i := set_ty i (v_ty v1) in
      if (i_simplify i || Nat.eqb a1 a2) && (is_one v0 || Nat.eqb a1 a2) then resize st a1 (i_size i)
      else if (i_simplify i || Nat.eqb a1 a2) && is_zero v0 then resize st a2 (i_size i)
      else node st Select (i_ty i) (i_size i) [a0; a1; a2]
  | _, _, _ => Ub
  end.

(** op.cpp:782-825 *)
Definition var_fma (st : store) (a0 a1 a2 : nat) : out (store * nat) :=
  let! i := check st [a0; a1; a2] in
  match get st a0, get st a1, get st a2 with
  | Some v0, Some v1, Some v2 =>
      let z0 := is_any_zero v0 in let z1 := is_any_zero v1 in let z2 := is_any_zero v2 in
      let fin (r : out (store * nat)) := let! r := r in resize (fst r) (snd r) (i_size i) in
      if i_simplify i then
        if i_literal i then eval_literal st i (eval_fma (v_ty v0) (lit_of v0) (lit_of v1) (lit_of v2))
        else if is_one v0 then fin (var_add st a1 a2)
        else if is_one v1 then fin (var_add st a0 a2)
        else if z2 then fin (var_mul st a0 a1)
        else if z0 && z1 || (z0 || z1) && fast then fin (Ok (st, a2))
        else node st Fma (i_ty i) (i_size i) [a0; a1; a2]
      else node st Fma (i_ty i) (i_size i) [a0; a1; a2]
  | _, _, _ => Ok (st, O)
  end.

(** op.cpp:1823-1896 with [reinterpret = 0]; the fusion of rounding with a
    conversion of floats (op.cpp:1875-1888) is not modelled *)
Definition cast_lit (t t0 : ty) (a : N) : N :=
  if is_bool t then b2n (negb (a =? 0)) else zwrap t (num t0 a).
Definition var_cast (st : store) (a0 : nat) (t : ty) : out (store * nat) :=
  match get st a0 with
  | None => Ok (st, O)
  | Some v0 =>
      let! i := check st [a0] in
      let t0 := v_ty v0 in
      let sz (t : ty) := if is_bool t then 0 else width t in
      let reint := (sz t0 =? sz t) && negb (is_float t0) && negb (is_float t) in
      if ty_eqb t0 t then Ok (st, a0)
      else if i_simplify i && i_literal i then
        if reint then literal st t (lit_of v0) (i_size i)
        else if is_float t0 || is_float t then literal st t (fop Cast t [t0] [lit_of v0]) (i_size i)
        else literal st t (cast_lit t t0 (lit_of v0)) (i_size i)
      else node st (if reint then Bitcast else Cast) t (i_size i) [a0]
  end.

(** op.cpp:739-768 *)
Definition var_mul_wide (st : store) (a0 a1 : nat) : out (store * nat) :=
  let! i := check st [a0; a1] in
  match wide (i_ty i) with
  | None => Raise
  | Some t =>
      let i := set_ty i t in
      match get st a0, get st a1 with
      | Some v0, Some v1 =>
          if i_simplify i then
            if i_literal i then
              let! c0 := var_cast st a0 t in
              let! c1 := var_cast (fst c0) a1 t in
              var_mul (fst c1) (snd c0) (snd c1)
            else if is_zero v0 || is_zero v1 then make_zero st i
            else mk2 st MulWide i a0 a1
          else mk2 st MulWide i a0 a1
      | _, _ => Ok (st, O)
      end
  end.

(** op.cpp:978-1005 for integer types *)
Definition var_copysign (st : store) (a0 a1 : nat) : out (store * nat) :=
  with2 st a0 a1 (fun i v0 v1 =>
    if i_simplify i && i_literal i then Abort
    else if i_simplify i && Nat.eqb a0 a1 then resize st a0 (i_size i)
    else
      let! z := make_zero st i in
      let! p := var_abs (fst z) a0 in
      let! n := var_neg (fst p) (snd p) in
      let! m := var_lt (fst n) a1 (snd z) in
      var_select (fst m) (snd m) (snd n) (snd p)).
End Ops.

Arguments Ok {A}. Arguments Raise {A}. Arguments Abort {A}. Arguments Ub {A}.
Notation "'let!' x := e 'in' b" := (obind e (fun x => b)) (at level 200, x pattern, b at level 200).
