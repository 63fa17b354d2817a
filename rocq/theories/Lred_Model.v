(** Reductions of literals: src/var.cpp:2416-2516 (jitc_var_block_reduce),
    2654-2711 (jitc_var_reduce), 2807-2864 (jitc_var_block_prefix_reduce).

    Simplifications: the paths for variables that are not literals are parameters
    (their kernels are the subject of C17 and C18); one backend; reference counts
    omitted; std::pow is a parameter, see [scalar_mul]. *)
From Verif Require Import Base Op_Model.
Local Open Scope N_scope.

Inductive rop := RAdd | RMul | RMin | RMax | RAnd | ROr.

Section Lred.
Variable fop : kind -> ty -> list ty -> list N -> N.
Variables (cp fast : bool).
Variable uniq : store -> nat -> bool.
(** [powd x e]: the double std::pow(x, e) rounded toward zero to an integer; [None]:
    infinite or NaN. *)
Variable powd : Z -> Z -> option Z.
(** The path of variables that are not literals. *)
Variable evaluated : store -> nat -> out (store * nat).

(** var.cpp:2416-2421, 2430-2446; [T(size)] keeps the low bits; the product has the
    promoted type; booleans raise *)
Definition scalar_add (t : ty) (size a : N) : out N :=
  if is_bool t then Raise
  else if is_float t then Ok (wrap t (fop Mul t [t; t] [a; fop Cast t [U32] [size]]))
  else let! x := cxx (promote t) (num t a * num t (wrap t size)) in Ok (wrap t x).
(** var.cpp:2423-2428, 2448-2464: conversion of a double outside the range of the
    type is undefined *)
Definition scalar_mul (t : ty) (size a : N) : out N :=
  if is_bool t then Raise
  else if is_float t then Ok (wrap t (fop Cast t [F64] [fop Fma F64 [t; U32] [a; size]]))
  else match powd (num t a) (num t (wrap t size)) with
       | Some z => if (if is_sint t then in_range t z else (-1 <? z) && (z <? 2 ^ Z.of_N (width t)))%Z
                   then Ok (zwrap t z) else Ub
       | None => Ub
       end.
Definition scalar (op : rop) (t : ty) (size a : N) : out N :=
  match op with RAdd => scalar_add t size a | RMul => scalar_mul t size a | _ => Ok a end.

(** common.h:108-110 *)
Definition ceil_div (a b : N) : N := u32 (a + b + (2 ^ 32 - 1)) / b.

(** var.cpp:1052-1066, outside of symbolic scopes; 980-988 *)
Definition counter (st : store) (n : N) : out (store * nat) :=
  if n =? 1 then literal st U32 0 1 else push st (mkVar U32 n Ctr).
Definition var_u32 (st : store) (x : N) : out (store * nat) := push st (mkVar U32 1 (Lit x)).

(** var.cpp:2642-2652 jitc_reduce_identity *)
Definition reduce_identity (t : ty) (op : rop) : N :=
  match op with
  | ROr | RAdd => 0
  | RAnd => 2 ^ width t - 1
  | RMul => type_one t
  | RMin => type_max t
  | RMax => type_min t
  end.

(** var.cpp:2654-2711; [t] is the type requested by the caller, used for empty arrays *)
Definition var_reduce (st : store) (t : ty) (op : rop) (h : nat) : out (store * nat) :=
  match op with
  | RAnd | ROr => Raise
  | _ =>
      match get st h with
      | None => literal st t (reduce_identity t op) 1
      | Some v =>
          if negb (ty_eqb (v_ty v) t) then Raise else
          match v_desc v with
          | Lit a => let! x := (if 1 <? v_size v then scalar op t (v_size v) a else Ok a) in literal st t x 1
          | _ => evaluated st h
          end
      end
  end.

(** var.cpp:2466-2515 *)
Definition var_block_reduce (st : store) (op : rop) (h : nat) (bs : N) : out (store * nat) :=
  match get st h with
  | None => Ok (st, O)
  | Some v =>
      if bs =? 0 then Raise
      else if bs =? 1 then Ok (st, h)
      else
        let t := v_ty v in
        let size := v_size v in
        let reduced := ceil_div size bs in
        match v_desc v with
        | Lit a =>
            let trailer_size := sub32 size (u32 (sub32 reduced 1 * bs)) in
            let! header := scalar op t bs a in
            let! trailer := scalar op t trailer_size a in
            let! r := literal st t header reduced in
            if u32 (reduced * bs) =? size then Ok r
            else
              let! tr := literal (fst r) t trailer reduced in
              let! ctr := counter (fst tr) reduced in
              let! limit := var_u32 (fst ctr) (sub32 reduced 1) in
              let! mask := var_lt cp (fst limit) (snd ctr) (snd limit) in
              var_select cp uniq (fst mask) (snd mask) (snd r) (snd tr)
        | _ => evaluated st h
        end
  end.

(** var.cpp:2807-2846 *)
Definition var_prefix (st : store) (op : rop) (h : nat) (bs : N) (exclusive reverse : bool) : out (store * nat) :=
  match get st h with
  | None => Ok (st, h)
  | Some v =>
      match v_desc v, op with
      | Lit _, RMin | Lit _, RMax => Ok (st, h)
      | Lit _, RAdd =>
          let! c := counter st (v_size v) in
          let! c := (if negb (bs =? v_size v) then
                       let! b := var_u32 (fst c) bs in var_mod cp uniq (fst b) (snd c) (snd b)
                     else Ok c) in
          let! c := (if reverse then
                       let! b := var_u32 (fst c) (sub32 bs 1) in var_sub fop cp uniq (fst b) (snd b) (snd c)
                     else Ok c) in
          let! c := (if exclusive then Ok c else
                       let! b := var_u32 (fst c) 1 in var_add fop cp uniq (fst b) (snd c) (snd b)) in
          let! c := (if ty_eqb (v_ty v) U32 then Ok c else var_cast fop cp (fst c) (snd c) (v_ty v)) in
          var_mul fop cp fast uniq (fst c) (snd c) h
      | _, _ => evaluated st h
      end
  end.
End Lred.
