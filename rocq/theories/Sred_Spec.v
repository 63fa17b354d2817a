(** What a scatter-reduction does: the contributions of the active lanes that refer to an
    element are combined with it. *)
From Verif Require Import Base Sred_Model.
Local Open Scope N_scope.

(** Contributions of a vector of lanes to the element at [a] *)
Fixpoint contrib {V} (c : nat) (k : N) (b : block (V := V)) (a : N) : list V :=
  match c with
  | O => []
  | S c => (if N.testbit (b_active b) k && (b_ptr b k =? a) then [b_val b k] else []) ++ contrib c (k + 1) b a
  end.
Definition contribs {V} (w : N) (b : block (V := V)) (a : N) : list V := contrib (N.to_nat w) 0 b a.
(** Contributions of all threads *)
Definition all_contribs {V} (w : N) (work : list (list (block (V := V)))) (a : N) : list V :=
  flat_map (fun bs => flat_map (fun b => contribs w b a) bs) work.
(** Vectors that access an array of [count] elements of 2^[shift] bytes at [base] *)
Definition array_block {V} (w base shift count : N) (b : block (V := V)) (idx : N -> N) : Prop :=
  forall k, k < w -> N.testbit (b_active b) k = true -> idx k < count /\ b_ptr b k = base + 2 ^ shift * idx k.
(** Every element is at an address that is not a multiple of 2^(32+shift) *)
Definition no_zero {V} (w shift : N) (b : block (V := V)) : Prop :=
  forall k, k < w -> N.testbit (b_active b) k = true -> b_ptr b k mod 2 ^ (32 + shift) <> 0.
Definition unmasked {V} (w : N) (b : block (V := V)) : Prop := forall k, k < w -> N.testbit (b_active b) k = true.

(** ** scatter_inc *)
(** [c] successive numbers *)
Fixpoint iota (from : N) (c : nat) : list N := match c with O => [] | S c => from :: iota (from + 1) c end.
(** Active lanes of a vector that refer to [a] *)
Definition lanes_of (w : N) (b : cblock) (a : N) : list N := filter (fun k => N.testbit (c_active b) k && (c_ptr b k =? a)) (lane_list w).
(** Number of active lanes that refer to [a] *)
Definition requests (w : N) (work : list (list cblock)) (a : N) : nat := length (flat_map (fun bs => flat_map (fun b => lanes_of w b a) bs) work).
