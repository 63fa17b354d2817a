(** What exchanges and compare-and-swap operations do to memory. *)
From Verif Require Import Base Axc_Model.
Local Open Scope N_scope.

Definition lanes (w : N) : list N := map N.of_nat (seq 0 (N.to_nat w)).
(** The operations at [a] that stored something: what they returned and what they stored *)
Definition at_addr (a : N) (rs : list (N * aop * N)) : list (N * aop * N) := filter (fun r => fst (fst r) =? a) rs.
Definition storing (rs : list (N * aop * N)) : list (N * aop * N) := filter (fun r => success (snd (fst r)) (snd r)) rs.
Definition removed (rs : list (N * aop * N)) : list N := map snd (storing rs).
Definition new_value (o : aop) : N := match o with AExch v => v | ACas _ v => v end.
Definition inserted (rs : list (N * aop * N)) : list N := map (fun r => new_value (snd (fst r))) (storing rs).
(** The operations that the active lanes ask for *)
Definition asked (w : N) (work : list (list avec)) : list (N * aop) :=
  flat_map (fun vs => flat_map (fun v => map (fun k => (v_addr v k, v_op v k)) (filter (v_mask v) (lanes w))) vs) work.
