(** C24: combining expanded accumulation buffers. *)
From Verif Require Import Base Arith_Model Par_Model Red_Model Exp_Model Exp_Spec Exp_Proofs Exp_Run.
Local Open Scope N_scope.

(** The array holds [exp] copies of [size] entries.  Afterwards entry [i] holds
    copy 0 combined with the copies 1, 2, ... in this order (for every element type);
    everything else is unchanged. *)
Theorem C24_reduce_expanded :
  forall (V : Type) (op : V -> V -> V) (d : V) (xs : list V) workers ideal ptr exp size (m : mem V),
  N.of_nat (length xs) = exp * size -> 0 < exp -> exp * size < 2 ^ 32 ->
  size + 128 < 2 ^ 32 -> size + ideal <= 2 ^ 32 ->
  1 <= workers -> 16 <= ideal ->
  holds m ptr xs ->
  exists cs, reduce_expanded op workers ideal ptr exp size = Cmds cs /\
    ensures cs (fun m' =>
      (forall i, i < size ->
         m' (ptr, i) = Some (fold_left op
           (map (fun t => nth (N.to_nat (i + t * size)) xs d) (range_lt 1 exp))
           (nth (N.to_nat i) xs d))) /\
      (forall l, ~ (fst l = ptr /\ snd l < size) -> m' l = m l)) m.
Proof. intros. apply reduce_expanded_ok; auto. Qed.

Definition ex_run :=
  match reduce_expanded Z.add 3 100 0 3 300 with
  | Cmds cs => match exec 0%Z cs (mem_of [(0, map Z.of_nat (seq 0 900))]) with
               | Some m => firstn 302 (contents m 0 900)
               | None => []
               end
  | _ => []
  end.
Example C24_ex : ex_run =
  map (fun i => Some (Z.of_nat (i + (i + 300) + (i + 600)))) (seq 0 300) ++ [Some 300; Some 301]%Z.
Proof. vm_compute. reflexivity. Qed.

Print Assumptions C24_reduce_expanded.

(** Expanding an array, accumulating any sequence of values into it from any worker,
    and reducing it again gives every entry its initial value combined with all values
    sent to it, for every commutative monoid (every integer operation). *)
Theorem C24_expand_accumulate_reduce :
  forall (V : Type) (op : V -> V -> V) (ident d : V) xs buf scale pool tsize ideal us ptr,
  (forall x y z, op (op x y) z = op x (op y z)) -> (forall x y, op x y = op y x) -> (forall x, op x ident = x) ->
  let size := N.of_nat (length xs) in
  0 < size < 2 ^ 32 -> 2 <= pool < 2 ^ 32 -> In tsize [2; 4; 8] -> 16 <= ideal <= 2 ^ 31 ->
  Forall (fun u => fst (fst u) < pool /\ snd (fst u) < size) us ->
  expand ident pool tsize xs = Some (buf, scale) ->
  exists buf', accumulate_all op scale buf us = Some buf' /\
  forall m, holds m ptr buf' ->
  exists cs, reduce_expanded op pool ideal ptr (reduce_factor pool size tsize) size = Cmds cs /\
    ensures cs (fun m' => forall i, i < size ->
      m' (ptr, i) = Some (fold_left op (sent_to i us) (nth (N.to_nat i) xs d))) m.
Proof. intros. eapply expand_run; eauto. Qed.
Print Assumptions C24_expand_accumulate_reduce.

(** Expand with [pool] workers, accumulate, reduce with [pool'] workers. *)
Definition whole_run (pool pool' : N) (xs : list Z) (us : list (N * N * Z)) : option (list (option Z)) :=
  let size := N.of_nat (length xs) in
  let? r := expand 0%Z pool 4 xs in
  let? buf := accumulate_all Z.add (snd r) (fst r) us in
  match reduce_expanded Z.add pool' 16384 0 (reduce_factor pool' size 4) size with
  | Cmds cs => let? m := exec 0%Z cs (mem_of [(0, buf)]) in Some (contents m 0 size)
  | _ => None
  end.
Definition ex_updates : list (N * N * Z) := [(0, 0, 1%Z); (3, 0, 10%Z); (2, 1, 100%Z); (3, 2, 1000%Z); (1, 0, 5%Z)].
Example C24_ex_run : whole_run 4 4 [7; 8; 9]%Z ex_updates = Some [Some 23; Some 108; Some 1009]%Z.
Proof. vm_compute. reflexivity. Qed.
Example C24_ex_scalar : whole_run 4 4 [7]%Z [(3, 0, 10%Z); (1, 0, 100%Z)] = Some [Some 117%Z].
Proof. vm_compute. reflexivity. Qed.
Example C24_ex_scale : option_map snd (expand 0%Z 4 4 [7]%Z) = Some 16.
Proof. vm_compute. reflexivity. Qed.

(** The factor is recomputed from the current number of workers: reducing the number of
    workers (jit_llvm_set_thread_count) between the two loses contributions. *)
Theorem C24_pool_change_refuted : exists pool pool' xs us,
  whole_run pool pool' xs us <> whole_run pool pool xs us.
Proof. exists 4, 2, [7; 8; 9]%Z, ex_updates. vm_compute. discriminate. Qed.
Print Assumptions C24_pool_change_refuted.
