(** C14: the code that packet gathers and scatters turn into. *)
From Verif Require Import Base Pkt_Model Pkt_Spec Pkt_Proofs Pkt_Scatter.
Local Open Scope N_scope.

(** *** C14: one load per lane followed by shuffles.  Vectors of any width 2^e >= n. *)
Theorem C14_gather_code : forall (V : Type) (n d : N) (fuel : nat) (load : N -> N -> V), size_ok n -> (N.to_nat d < fuel)%nat ->
  exists r, gather_fn (n * 2 ^ d) fuel load n = Some r /\
    forall c k, c < n -> k < n * 2 ^ d -> nth_vec r c k = Some (load k c).
Proof. intros V n d fuel load Hn Bf. apply (gather_fn_ok (n * 2 ^ d) load n (N.to_nat d)); [assumption|now rewrite N2Nat.id|assumption]. Qed.
Print Assumptions C14_gather_code.
(** *** C14: any even number of components, vectors with 2^e lanes, replacing or adding *)
Theorem C14_scatter_code : forall (V : Type) (upd2 : V -> V -> V) (e n : N) (fuel : nat) (bs : list (block V)) (mem : memory),
  1 <= e -> n <> 0 -> n mod 2 = 0 -> (N.to_nat e < fuel)%nat ->
  exists mem', packets upd2 (2 ^ e) fuel n bs mem = Some mem' /\
    forall a, mem' a = entries upd2 (2 ^ e) n bs (mem a) a /\ mem' a = separates upd2 (2 ^ e) n bs mem a.
Proof.
  intros V upd2 e n fuel bs mem Be Nn Ev Bf. destruct (packets_ok upd2 (2 ^ e) e n fuel eq_refl Be Nn Ev Bf bs mem) as (mem' & E & H).
  exists mem'. split; [exact E|]. intros a. split; [apply H|]. rewrite H. symmetry. now apply separates_ok.
Qed.
Print Assumptions C14_scatter_code.
(** *** C14: operations that are skipped would not have changed anything *)
Theorem C14_scatter_skip : forall packet add is_add mode threshold size w n x m val old mask target values,
  (forall a, add a 0 = a) -> n <> 0 -> length values = N.to_nat n ->
  (forall l, mask = Some l -> forall k, m k = negb (l =? 0)) ->
  (forall l, target = Some l -> old = l) ->
  (forall j l, nth_error values (N.to_nat j) = Some (Some l) -> forall k, val j k = l) ->
  strategy_of packet is_add mode threshold size n mask target values = SSkip ->
  forall a, entry (fun old new => if is_add then add old new else new) w n x m val old a = old.
Proof. exact skip_ok. Qed.
Print Assumptions C14_scatter_skip.
(** *** C14: stores to memory of the allocator satisfy the alignment that they declare *)
Theorem C14_scatter_aligned : forall e t n base x b, 1 <= e -> t <= 3 -> n <> 0 -> n mod 2 = 0 -> unaligned (2 ^ e) base (2 ^ t) = false ->
  let ps := packet_size 4 n (N.min 8 (2 ^ e)) in
  store_addr base (2 ^ t) (x * n) (b * ps) mod store_align ps (2 ^ t) = 0.
Proof. exact aligned_ok. Qed.
Print Assumptions C14_scatter_aligned.
(** ... but the choice of the operation does not look at the flag (op.cpp:3204-3241;
    a packet gather does, op.cpp:2296): a packet scatter to mapped memory at address
    0x1004, four floats per packet, vectors with 8 lanes, declares stores to be 16-byte aligned *)
Theorem C14_scatter_unaligned_refuted : exists w base tsize n,
  strategy_of true false MAuto 1000000 (n * 8) n (Some 1) None (repeat None (N.to_nat n)) = SPacket /\
  unaligned w base tsize = true /\
  store_addr base tsize (0 * n) 0 mod store_align (packet_size 4 n (N.min 8 w)) tsize <> 0.
Proof. exists 8, 0x1004, 4, 4. vm_compute. repeat split; discriminate. Qed.

(** Examples *)
Definition get8 (r : option (list (vec (V := N)))) : list (list (option N)) :=
  match r with Some vs => map (fun v => map v [0; 1; 2; 3; 4; 5; 6; 7]) vs | None => [] end.
Example gather_4_8 : get8 (gather_fn 8 5 (fun k c => 10 * k + c) 4) =
  [map Some [0; 10; 20; 30; 40; 50; 60; 70]; map Some [1; 11; 21; 31; 41; 51; 61; 71];
   map Some [2; 12; 22; 32; 42; 52; 62; 72]; map Some [3; 13; 23; 33; 43; 53; 63; 73]].
Proof. vm_compute. reflexivity. Qed.
(** Lanes 0 and 3 refer to the same packet; lane 1 is masked; 6 components in pieces of 2 *)
Definition sc6 (upd2 : N -> N -> N) : list N :=
  match packets upd2 4 3 6 [((fun k => if k =? 3 then 0 else k), (fun k => negb (k =? 1)), (fun j k => 10 * (k + 1) + j))] (fun a => a + 100) with
  | Some mem => map mem [0; 1; 5; 6; 11; 12; 17; 18] | None => [] end.
Example scatter_6 : sc6 (fun _ y => y) = [40; 41; 45; 106; 111; 30; 35; 118].
Proof. vm_compute. reflexivity. Qed.
Example scatter_6_add : sc6 N.add = [100 + 10 + 40; 101 + 11 + 41; 105 + 15 + 45; 106; 111; 112 + 30; 117 + 35; 118].
Proof. vm_compute. reflexivity. Qed.
(** Skipping needs every component: a single zero among the literals is not enough *)
Example skip_zero : strategy_of true true MAuto 100 8 2 (Some 1) None [Some 0; Some 0] = SSkip. Proof. reflexivity. Qed.
Example skip_not : strategy_of true true MAuto 100 8 2 (Some 1) None [Some 0; Some 1] = SPacket. Proof. reflexivity. Qed.
