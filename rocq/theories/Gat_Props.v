(** C12, C14: gathers from expressions, packet gathers. *)
From Verif Require Import Base Op_Model Gat_Model Gat_Spec Gat_Proofs Gat_Gather Gat_Total Gat_Packet Gat_Inst.
Local Open Scope N_scope.

(** ** C12 *)
(** The result has one entry per lane and the type of the source; everything that existed
    before keeps its type, size and values (the source may have been evaluated). *)
Theorem C12_shape :
  forall (K : Type) (sem : K -> list N -> option N) (junk : N -> N) (old : nat -> N -> N) cp st src idx mask vs vi vm st' r,
  ok st -> gget st src = Some vs -> gget st idx = Some vi -> gget st mask = Some vm -> value vs -> is_int (g_ty vi) = true ->
  gather sem junk old cp st src idx mask = GOk (st', r) ->
  ok st' /\
  (exists v, gget st' r = Some v /\ g_ty v = g_ty vs /\ g_size v = N.max (g_size vi) (g_size vm)) /\
  (forall h v, gget st h = Some v -> exists v', gget st' h = Some v' /\ g_ty v' = g_ty v /\ g_size v' = g_size v) /\
  (forall n h v l, gget st h = Some v -> g_size v = 1 \/ g_size v = n -> l < n -> lane sem junk old n st' h l = lane sem junk old n st h l).
Proof.
  intros until r. intros O Es Ei Em V I G. destruct (gather_ok sem junk old cp st src idx mask vs vi vm st' r O Es Ei Em V I G) as (O' & (d & D) & (K1 & K2) & _).
  split; [assumption|]. split; [eexists; split; [exact D|split; reflexivity]|]. split; assumption.
Qed.
Print Assumptions C12_shape.

(** Active lanes with an index in range receive the entry of the source *)
Theorem C12_active :
  forall (K : Type) (sem : K -> list N -> option N) (junk : N -> N) (old : nat -> N -> N) cp st src idx mask vs vi vm st' r,
  ok st -> gget st src = Some vs -> gget st idx = Some vi -> gget st mask = Some vm -> value vs -> is_int (g_ty vi) = true -> still st src ->
  gather sem junk old cp st src idx mask = GOk (st', r) ->
  forall n l x p, n = N.max (g_size vi) (g_size vm) -> l < n ->
  lane sem junk old n st mask l = Some 1 -> lane sem junk old n st idx l = Some x -> num (g_ty vi) x = Z.of_N p -> p < g_size vs ->
  lane sem junk old n st' r l = lane sem junk old (g_size vs) st src p.
Proof.
  intros until r. intros O Es Ei Em V I S1 G n l x p ->. destruct (gather_ok sem junk old cp st src idx mask vs vi vm st' r O Es Ei Em V I G) as (_ & _ & _ & _ & A & _).
  apply A; assumption.
Qed.
Print Assumptions C12_active.

(** Inactive lanes are zero, for expressions of lane-wise operations that are total and of gathers *)
Theorem C12_inactive_partial :
  forall (K : Type) (sem : K -> list N -> option N) (junk : N -> N) (old : nat -> N -> N) cp st src idx mask vs vi vm st' r,
  ok st -> gget st src = Some vs -> gget st idx = Some vi -> gget st mask = Some vm -> value vs -> is_int (g_ty vi) = true -> tame sem st src ->
  gather sem junk old cp st src idx mask = GOk (st', r) ->
  forall n l, n = N.max (g_size vi) (g_size vm) -> l < n -> lane sem junk old n st mask l = Some 0 -> lane sem junk old n st idx l <> None ->
  (g_size vs = 1 \/ g_size vs = n -> lane sem junk old n st src l <> None) ->
  lane sem junk old n st' r l = Some 0.
Proof.
  intros until r. intros O Es Ei Em V I T G n l Hn B Lm Li Ls.
  destruct (gather_ok sem junk old cp st src idx mask vs vi vm st' r O Es Ei Em V I G) as (_ & _ & (_ & K2) & _ & _ & A). rewrite <- Hn in A.
  unfold gather in G. rewrite Es, Ei, Em in G. pose proof (gget_bound _ _ _ Es) as Bs. pose proof (gget_bound _ _ _ Ei) as Bi. pose proof (gget_bound _ _ _ Em) as Bm.
  destruct (Nat.eqb_spec idx 0) as [->|_]; [lia|]. destruct (Nat.eqb_spec src 0) as [->|_]; [lia|]. destruct (Nat.eqb_spec mask 0) as [->|_]; [lia|]. cbn [orb] in G.
  destruct (gcheck vi vm) as [m| |] eqn:Ck; [|discriminate..]. apply check_ok in Ck as (Hm & Si & Sm). rewrite <- Hn in Hm. subst m. clear G.
  pose proof (K2 n mask vm l Em Sm B) as Km. pose proof (K2 n idx vi l Ei Si B) as Ki.
  apply (A T l); try (rewrite ?Km, ?Ki; auto; congruence).
  intros S1. rewrite (K2 n src vs l Es S1 B). now apply Ls.
Qed.
Print Assumptions C12_inactive_partial.

(** Lanes behind the end (vectors are processed whole) do not fault either *)
Theorem C12_padding_partial :
  forall (K : Type) (sem : K -> list N -> option N) (junk : N -> N) (old : nat -> N -> N) cp st src idx mask vs vi vm st' r,
  ok st -> gget st src = Some vs -> gget st idx = Some vi -> gget st mask = Some vm -> value vs -> is_int (g_ty vi) = true -> tame sem st src ->
  gather sem junk old cp st src idx mask = GOk (st', r) ->
  forall n l, n = N.max (g_size vi) (g_size vm) -> n <= l ->
  lane sem junk old n st' src l <> None -> lane sem junk old n st' idx l <> None -> lane sem junk old n st' mask l <> None ->
  lane sem junk old n st' r l <> None.
Proof.
  intros until r. intros O Es Ei Em V I T G n l Hn B Ls Li Lm.
  destruct (gather_ok sem junk old cp st src idx mask vs vi vm st' r O Es Ei Em V I G) as (_ & _ & _ & _ & _ & A). rewrite <- Hn in A. apply (A T l); auto.
Qed.
Print Assumptions C12_padding_partial.

(** Creating a gather raises an error or succeeds if the source can be evaluated *)
Theorem C12_no_fault :
  forall (K : Type) (sem : K -> list N -> option N) (junk : N -> N) (old : nat -> N -> N) cp st src idx mask vs vi vm,
  ok st -> gget st src = Some vs -> gget st idx = Some vi -> gget st mask = Some vm -> value vs -> value vi -> is_int (g_ty vi) = true ->
  (forall l, l < g_size vs -> lane sem junk old (g_size vs) st src l <> None) ->
  gather sem junk old cp st src idx mask <> GFault.
Proof. exact @gather_total. Qed.
Print Assumptions C12_no_fault.

(** Evaluated, literal, and unevaluated sources; signed and unsigned indices *)
Definition ex_st : list (gvar ek) :=
  [ mkG U32 6 GCtr;                      (* 1 *)
    mkG U32 1 (GLit 3);                  (* 2 *)
    mkG U32 6 (GOp EMul [1; 2]%nat);     (* 3: multiples of 3 *)
    mkG U32 4 (GMem [5; 0; 2; 9]);       (* 4: indices *)
    mkG Bool 4 (GMem [1; 1; 1; 0]);      (* 5: mask *)
    mkG U32 6 (GMem [3; 1; 4; 1; 5; 9]); (* 6: evaluated *)
    mkG U32 6 (GOp EAdd [3; 6]%nat);     (* 7: 3 i + pi *)
    mkG I8 4 (GMem [1; 4; 0; 255]);      (* 8: signed indices *)
    mkG Bool 1 (GLit 1)].                (* 9 *)
Definition no_old (h : nat) (l : N) : N := 99.
Definition ex_gather (cp : bool) (src idx mask : nat) : list (option N) :=
  match gather esem (fun l => l + 1000) no_old cp ex_st src idx mask with
  | GOk (st', r) => map (lane esem (fun l => l + 1000) no_old 4 st' r) [0; 1; 2; 3; 4; 5]
  | _ => []
  end.
Example C12_ex_reindex : ex_gather true 3 4 5 = [Some 15; Some 0; Some 6; Some 0; Some 0; Some 0].
Proof. vm_compute. reflexivity. Qed.
Example C12_ex_memory : ex_gather true 6 4 5 = [Some 9; Some 3; Some 4; Some 0; Some 0; Some 0].
Proof. vm_compute. reflexivity. Qed.
Example C12_ex_evaluates : ex_gather false 7 4 5 = [Some 24; Some 3; Some 10; Some 0; Some 0; Some 0].
Proof. vm_compute. reflexivity. Qed.
Example C12_ex_signed : ex_gather true 7 8 5 = [Some 4; Some 17; Some 3; Some 0; Some 0; Some 0].
Proof. vm_compute. reflexivity. Qed.
Example C12_ex_unmasked : ex_gather true 6 8 9 = [Some 1; Some 5; Some 3; None; Some 0; Some 0].
Proof. vm_compute. reflexivity. Qed.
Example C12_ex_ok : ok ex_st /\ tame esem ex_st 6 /\ still ex_st 7.
Proof.
  split; [apply okb_ok; vm_compute; reflexivity|]. split; intros x v W E.
  - inversion W as [|h w y x' Ew I W']; subst; [injection E as <-; exact Logic.I|]. injection Ew as <-. destruct I.
  - assert (H : forall y, nth_error ex_st y = Some v -> match g_desc v with GInc _ _ _ => False | _ => True end).
    { intros y N. do 9 (destruct y as [|y]; [injection N as <-; exact Logic.I|]). destruct y; discriminate N. }
    destruct x as [|x]; [discriminate E|]. exact (H x E).
Qed.

(** An inactive lane with an index out of range divides by zero: the source 12 / (i - 16)
    with 16 entries is defined everywhere, but the re-indexed expression is evaluated in the
    inactive lane as well. *)
Definition div_st : list (gvar ek) :=
  [ mkG U32 16 GCtr; mkG U32 1 (GLit 16); mkG U32 16 (GOp ESub [1; 2]%nat); mkG U32 1 (GLit 12); mkG U32 16 (GOp EDiv [4; 3]%nat);
    mkG U32 2 (GMem [0; 16]); mkG Bool 2 (GMem [1; 0])].
Theorem C12_division_refuted : exists st src idx mask vs st' r,
  ok st /\ gget st src = Some vs /\ value vs /\ (forall l, l < g_size vs -> lane esem (fun _ => 0) no_old (g_size vs) st src l <> None) /\
  gather esem (fun _ => 0) no_old true st src idx mask = GOk (st', r) /\
  (forall l, l < 2 -> lane esem (fun _ => 0) no_old 2 st idx l <> None) /\
  lane esem (fun _ => 0) no_old 2 st mask 1 = Some 0 /\ lane esem (fun _ => 0) no_old 2 st' r 1 = None.
Proof.
  exists div_st, 5%nat, 6%nat, 7%nat, (mkG U32 16 (GOp EDiv [4; 3]%nat)). eexists. eexists.
  split; [apply okb_ok; vm_compute; reflexivity|]. split; [reflexivity|]. split; [exact I|]. split.
  { intros l B. assert (H : forallb (fun l => match lane esem (fun _ => 0) no_old 16 div_st 5 (N.of_nat l) with Some _ => true | None => false end) (seq 0 16) = true) by (vm_compute; reflexivity).
    rewrite forallb_forall in H. specialize (H (N.to_nat l)). rewrite N2Nat.id in H. cbn [g_size] in *.
    intros E. rewrite E in H. discriminate H. apply in_seq. lia. }
  split; [vm_compute; reflexivity|]. split.
  { intros l B. assert (l = 0 \/ l = 1) as [->| ->] by lia; vm_compute; discriminate. }
  split; vm_compute; reflexivity.
Qed.
Print Assumptions C12_division_refuted.

(** Gathering from (a component of) a packet gather: the mask of the new gather is not
    applied to the packet gather, which therefore reads out of bounds. *)
Definition pk_st : list (gvar ek) :=
  [ mkG U32 4 (GMem [1; 2; 3; 4]); mkG U64 1 (GPtr 1); mkG U32 2 GCtr; mkG Bool 2 GDef; mkG U32 2 (GPacket 2 2 3 4); mkG U32 2 (GExtract 1 5);
    mkG U32 3 (GMem [0; 1; 1000000]); mkG Bool 3 (GMem [1; 1; 0])].
Theorem C12_packet_refuted : exists st src idx mask vs st' r,
  ok st /\ gget st src = Some vs /\ value vs /\ (forall l, l < g_size vs -> lane esem (fun _ => 0) no_old (g_size vs) st src l <> None) /\
  gather esem (fun _ => 0) no_old true st src idx mask = GOk (st', r) /\
  (forall l, l < 3 -> lane esem (fun _ => 0) no_old 3 st idx l <> None) /\
  lane esem (fun _ => 0) no_old 3 st mask 2 = Some 0 /\ lane esem (fun _ => 0) no_old 3 st' r 2 = None.
Proof.
  exists pk_st, 6%nat, 7%nat, 8%nat, (mkG U32 2 (GExtract 1 5)). eexists. eexists.
  split; [apply okb_ok; vm_compute; reflexivity|]. split; [reflexivity|]. split; [exact I|]. split.
  { cbn [g_size]. intros l B. assert (l = 0 \/ l = 1) as [->| ->] by lia; vm_compute; discriminate. }
  split; [vm_compute; reflexivity|]. split.
  { intros l B. assert (l = 0 \/ l = 1 \/ l = 2) as [->|[->| ->]] by lia; vm_compute; discriminate. }
  split; vm_compute; reflexivity.
Qed.
Print Assumptions C12_packet_refuted.

(** Gathering from the result of an atomic increment repeats the increment: whenever the two
    executions of the increment return different values, so do the two variables. *)
Definition inc_st : list (gvar ek) :=
  [ mkG U32 1 (GMem [7]); mkG U64 1 (GPtr 1); mkG U32 1 (GLit 0); mkG Bool 2 GDef; mkG U32 2 (GInc 2 3 4);
    mkG U32 2 (GMem [1; 0]); mkG Bool 1 (GLit 1)].
Theorem C12_increment_refuted : exists st src idx mask vs old st' r,
  ok st /\ gget st src = Some vs /\ value vs /\
  gather esem (fun _ => 0) old true st src idx mask = GOk (st', r) /\
  lane esem (fun _ => 0) old 2 st mask 0 = Some 1 /\ lane esem (fun _ => 0) old 2 st idx 0 = Some 1 /\
  lane esem (fun _ => 0) old 2 st' r 0 <> lane esem (fun _ => 0) old 2 st src 1.
Proof.
  exists inc_st, 5%nat, 6%nat, 7%nat, (mkG U32 2 (GInc 2 3 4)), (fun h l => N.of_nat h * 100 + l). eexists. eexists.
  split; [apply okb_ok; vm_compute; reflexivity|]. split; [reflexivity|]. split; [exact I|].
  split; [vm_compute; reflexivity|]. split; [vm_compute; reflexivity|]. split; [vm_compute; reflexivity|]. vm_compute. discriminate.
Qed.
Print Assumptions C12_increment_refuted.

(** ** C14 *)
(** Component [j] of lane [l] is entry [x * n + j], however the packet is split.  [umul],
    [uadd], [ufma]: 32 bit arithmetic ([arith2], [arith3]). *)
Theorem C14_gather :
  forall (K : Type) (sem : K -> list N -> option N) (junk : N -> N) (old : nat -> N -> N) cp umul uadd ufma,
  arith2 sem junk old umul N.mul -> arith2 sem junk old uadd N.add -> arith3 sem junk old ufma (fun x y z => x * y + z) ->
  forall packet_ops vector_width unaligned, (exists e, vector_width = 2 ^ e) ->
  forall fuel n st src idx mask vs vi vm st' rs, ok st -> n < 2 ^ 32 ->
  gget st src = Some vs -> gget st idx = Some vi -> gget st mask = Some vm -> value vs -> g_ty vi = U32 ->
  gather_packet sem junk old cp umul uadd ufma packet_ops vector_width unaligned fuel n st src idx mask = GOk (st', rs) ->
  ok st' /\ length rs = N.to_nat n /\
  (forall w h v l, gget st h = Some v -> g_size v = 1 \/ g_size v = w -> l < w -> lane sem junk old w st' h l = lane sem junk old w st h l) /\
  forall j, j < n ->
    (exists d, gget st' (nth (N.to_nat j) rs O) = Some (mkG (g_ty vs) (N.max (g_size vi) (g_size vm)) d)) /\
    (still st src -> forall w l x, w = N.max (g_size vi) (g_size vm) -> l < w ->
       lane sem junk old w st mask l = Some 1 -> lane sem junk old w st idx l = Some x -> x * n + j < g_size vs ->
       lane sem junk old w st' (nth (N.to_nat j) rs O) l = lane sem junk old (g_size vs) st src (x * n + j)).
Proof.
  intros K sem junk old cp umul uadd ufma H1 H2 H3 po w una Hw fuel n st src idx mask vs vi vm st' rs O Bn Es Ei Em V T G.
  destruct (packet_gather sem junk old cp umul uadd ufma po w una H1 H2 H3 Hw fuel n st src idx mask vs vi vm st' rs O Es Ei Em V T Bn G)
    as (O' & (_ & K2) & _ & L & C).
  split; [assumption|]. split; [assumption|]. split; [assumption|]. intros j Bj. destruct (C (N.to_nat j) ltac:(lia)) as [Sh A].
  split; [exact Sh|]. intros St w0 l x -> Bl Lm Lx Bx. specialize (A St l x Bl Lm Lx). rewrite N2Nat.id, N.add_0_r in A. apply A; assumption.
Qed.
Print Assumptions C14_gather.

(** The recursion splits at most once *)
Theorem C14_depth :
  forall (K : Type) (sem : K -> list N -> option N) (junk : N -> N) (old : nat -> N -> N) cp umul uadd ufma
    packet_ops vector_width unaligned, (exists e, vector_width = 2 ^ e) ->
  forall fuel fuel2 n st src idx mask,
  gather_packet sem junk old cp umul uadd ufma packet_ops vector_width unaligned (S fuel) n st src idx mask =
  gather_packet sem junk old cp umul uadd ufma packet_ops vector_width unaligned (S fuel2) n st src idx mask.
Proof. intros. apply packet_fuel; assumption. Qed.
Print Assumptions C14_depth.

(** The assumptions about arithmetic are satisfiable *)
Example C14_ex_arith : forall junk old,
  arith2 esem junk old (e2 EMul) N.mul /\ arith2 esem junk old (e2 EAdd) N.add /\ arith3 esem junk old (e3 EFma) (fun x y z => x * y + z).
Proof. intros junk old. split; [|split]; [apply e2_arith; reflexivity|apply e2_arith; reflexivity|apply e3_arith]. Qed.
Definition wide_st : list (gvar ek) :=
  [ mkG U32 24 (GMem [100; 101; 102; 103; 104; 105; 106; 107; 108; 109; 110; 111; 112; 113; 114; 115; 116; 117; 118; 119; 120; 121; 122; 123]);
    mkG U32 3 (GMem [1; 0; 1000]); mkG Bool 3 (GMem [1; 1; 0])].
Definition ex_packet (po : bool) (w n : N) : list (list (option N)) :=
  match gather_packet esem (fun l => l) no_old true (e2 EMul) (e2 EAdd) (e3 EFma) po w (fun _ => false) 1 n wide_st 1 2 3 with
  | GOk (st', rs) => map (fun r => map (lane esem (fun l => l) no_old 3 st' r) [0; 1; 2]) rs
  | _ => []
  end.
Definition ex_result (n : N) : list (list (option N)) :=
  map (fun j => [Some (100 + n + N.of_nat j); Some (100 + N.of_nat j); Some 0]) (seq 0 (N.to_nat n)).
Example C14_ex_whole : ex_packet true 8 4 = ex_result 4.
Proof. vm_compute. reflexivity. Qed.
Example C14_ex_split6 : ex_packet true 8 6 = ex_result 6.
Proof. vm_compute. reflexivity. Qed.
Example C14_ex_split12 : ex_packet true 8 12 = ex_result 12 /\ ex_packet true 2 12 = ex_result 12.
Proof. vm_compute. split; reflexivity. Qed.
Example C14_ex_separate : ex_packet true 8 3 = ex_result 3 /\ ex_packet false 8 8 = ex_result 8.
Proof. vm_compute. split; reflexivity. Qed.
