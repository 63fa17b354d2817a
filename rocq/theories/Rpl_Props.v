(** C67: replaying a frozen function computes what the function computes. *)
From Verif Require Import Base Rpl_Model Rpl_Spec Rpl_Top Rpl_Place Rpl_Dry.
Local Open Scope N_scope.

(** Whatever the device does ([dev]): a function was recorded with some inputs; with the inputs [ins] it does the
    same operations at sizes that scale ([follows]).  Then the replay with [ins] succeeds, returns what the function
    returns, leaves the same contents in the inputs, and every buffer it allocated is freed or returned, exactly once;
    nothing else is freed *)
Theorem C67_replay {C} (blank : C) (dev : kind -> list C -> list C) (count : kind -> list C -> N) xs tr ys ins tr' :
  (forall k cs, length (dev k cs) = length cs) ->
  NoDup (map fst xs) -> length ins = length xs -> Forall (fun v => tsz (i_vt v) * i_n v < 2 ^ 32) ins ->
  follows blank dev count (map fst xs) (types_of xs) (env_of (map fst xs) ins) tr tr' ->
  exists e', run blank dev count (env_of (map fst xs) ins) tr' = Some e' /\
    (Forall (returned e') ys ->
     exists g t os freed, record xs tr ys = Some g /\ replay blank dev count g ins = Some (t, os, freed) /\ Forall2 (output_ok (map fst xs) e') ys os /\
       (forall i x, nth_error (map fst xs) i = Some x -> exists c n, e' x = Some (c, n) /\ s_data (get t i) = Some (BIn i, c)) /\
       (NoDup (filter (fun y => negb (existsb (N.eqb y) (map fst xs))) (map fst ys)) -> Permutation (freed ++ flat_map owned os) (map BNew (seq 0 (t_next t))))).
Proof. intros D. exact (replay_correct blank dev count D xs tr ys ins tr'). Qed.
Print Assumptions C67_replay.

(** The recording does not depend on the addresses of the buffers; an address may be used again after it is freed *)
Theorem C67_placement at_ xs tr ys : placed at_ (map fst xs) tr (map fst ys) ->
  record (map (move at_) xs) (map (move_ev at_) tr) (map (move at_) ys) = record xs tr ys.
Proof. exact (record_placed at_ xs tr ys). Qed.
Print Assumptions C67_placement.

(** A function that reads a variable which is no input and was not computed inside cannot be recorded *)
Theorem C67_rejects xs tr1 c tr2 ys x : Forall (absent x) tr1 -> shape (c_kind c) (map a_out (c_args c)) ->
  (forall es, c_kind c <> KAgg es) -> (forall n b k, c_kind c <> KMkperm n b k) ->
  ~ In x (map fst xs) -> In x (ins_of c) -> ~ In x (outs_of c) -> record xs (tr1 ++ Call c :: tr2) ys = None.
Proof. exact (record_rejects xs tr1 c tr2 ys x). Qed.
Print Assumptions C67_rejects.

(** If the dry run accepts the inputs then the operations of the replay succeed *)
Theorem C67_dry_run {C} (blank : C) (dev : kind -> list C -> list C) (count : kind -> list C -> N) xs tr ys g ins :
  Forall plain_ev tr -> record xs tr ys = Some g -> length ins = length xs -> g_dry g = true ->
  dry_run blank dev count g ins = Some true -> exists t, replay_ops blank dev count false (start g ins) (g_ops g) = Ok t.
Proof. exact (dry_run_ok blank dev count xs tr ys g ins). Qed.
Print Assumptions C67_dry_run.

(** ** Examples: contents are lists; kernel 1 adds one, kernel 2 adds two arrays *)
Definition ldev (k : kind) (cs : list (list N)) : list (list N) :=
  match k, cs with
  | KLaunch 1 n, [x; _] => [x; map (fun i => nth i x 0 + 1) (seq 0 (N.to_nat n))]
  | KLaunch 2 n, [x; y; _] => [x; y; map (fun i => nth i x 0 + nth i y 0) (seq 0 (N.to_nat n))]
  | KMemset n _ v, [_] => [repeat v (N.to_nat n)]
  | KMemcpy b, [x; _] => [x; firstn (N.to_nat (b / 4)) x]
  | KReduce _ _ n bs, [x; _] => [x; map (fun i => fold_right N.add 0 (firstn (N.to_nat bs) (skipn (i * N.to_nat bs) x))) (seq 0 (N.to_nat (n / bs)))]
  | KAgg [EVal _ s], [_; x] => [firstn (N.to_nat (s / 4)) x; x]
  | _, cs => cs
  end.
Definition lcount (k : kind) (cs : list (list N)) : N := 0.
Example ldev_len : forall k cs, length (ldev k cs) = length cs.
Proof.
  intros k cs. unfold ldev. destruct k as [k n|n isz v|n|rp n|n|n bs bc|vt rp n bs|vt rp n bs ex rev|vt n|es|n|n|]; try reflexivity.
  - destruct k as [|[[| |]|[| |]|]]; try reflexivity; destruct cs as [|a [|b [|c [|d l]]]]; reflexivity.
  - destruct cs as [|a [|b l]]; reflexivity.
  - destruct cs as [|a [|b [|c l]]]; reflexivity.
  - destruct cs as [|a [|b [|c l]]]; reflexivity.
  - destruct es as [|[o s v|o s] [|? ?]]; try reflexivity. destruct cs as [|a [|b [|c l]]]; reflexivity.
Qed.
Definition rd p vt b := {| a_p := p; a_out := false; a_pf := false; a_vt := vt; a_b := b |}.
Definition wrt p vt b := {| a_p := p; a_out := true; a_pf := false; a_vt := vt; a_b := b |}.
Definition inp l : input (C := list N) := {| i_vt := TUInt32; i_n := N.of_nat (length l); i_c := l |}.
Definition Sum := 1.
(** y = x + 1; s = sum of y; y is freed; z = x + 1 (at the address of y) *)
Definition prog (n : N) : list ev :=
  [Call {| c_kind := KLaunch 1 n; c_args := [rd 10 TUInt32 (n * 4); wrt 11 TUInt32 (n * 4)] |};
   Call {| c_kind := KReduce TUInt32 Sum n n; c_args := [rd 11 TUInt32 (n * 4); wrt 12 TUInt32 4] |};
   Free 11;
   Call {| c_kind := KLaunch 1 n; c_args := [rd 10 TUInt32 (n * 4); wrt 13 TUInt32 (n * 4)] |}].
Definition pin := [(10, TUInt32)].
Definition pout := [(12, TUInt32); (10, TUInt32); (13, TUInt32)].
Example prog_follows : follows [] ldev lcount [10] (types_of pin) (env_of [10] [inp [5; 6; 7; 8]]) (prog 3) (prog 4).
Proof.
  assert (H1 : holds (rd 10 TUInt32 (3 * 4)) TUInt32 3) by (repeat split; vm_compute; reflexivity).
  assert (H2 : holds (rd 10 TUInt32 (4 * 4)) TUInt32 4) by (repeat split; vm_compute; reflexivity).
  assert (H3 : holds (rd 11 TUInt32 (3 * 4)) TUInt32 3) by (repeat split; vm_compute; reflexivity).
  assert (H4 : holds (rd 11 TUInt32 (4 * 4)) TUInt32 4) by (repeat split; vm_compute; reflexivity).
  assert (SEP : forall k p q b1 b2, p <> q -> 10 <> q -> separate [10] {| c_kind := k; c_args := [rd p TUInt32 b1; wrt q TUInt32 b2] |}).
  { intros k p q b1 b2 N1 N2. split; [repeat constructor; intros []|]. intros x [<-|[]]. cbn. intuition. }
  assert (SA : forall p q b1 b2 c1 c2, Forall2 same_arg [rd p TUInt32 b1; wrt q TUInt32 b2] [rd p TUInt32 c1; wrt q TUInt32 c2]) by (intros; repeat constructor).
  assert (SC : forall p q, scales {| c_kind := KLaunch 1 3; c_args := [rd p TUInt32 (3 * 4); wrt q TUInt32 (3 * 4)] |} {| c_kind := KLaunch 1 4; c_args := [rd p TUInt32 (4 * 4); wrt q TUInt32 (4 * 4)] |}).
  { intros p q. split; [reflexivity|]. right. split; [vm_compute; discriminate|]. exists 1. left. split; vm_compute; reflexivity. }
  assert (RG : forall t n p q, 0 < n < 2 ^ 32 -> holds (rd p TUInt32 (n * 4)) TUInt32 n -> regular t {| c_kind := KLaunch 1 n; c_args := [rd p TUInt32 (n * 4); wrt q TUInt32 (n * 4)] |}).
  { intros t n p q Hn H. split; [exact Hn|]. constructor; [|constructor; [|constructor]]; cbn [rd wrt a_out a_pf a_b a_vt]; [split; [discriminate|eauto]|split; [reflexivity|reflexivity]]. }
  cbn [prog follows]. split; [now apply SEP|]. split; [apply RG; [lia|exact H1]|]. split; [apply RG; [lia|exact H2]|]. split; [apply SA|]. split; [apply SC|].
  split; [constructor; [intros _; eexists; vm_compute; reflexivity|constructor; [discriminate|constructor]]|]. split; [exact I|]. intros e1 E1. vm_compute in E1. injection E1 as <-.
  split; [now apply SEP|].
  split; [cbn [regular c_kind c_args]; repeat split; try (vm_compute; (reflexivity || discriminate))|].
  split; [cbn [regular c_kind c_args]; repeat split; try (vm_compute; (reflexivity || discriminate))|].
  split; [apply SA|]. split; [repeat split|].
  split; [constructor; [intros _; eexists; vm_compute; reflexivity|constructor; [discriminate|constructor]]|]. split; [exact I|]. intros e2 E2. vm_compute in E2. injection E2 as <-.
  split; [reflexivity|]. split; [vm_compute; intuition discriminate|].
  split; [now apply SEP|]. split; [apply RG; [lia|exact H1]|]. split; [apply RG; [lia|exact H2]|]. split; [apply SA|]. split; [apply SC|].
  split; [constructor; [intros _; eexists; vm_compute; reflexivity|constructor; [discriminate|constructor]]|]. split; [exact I|]. intros e3 E3. exact I.
Qed.
(** Recorded with three entries, replayed with four: the sum, the input itself, and a new array; one buffer is freed *)
Example prog_replay : exists g t, record pin (prog 3) pout = Some g /\
  replay [] ldev lcount g [inp [5; 6; 7; 8]] = Some (t, [ONew (BNew 1) TUInt32 1 [30]; OIn 0; ONew (BNew 2) TUInt32 4 [6; 7; 8; 9]], [BNew 0]).
Proof. eexists _, _. split; vm_compute; reflexivity. Qed.
(** y and z at the same address *)
Definition place (x : N) : N := if x =? 13 then 5100 else if x =? 11 then 5100 else x + 7000.
Example prog_placed : placed place [10] (prog 3) [12; 10; 13].
Proof. vm_compute; repeat split; intros; repeat match goal with H : _ \/ _ |- _ => destruct H | H : False |- _ => contradiction end; subst; try reflexivity; try discriminate. Qed.
(** A sum of blocks of two entries: four entries are fine, three are refused by the dry run *)
Definition blocks (n : N) : list ev := [Call {| c_kind := KReduce TUInt32 Sum n 2; c_args := [rd 10 TUInt32 (n * 4); wrt 12 TUInt32 (n / 2 * 4)] |}].
Example blocks_dry : exists g, record pin (blocks 8) [(12, TUInt32)] = Some g /\ g_dry g = true /\ dry_run [] ldev lcount g [inp [1; 2; 3; 4]] = Some true /\ dry_run [] ldev lcount g [inp [1; 2; 3]] = Some false.
Proof. eexists. vm_compute. repeat split. Qed.
Example reads_unknown : record pin [Call {| c_kind := KLaunch 2 3; c_args := [rd 10 TUInt32 12; rd 99 TUInt32 12; wrt 12 TUInt32 12] |}] [(12, TUInt32)] = None.
Proof. reflexivity. Qed.

(** Sizes of entries: bool, integers of 8 to 64 bit (signed, unsigned), pointers, floating point of 16 to 64 bit *)
Theorem C67_type_sizes : map tsz [1; 3; 4; 5; 6; 7; 8; 9; 10; 11; 13; 14; 15] = [1; 1; 1; 2; 2; 4; 4; 8; 8; 8; 2; 4; 8].
Proof. reflexivity. Qed.

(** ** What fails *)
(** An input of 4 GiB or more: its size is a 32-bit product.  Here 2^30 + 1024 entries become 1024 *)
Theorem C67_large_input_refuted : exists g (v : input (C := unit)) t b freed,
  record pin [Call {| c_kind := KLaunch 1 3; c_args := [rd 10 TUInt32 12; wrt 11 TUInt32 12] |}] [(11, TUInt32)] = Some g /\
  i_vt v = TUInt32 /\ i_n v = 2 ^ 30 + 1024 /\ replay tt (fun _ cs => cs) (fun _ _ => 0) g [v] = Some (t, [ONew b TUInt32 1024 tt], freed).
Proof. eexists _, {| i_vt := TUInt32; i_n := 2 ^ 30 + 1024; i_c := tt |}, _, _, _. split; [vm_compute; reflexivity|]. split; [reflexivity|]. split; [reflexivity|]. vm_compute. reflexivity. Qed.
(** An output that was not computed by the function is left out, without an error; the others move up *)
Theorem C67_lost_output_refuted : exists tr g t b freed c,
  record pin tr [(99, TUInt32); (11, TUInt32)] = Some g /\ replay [] ldev lcount g [inp [1; 2; 3]] = Some (t, [ONew b TUInt32 3 c], freed).
Proof. exists [Call {| c_kind := KLaunch 1 3; c_args := [rd 10 TUInt32 12; wrt 11 TUInt32 12] |}]. eexists _, _, _, _, _. split; vm_compute; reflexivity. Qed.
(** The same variable returned twice: two variables own the same buffer *)
Theorem C67_repeated_output_refuted : exists tr g t b c freed,
  record pin tr [(11, TUInt32); (11, TUInt32)] = Some g /\ replay [] ldev lcount g [inp [1; 2; 3]] = Some (t, [ONew b TUInt32 3 c; ONew b TUInt32 3 c], freed).
Proof. exists [Call {| c_kind := KLaunch 1 3; c_args := [rd 10 TUInt32 12; wrt 11 TUInt32 12] |}]. eexists _, _, _, _, _. split; vm_compute; reflexivity. Qed.
(** A variable that was shrunk: with the same inputs, a kernel that computed two entries computes four *)
Theorem C67_shrink_refuted : exists tr g t b freed e d,
  run [] ldev lcount (env_of [10] [inp [1; 2; 3; 4]]) tr = Some e /\ e 12 = Some (d, 2 * tsz TUInt32) /\
  record pin tr [(12, TUInt32)] = Some g /\ replay [] ldev lcount g [inp [1; 2; 3; 4]] = Some (t, [ONew b TUInt32 4 [3; 4; 5; 6]], freed).
Proof.
  exists [Call {| c_kind := KLaunch 1 4; c_args := [rd 10 TUInt32 16; wrt 11 TUInt32 16] |}; Call {| c_kind := KLaunch 1 2; c_args := [rd 11 TUInt32 8; wrt 12 TUInt32 8] |}].
  eexists _, _, _, _, _, _. split; [vm_compute; reflexivity|]. split; [vm_compute; reflexivity|]. split; vm_compute; reflexivity.
Qed.
(** A copy of the first two entries is replayed as a copy of all *)
Theorem C67_partial_copy_refuted : exists tr g t b freed e,
  run [] ldev lcount (env_of [10] [inp [1; 2; 3; 4]]) tr = Some e /\ e 12 = Some ([1; 2], 2 * tsz TUInt32) /\
  record pin tr [(12, TUInt32)] = Some g /\ replay [] ldev lcount g [inp [1; 2; 3; 4]] = Some (t, [ONew b TUInt32 4 [1; 2; 3; 4]], freed).
Proof.
  exists [Call {| c_kind := KMemcpy 8; c_args := [rd 10 Void 8; wrt 12 Void 8] |}].
  eexists _, _, _, _, _. split; [vm_compute; reflexivity|]. split; [vm_compute; reflexivity|]. split; vm_compute; reflexivity.
Qed.
(** A constant that was written by memset and is read by an aggregation (data of a virtual call): it is lost *)
Theorem C67_constant_in_call_data_refuted : exists tr g t e,
  run [] ldev lcount (env_of [10] [inp [1; 2; 3; 4]]) tr = Some e /\ e 12 = Some ([7], 8) /\
  record pin tr [] = Some g /\ replay_ops [] ldev lcount false (start g [inp [1; 2; 3; 4]]) (g_ops g) = Ok t /\ s_data (get t 2) = Some (BNew 1, []) /\ s_size (get t 2) = 0.
Proof.
  exists [Call {| c_kind := KMemset 1 4 7; c_args := [wrt 11 Void 4] |}; Call {| c_kind := KAgg [EVal 0 4]; c_args := [wrt 12 TUInt8 8; rd 11 Void 4] |}].
  eexists _, _, _. split; [vm_compute; reflexivity|]. split; [vm_compute; reflexivity|]. split; [vm_compute; reflexivity|]. split; [vm_compute; reflexivity|]. vm_compute. repeat split.
Qed.
(** A memset on an input: with a smaller input, the replay frees the memory of the caller *)
Theorem C67_memset_input_refuted : exists tr g t os freed,
  record pin tr [] = Some g /\ replay [] ldev lcount g [inp [1; 2]] = Some (t, os, freed) /\ In (BIn 0) freed.
Proof.
  exists [Call {| c_kind := KMemset 4 4 0; c_args := [wrt 10 Void 16] |}]. eexists _, _, _, _. split; [vm_compute; reflexivity|]. split; [vm_compute; reflexivity|]. vm_compute. now left.
Qed.
