(** C60: scatter-reductions combine every contribution exactly once. *)
From Verif Require Import Base Par_Model Red_Model Red_Spec Red_Proofs Red_Laws Sred_Model Sred_Spec Sred_Proofs Sred_Machine.
From Coq Require Import SpecFloat.
Local Open Scope N_scope.

(** "icmp ne"; llvm_scatter.cpp:69-75 comparison in front of Min and Max *)
Definition idiffers (a b : Z) : bool := negb (a =? b)%Z.
Definition iskip (o : redop) (cur src : Z) : bool :=
  match o with RMin => (cur <=? src)%Z | RMax => (src <=? cur)%Z | _ => false end.
Definition minmax (o : redop) : bool := match o with RMin | RMax => true | _ => false end.

(** *** C60: integers.  Any number of threads, vectors per thread, lanes, conflicting
    indices, and any interleaving of the memory operations.  [work]: the vectors that each
    thread processes; mode NoConflicts requires that threads access different elements. *)
Theorem C60_reduce_partial : forall (t : ity) (o : redop) (w shift base count : N) (md : mode) (work : list (list block)) sched todos m ts' m',
  (1 <= it_bits t)%Z -> (it_signed t = false \/ 2 <= it_bits t)%Z -> o <> RMul ->
  count <= 2 ^ 32 -> base mod 2 ^ shift = 0 ->
  Forall (Forall (block_ok w (it_in t) shift base count)) work -> (forall a, it_in t (m a)) -> (md = NoConflicts -> separate w work) ->
  let ident := it_wrap t (reduce_identity t o) in
  programs w (ired t o) ident idiffers shift md work = Some todos ->
  run (ired t o) (iskip o) (how_of md (minmax o)) sched (map start todos) m = (ts', m') -> Forall finished ts' ->
  forall a, m' a = fold_left (ired t o) (all_contribs w work a) (m a).
Proof.
  intros t o w shift base count md work sched todos m ts' m' B1 B2 No Hc Hb HF Hm Sep ident Ep R F a. unfold ident in *. rewrite identity_ok in Ep by assumption.
  refine (reduce_ok w (it_in t) (ired t o) (iinit t o) idiffers (iskip o) shift base count (ired_exact t B1 B2 o) _ _ Hc Hb md (minmax o) work sched todos m ts' m' HF Hm Sep Ep R F a).
  - intros v _ H. unfold idiffers in H. apply Bool.negb_false_iff, Z.eqb_eq in H. congruence.
  - intros x v _ _ H. destruct o; try discriminate H; cbn [iskip ired] in *; apply Z.leb_le in H; lia.
Qed.
Print Assumptions C60_reduce_partial.
(** *** C60: the kernels end, and so do the threads *)
Theorem C60_ends : forall (t : ity) (o : redop) (w shift base count : N) (md : mode) (work : list (list block)),
  (1 <= it_bits t)%Z -> (it_signed t = false \/ 2 <= it_bits t)%Z -> count <= 2 ^ 32 -> base mod 2 ^ shift = 0 ->
  Forall (Forall (block_ok w (it_in t) shift base count)) work ->
  exists todos, programs w (ired t o) (iinit t o) idiffers shift md work = Some todos /\ length todos = length work /\
    forall sched m ts' m', run (ired t o) (iskip o) (how_of md (minmax o)) sched (map start todos) m = (ts', m') ->
      (forall i us, nth_error todos i = Some us -> (2 * length us <= count_occ Nat.eq_dec sched i)%nat) -> Forall finished ts'.
Proof.
  intros t o w shift base count md work B1 B2 Hc Hb HF.
  assert (D : forall v, it_in t v -> idiffers (iinit t o) v = false -> v = iinit t o).
  { intros v _ H. unfold idiffers in H. apply Bool.negb_false_iff, Z.eqb_eq in H. congruence. }
  assert (Sk : forall x v, it_in t x -> it_in t v -> iskip o x v = true -> ired t o x v = x).
  { intros x v _ _ H. destruct o; try discriminate H; cbn [iskip ired] in *; apply Z.leb_le in H; lia. }
  destruct (programs_ok w (it_in t) (ired t o) (iinit t o) idiffers (iskip o) shift base count (ired_exact t B1 B2 o) D Sk Hc Hb md work HF) as (todos & Ep & L & _).
  exists todos. split; [exact Ep|]. split; [exact L|]. intros sched m ts' m' R C. apply Forall_forall. intros t' I. apply In_nth_error in I as [i Hi].
  assert (Len : forall h sched ts m, length (fst (run (ired t o) (iskip o) h sched ts m)) = length ts).
  { clear. intros h. induction sched as [|j sched IH]; intros ts m; cbn [run]; [reflexivity|]. destruct (nth_error ts j) as [tj|]; [|apply IH].
    destruct (step (ired t o) (iskip o) h tj m) as [t1 m1]. rewrite IH. apply set_nth_length. }
  specialize (Len (how_of md (minmax o)) sched (map start todos) m). rewrite R in Len. cbn [fst] in Len. rewrite map_length in Len.
  assert (Bi : (i < length todos)%nat) by (rewrite <- Len; apply nth_error_Some; congruence).
  destruct (nth_error todos i) as [us|] eqn:Hu; [|apply nth_error_None in Hu; lia].
  destruct (run_ends (ired t o) (iskip o) (how_of md (minmax o)) i sched (map start todos) m ts' m' (start us) R) as (t2 & Ht2 & Fin).
  { rewrite nth_error_map, Hu. reflexivity. }
  rewrite Hi in Ht2. injection Ht2 as <-. apply Fin. unfold work_left. cbn [start th_todo th_phase]. specialize (C i us Hu). lia.
Qed.
Print Assumptions C60_ends.

(** *** C60: masked lanes take part when the element lies at a multiple of 2^(32+shift)
    (llvm_scatter.cpp:290, 437: the truncated pointer of a masked lane is set to 0).
    32-bit integers at address 2^34; lane 0 adds 1, lane 1 is masked off and holds 100:
    the kernel adds 101 *)
Definition masked_block : block := {| b_ptr := fun k => 2 ^ 34 + 4 * k; b_val := fun k => if (k =? 0)%N then 1%Z else 100%Z; b_active := 1 |}.
Theorem C60_masked_lanes_refuted : exists (b : block) a,
  (forall k, k < 4 -> it_in (IT false 32) (b_val b k)) /\ array_block 4 (2 ^ 34) 2 4 b (fun k => k) /\
  exists us m', kernel 4 (ired (IT false 32) RAdd) 0%Z idiffers 2 Local b = Some us /\
    run (ired (IT false 32) RAdd) (iskip RAdd) HAtomic [0%nat] [start us] (fun _ => 7%Z) = ([start []], m') /\
    m' a <> fold_left (ired (IT false 32) RAdd) (contribs 4 b a) 7%Z.
Proof.
  exists masked_block, (2 ^ 34). split.
  { intros k Bk. unfold masked_block, it_in. cbn. destruct (k =? 0); lia. }
  split; [intros k Bk _; split; [assumption|reflexivity]|].
  eexists. eexists. split; [vm_compute; reflexivity|]. split; [vm_compute; reflexivity|]. vm_compute. discriminate.
Qed.
(** ... and a 32-lane vector: the direct kernel is generated (llvm_scatter.cpp:166 rejects
    more than 32 lanes), although the result type of zext (178) must be wider than i32 *)
Definition direct_generated (w : N) : bool := negb (32 <? w).
Definition zext_valid (from to : N) : bool := from <? to.
Theorem C60_width_refuted : exists w, direct_generated w = true /\ zext_valid w 32 = false.
Proof. exists 32. split; reflexivity. Qed.

(** *** C60: floating point.  "fcmp one" is false for a NaN, so a contribution that is NaN
    is dropped (llvm_scatter.cpp:256, 334) unless another lane with the same element
    takes part; the direct kernel adds it *)
Definition fadd : spec_float -> spec_float -> spec_float := SFadd 24 128.
Definition fone (a b : spec_float) : bool := match SFcompare a b with Some Datatypes.Lt | Some Datatypes.Gt => true | _ => false end.
Definition one : spec_float := S754_finite false 8388608 (-23).
Definition nan_block : block := {| b_ptr := fun k => 64 + 4 * k; b_val := fun _ => S754_nan; b_active := 1 |}.
Theorem C60_nan_refuted : exists (b : block) a,
  (exists us m', kernel 4 fadd (S754_zero false) fone 2 Direct b = Some us /\
    run fadd (fun _ _ => false) HAtomic [0%nat] [start us] (fun _ => one) = ([start []], m') /\ m' a = S754_nan) /\
  (exists us m', kernel 4 fadd (S754_zero false) fone 2 Local b = Some us /\
    run fadd (fun _ _ => false) HAtomic [0%nat] [start us] (fun _ => one) = ([start []], m') /\ m' a = one).
Proof.
  exists nan_block, 64. split; (eexists; eexists; split; [vm_compute; reflexivity|]; split; [vm_compute; reflexivity|vm_compute; reflexivity]).
Qed.

(** *** Without atomics, updates of the same element by two threads can be lost *)
Theorem C60_noconflict_refuted : exists (work : list (list block)) todos sched ts' m',
  Forall (Forall (block_ok 4 (it_in (IT false 32)) 2 64 4)) work /\
  programs 4 (ired (IT false 32) RAdd) 0%Z idiffers 2 NoConflicts work = Some todos /\
  run (ired (IT false 32) RAdd) (iskip RAdd) (how_of NoConflicts (minmax RAdd)) sched (map start todos) (fun _ => 0%Z) = (ts', m') /\ Forall finished ts' /\
  m' 64 <> fold_left (ired (IT false 32) RAdd) (all_contribs 4 work 64) 0%Z.
Proof.
  set (b := {| b_ptr := fun k => 64 + 4 * k; b_val := fun _ => 5%Z; b_active := 1 |}).
  exists [[b]; [b]], [[(64, 5%Z)]; [(64, 5%Z)]], [0%nat; 1%nat; 0%nat; 1%nat]. do 2 eexists. split.
  { assert (block_ok 4 (it_in (IT false 32)) 2 64 4 b).
    { split; [intros k _; unfold it_in; cbn; lia|]. split; [exists (fun k => k); intros k Bk _; split; [assumption|reflexivity]|].
      left. intros k Bk _. cbn [b b_ptr]. intros H. apply N.mod_divide in H as [q H]; [|discriminate]. change (2 ^ (32 + 2)) with 17179869184 in H. lia. }
    apply Forall_cons; [apply Forall_cons; [assumption|apply Forall_nil]|apply Forall_cons; [apply Forall_cons; [assumption|apply Forall_nil]|apply Forall_nil]]. }
  split; [vm_compute; reflexivity|]. split; [vm_compute; reflexivity|]. split; [repeat constructor|]. vm_compute. discriminate.
Qed.

(** Examples: two threads with two vectors each, conflicting lanes, a masked lane *)
Definition ex_block (x y z u active : N) (v : Z) : block :=
  {| b_ptr := fun k => 64 + 4 * nth (N.to_nat k) [x; y; z; u] 0; b_val := fun k => (v + Z.of_N k)%Z; b_active := active |}.
Definition ex_work := [[ex_block 0 1 0 1 15 10; ex_block 2 2 2 2 7 100]; [ex_block 0 0 1 3 15 1000; ex_block 1 1 1 1 0 0]].
Example local_updates : option_map (map (map (fun u => (Z.of_N (fst u), snd u)))) (programs 4 (ired (IT false 32) RAdd) 0%Z idiffers 2 Local ex_work) =
  Some [[(64, 22); (68, 24); (72, 303)]; [(64, 2001); (68, 1002); (76, 1003)]]%Z.
Proof. vm_compute. reflexivity. Qed.
Definition ex_final (o : redop) (md : mode) (sched : list nat) : list Z :=
  match programs 4 (ired (IT false 32) o) (iinit (IT false 32) o) idiffers 2 md ex_work with
  | Some todos => map (snd (run (ired (IT false 32) o) (iskip o) (how_of md (minmax o)) sched (map start todos) (fun _ => 50%Z))) [64; 68; 72; 76; 80]%N
  | None => []
  end.
Definition rr := [0; 1; 0; 1; 0; 1; 1; 0; 0; 1; 0; 1; 0; 1; 0; 1; 0; 1; 1; 1; 0; 0; 0]%nat.
Example final_add : ex_final RAdd Local rr = [50 + 22 + 2001; 50 + 24 + 1002; 50 + 303; 50 + 1003; 50]%Z.
Proof. vm_compute. reflexivity. Qed.
Example final_add_direct : ex_final RAdd Direct rr = ex_final RAdd Local rr.
Proof. vm_compute. reflexivity. Qed.
Example final_min : ex_final RMin Local rr = [10; 11; 50; 50; 50]%Z.
Proof. vm_compute. reflexivity. Qed.
Example contrib_64 : all_contribs 4 ex_work 64 = [10; 12; 1000; 1001]%Z.
Proof. vm_compute. reflexivity. Qed.
