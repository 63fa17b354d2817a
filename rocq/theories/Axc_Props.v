(** C13: atomic exchange and compare-and-swap return the old values. *)
From Verif Require Import Base Axc_Model Axc_Spec Axc_Proofs.
Local Open Scope N_scope.

(** *** C13: the generated loop performs one operation per active lane, in the order of the
    lanes; lane [k] gets the result of its operation and masked lanes get zero *)
Theorem C13_code : forall w, w < 2 ^ 31 -> forall mask fuel, (4 * N.to_nat w + 3 <= fuel)%nat -> valid (emit false) = true /\
  exists out, code w false mask fuel = CDone (filter mask (lanes w)) out /\ (forall k, k < w -> mask k = false -> out k = None) /\
    map out (filter mask (lanes w)) = map Some (seq 0 (length (filter mask (lanes w)))).
Proof. intros w Bw mask fuel Bf. split; [reflexivity|]. exact (code_ok w Bw mask fuel Bf). Qed.
Print Assumptions C13_code.
(** *** C13: with the literal mask 1, what is generated is not a valid program (a phi
    instruction names the block %l_check_mask, which is not emitted), and it would run over
    the end of the vectors: llvm_scatter.cpp:608-610, 683-685 *)
Theorem C13_unmasked_refuted : exists unmasked, valid (emit unmasked) = false /\
  forall w, w < 2 ^ 31 -> forall mask fuel, (3 * N.to_nat w + 3 <= fuel)%nat -> code w unmasked mask fuel = CUndefined.
Proof. exists true. split; [reflexivity|]. exact unmasked_bad. Qed.
Print Assumptions C13_unmasked_refuted.

(** *** C13: threads.  Every active lane gets one result.  The values that lanes got from
    an element by storing to it, together with its last contents, are the initial contents
    and the values stored; no value is lost or duplicated.  Returned values are contents
    that the element had. *)
Theorem C13_threads : forall w fuel work todos sched m ts' m', w < 2 ^ 31 -> (4 * N.to_nat w + 3 <= fuel)%nat ->
  all_ops w fuel work = Some todos -> arun sched (map astart todos) m = (ts', m') -> (forall t, In t ts' -> at_todo t = []) ->
  exists rs, all_results w fuel work ts' = Some rs /\ map fst rs = asked w work /\
    (forall a, Permutation (m' a :: removed (at_addr a rs)) (m a :: inserted (at_addr a rs))) /\
    (forall a o x, In (a, o, x) rs -> x = m a \/ In x (inserted (at_addr a rs))).
Proof. exact atomics_ok. Qed.
Print Assumptions C13_threads.
(** *** C13: if all lanes compare an element with its contents [c] and want to replace it by
    something else, then exactly one of them succeeds *)
Theorem C13_one_winner : forall w fuel work todos sched m ts' m' a, w < 2 ^ 31 -> (4 * N.to_nat w + 3 <= fuel)%nat ->
  all_ops w fuel work = Some todos -> arun sched (map astart todos) m = (ts', m') -> (forall t, In t ts' -> at_todo t = []) ->
  (exists o, In (a, o) (asked w work)) -> (forall o, In (a, o) (asked w work) -> exists v, o = ACas (m a) v /\ v <> m a) ->
  exists rs, all_results w fuel work ts' = Some rs /\ length (filter (fun r => success (snd (fst r)) (snd r)) (at_addr a rs)) = 1%nat.
Proof.
  intros w fuel work todos sched m ts' m' a Bw Bf E R F Some_lane Hc. destruct (atomics_ok w fuel work todos sched m ts' m' Bw Bf E R F) as (rs & Er & Ea & P & O).
  exists rs. split; [exact Er|]. apply (one_winner rs a (m a) (m' a)); [eapply at_addr_nonempty; eassumption| |apply P|apply O].
  intros [[b o] x] H. apply filter_In in H as [H Hb]. cbn [fst] in Hb. apply N.eqb_eq in Hb. subst b. apply Hc. rewrite <- Ea. apply in_map_iff. now exists (a, o, x).
Qed.
Print Assumptions C13_one_winner.

(** *** C13: construction.  Without shortcuts the result has an entry per lane *)
Definition shortcut (target value mask : operand) : bool := same_lit target value || is_lit mask 0.
Theorem C13_sizes_partial : forall recording top target value index mask r,
  shortcut target value mask = false -> scatter_exch recording top (Some target) (Some value) (Some index) (Some mask) = BOk r ->
  exists n, r = RNew n /\ o_size value <= n /\ o_size index <= n /\ o_size mask <= n.
Proof.
  intros recording top target value index mask r Sh. unfold shortcut in Sh. apply Bool.orb_false_iff in Sh as [S1 S2]. unfold scatter_exch, build.
  destruct (bcheck [Some value; Some index; Some mask]) as [n| |] eqn:Ec; try discriminate. assert (n = N.max (N.max (N.max 0 (o_size value)) (o_size index)) (o_size mask)).
  { unfold bcheck in Ec. destruct (_ && _) in Ec; [discriminate|]. injection Ec as <-. reflexivity. }
  destruct (o_sym target); [discriminate|]. destruct (negb _) in |- *; [discriminate|]. destruct (negb (o_ty index =? U32_ty)); [discriminate|]. destruct (_ && _) in |- *; [discriminate|].
  rewrite S1, S2. destruct (negb (o_ty mask =? Bool_ty)); [discriminate|]. destruct (mask_size top (o_size mask) n) as [s| |]; try discriminate. intros E. injection E as <-.
  exists (N.max n s). split; [reflexivity|]. lia.
Qed.
Print Assumptions C13_sizes_partial.
Theorem C13_cas_sizes_partial : forall recording top target compare value index mask r,
  shortcut target value mask = false -> scatter_cas recording top (Some target) (Some compare) (Some value) (Some index) (Some mask) = BOk r ->
  exists n, r = Some (n, n) /\ o_size compare <= n /\ o_size value <= n /\ o_size index <= n /\ o_size mask <= n.
Proof.
  intros recording top target compare value index mask r Sh. unfold shortcut in Sh. apply Bool.orb_false_iff in Sh as [S1 S2]. unfold scatter_cas, build.
  destruct (bcheck [Some compare; Some value; Some index; Some mask]) as [n| |] eqn:Ec; try discriminate. assert (n = N.max (N.max (N.max (N.max 0 (o_size compare)) (o_size value)) (o_size index)) (o_size mask)).
  { unfold bcheck in Ec. destruct (_ && _) in Ec; [discriminate|]. injection Ec as <-. reflexivity. }
  destruct (o_sym target); [discriminate|]. destruct (negb _) in |- *; [discriminate|]. destruct (negb (o_ty index =? U32_ty)); [discriminate|]. destruct (_ && _) in |- *; [discriminate|].
  rewrite S1, S2. destruct (negb (o_ty mask =? Bool_ty)); [discriminate|]. destruct (mask_size top (o_size mask) n) as [s| |]; try discriminate. intros E. injection E as <-.
  exists (N.max n s). split; [reflexivity|]. lia.
Qed.
Print Assumptions C13_cas_sizes_partial.
(** *** C13: with the shortcuts, an exchange returns the target, which has another size
    than the operation (here 3 entries instead of 100), and a compare-and-swap returns
    nothing *)
Definition opd (n ty : N) (lit : option N) : option operand := Some {| o_size := n; o_ty := ty; o_lit := lit; o_sym := false |}.
Theorem C13_exch_shortcut_refuted : exists target value index mask,
  bcheck [value; index; mask] = BOk 100 /\ bsize target = 3 /\ scatter_exch false None target value index mask = BOk RTarget.
Proof. exists (opd 3 8 None), (opd 100 8 None), (opd 100 8 None), (opd 1 1 (Some 0)). repeat split. Qed.
Theorem C13_cas_shortcut_refuted :
  (exists target compare value index mask, scatter_cas false None target compare value index mask = BOk None /\ exists m, mask = Some m /\ is_lit m 0 = true) /\
  (exists target compare value index mask, scatter_cas false None target compare value index mask = BOk None /\ exists m, mask = Some m /\ o_lit m = None).
Proof.
  split.
  - exists (opd 3 8 None), (opd 1 8 (Some 5)), (opd 1 8 (Some 6)), (opd 100 8 None), (opd 1 1 (Some 0)). split; [reflexivity|]. eexists. split; reflexivity.
  - exists (opd 3 8 (Some 6)), (opd 1 8 (Some 5)), (opd 1 8 (Some 6)), (opd 100 8 None), (opd 100 1 None). split; [reflexivity|]. eexists. split; reflexivity.
Qed.
(** ... and empty operands are dereferenced *)
Theorem C13_empty_refuted : exists target, scatter_exch false None target None None None = BFault /\ scatter_cas false None target None None None None = BFault.
Proof. exists (opd 3 8 None). split; reflexivity. Qed.

(** Examples *)
Example ex_code : match code 4 false (fun k => negb (k =? 1)) 20 with CDone ops out => (ops, map out [0; 1; 2; 3]) | _ => ([], []) end = ([0; 2; 3], [Some 0; None; Some 1; Some 2]%nat).
Proof. vm_compute. reflexivity. Qed.
Definition ex_vec (v : N) : avec := {| v_addr := fun k => 64; v_op := fun k => AExch (v + k); v_mask := fun k => negb (k =? 1) |}.
Definition ex_cas (v : N) : avec := {| v_addr := fun k => 64; v_op := fun k => ACas 7 (v + k); v_mask := fun k => true |}.
Definition ex_run (work : list (list avec)) (sched : list nat) :=
  match all_ops 3 15 work with
  | Some todos => let '(ts, m) := arun sched (map astart todos) (fun _ => 7) in (option_map (map snd) (all_results 3 15 work ts), m 64)
  | None => (None, 0)
  end.
Example ex_exch : ex_run [[ex_vec 10]; [ex_vec 20]] [0; 1; 1; 0]%nat = (Some [7; 22; 10; 20], 12).
Proof. vm_compute. reflexivity. Qed.
Example ex_cas_run : ex_run [[ex_cas 10]; [ex_cas 20]] [1; 0; 0; 1; 0; 1]%nat = (Some [20; 20; 20; 7; 20; 20], 20).
Proof. vm_compute. reflexivity. Qed.
Example ex_sizes : scatter_exch false None (opd 3 8 None) (opd 1 8 None) (opd 100 8 None) (opd 1 1 None) = BOk (RNew 100).
Proof. vm_compute. reflexivity. Qed.
