(** Properties C33 and C34. *)
From Verif Require Import Base FreeSlots_Model Registry_Model Registry_Spec Registry_Proofs.
Local Open Scope N_scope.

(** For every history of registrations, removals, queries and clears (fewer
    than 2^32-1 of them, non-null pointers, no shutdown) the registry never
    accesses memory out of bounds and answers as the specification demands. *)
Theorem C33_registry_refines_spec os :
  forallb op_ok os = true -> N.of_nat (length os) < 2 ^ 32 - 1 ->
  exists xs, reg_run reg_init os = Some xs /\ sp_hist (mkS [] []) os xs.
Proof.
  intros H1 H2. exact (reg_run_ok os 0 0 reg_init _ RI_init ltac:(lia) ltac:(lia) H1).
Qed.
Print Assumptions C33_registry_refines_spec.

(** The array that jit_registry_get_pointers fills needs no more than
    jit_registry_id_bound entries. *)
Theorem C33_get_pointers_in_bounds s k ws n s1 s2 :
  sp_reg s (All k) (OAll ws) s1 -> sp_reg s (Bound k) (OId n) s2 ->
  forall i p, In (i, p) ws -> i < n.
Proof.
  intros H1 H2 i p Hin. inversion H1 as [| | | | | | | | | |? ? ? Hw Hn| | | | |]; subst.
  inversion H2 as [| | | | | | | | |? ? ? [Hl _]| | | | | |]; subst.
  apply Hw in Hin. specialize (Hl (i + 1) (ex_intro _ p Hin)). lia.
Qed.
Print Assumptions C33_get_pointers_in_bounds.

(** Two variants, reuse of the smallest freed number, shrinking bound, clear. *)
Example C33_example :
  let a := (1, 1) in let b := (1, 2) in
  reg_run reg_init
    [Put a 100; Put a 200; Put b 300; Put a 400; Id 400; Bound a; Remove 100; Remove 400;
     Bound a; Put a 500; Put a 100; PtrOf a 3; Put b 300; Peek a; All a; Clear; Id 200; Put a 600; Remove 200;
     Put b 200; PtrOf a 9; PtrOf b 1]
  = Some [OId 1; OId 2; OId 1; OId 3; OId 3; OId 3; OUnit; OUnit; OId 2; OId 1; OId 3; OPtr 100; ORaise;
          OPtr 100; OAll [(0, 500); (1, 200); (2, 100)]; OUnit; OId 0; OId 1; OUnit; OId 1; ORaise; OPtr 200].
Proof. vm_compute. reflexivity. Qed.

(** C34 is false: the table of registered pointers survives a shutdown, so a
    pointer that was registered before cannot be registered again ... *)
Theorem C34_reregister_refuted :
  exists pre post, reg_run reg_init (pre ++ Shutdown :: post) = Some [OId 1; OUnit; ORaise] /\
    reg_run reg_init post = Some [OId 1].
Proof. exists [Put (1, 1) 100], [Put (1, 1) 100]. vm_compute. auto. Qed.
Print Assumptions C34_reregister_refuted.

(** ... and removing it accesses a destroyed domain (out of bounds), where a
    fresh registry would report the mistake. *)
Theorem C34_remove_out_of_bounds_refuted :
  exists pre post, reg_run reg_init (pre ++ Shutdown :: post) = None /\ reg_run reg_init post = Some [OFail].
Proof. exists [Put (1, 1) 100], [Remove 100]. vm_compute. auto. Qed.
Print Assumptions C34_remove_out_of_bounds_refuted.

(** What does hold: if every pointer was removed before, shutdown restores the
    initial state. Missing: registrations that are still present. *)
Theorem C34_clean_shutdown_partial r : rev r = [] -> reg_shutdown r = reg_init.
Proof. intros H. unfold reg_shutdown. now rewrite H. Qed.
Print Assumptions C34_clean_shutdown_partial.

Example C34_example : exists r x, reg_put reg_init (1, 1) 5 = Some (r, x) /\
  exists r' y, reg_remove r 5 = Some (r', y) /\ reg_shutdown r' = reg_init /\ doms r' <> [].
Proof.
  eexists _, _. split; [vm_compute; reflexivity|]. eexists _, _. split; [vm_compute; reflexivity|].
  split; [reflexivity|discriminate].
Qed.
