(** C04: the free-index allocator refines "a set with take-the-minimum". *)
From Verif Require Import Base FreeSlots_Model FreeSlots_Spec FreeSlots_Proofs.
Local Open Scope N_scope.

(** For every history of releases and acquisitions in which the client
    releases only indices that are not already free ([sp_run] succeeds), the
    bitmap implementation never reads or writes out of bounds, and every
    acquisition returns exactly the smallest free index (or reports that there
    is none). *)
Theorem C04_free_slots_refine_min_set :
  forall ops outs, sp_run [] ops = Some outs -> fs_run fs_init (map op_of ops) = Some outs.
Proof. exact (fun ops outs => fs_run_refines ops fs_init [] outs fs_rel_init). Qed.
Print Assumptions C04_free_slots_refine_min_set.

(** Non-trivial history crossing word boundaries and moving the cursor both ways. *)
Example C04_example :
  sp_run [] [SpRelease 200; SpRelease 5; SpRelease 64; SpAcquire; SpAcquire;
             SpRelease 3; SpAcquire; SpAcquire; SpAcquire]
  = Some [None; None; None; Some 5; Some 64; None; Some 3; Some 200; None].
Proof. vm_compute. reflexivity. Qed.

(** The precondition is needed: releasing an index twice makes the real code run
    past the end of its bitmap. *)
Theorem C04_double_release_out_of_bounds_refuted :
  exists ops, fs_run fs_init ops = None.
Proof. exists [FsPush 7; FsPush 7; FsTryPop; FsTryPop]. vm_compute. reflexivity. Qed.
Print Assumptions C04_double_release_out_of_bounds_refuted.
