(** C76: the kernel history *)
From Verif Require Import Base Khi_Model Khi_Spec Khi_Proofs.

(** As long as the calls are legal, every query returns exactly the kernels launched since the
    last query, in order, with end marker, text and time; all memory is accessed in bounds
    and freed once, and references to tasks and events are released once. *)
Theorem C76_histories l : served initial start l.
Proof. exact (histories l). Qed.

(** CUDA kernels of another thread that still run: jit_kernel_history waits only for its own
    thread, and the entry has no time. *)
Theorem C76_time_refuted :
  exists l s rs b e rest, run initial l = Some (s, rs) /\ l = [Launch CUDA true 1 7; History 2] /\
    last rs RNone = RPtr (Some b) /\ arr s b = Ent e :: Zero :: rest /\ e_tag e = 7 /\ e_timed e = false.
Proof.
  exists [Launch CUDA true 1 7; History 2]. eexists _, _, 1, _, _. split; [ vm_compute; reflexivity |].
  split; [ reflexivity |]. split; [ vm_compute; reflexivity |]. vm_compute. repeat split.
Qed.

(** The documented way to free a result dereferences the null pointer of an empty history. *)
Theorem C76_loop_refuted :
  exists l s rs p, run initial l = Some (s, rs) /\ last rs RNone = RPtr p /\ p = None /\ documented s p = None.
Proof. exists [History 0]. eexists _, _, None. split; [ vm_compute; reflexivity |]. repeat split. Qed.

Print Assumptions C76_histories.
Print Assumptions C76_time_refuted.
Print Assumptions C76_loop_refuted.

(** ** Examples *)
Definition view (r : option (state * list res)) (b : nat) :=
  match r with
  | Some (s, rs) => Some (map (fun c => match c with Ent e => Some (e_tag e, e_ir e, e_timed e) | _ => None end)
                              (firstn 6 (arr s b)), rs, map (live s) (seq 0 8))
  | None => None
  end.
(** Five kernels; the array grows from 4 to 10 elements *)
Definition five := [Launch LLVM true 0 10; Launch LLVM false 0 11; Launch CUDA true 3 12; Launch LLVM true 1 13; Launch LLVM false 0 14].
Example five_ok :
  view (run initial (five ++ [History 3])) 4 =
  Some ([Some (10, Some 0, true); Some (11, None, true); Some (12, Some 2, true); Some (13, Some 3, true); Some (14, None, true); None],
        [RNone; RNone; RNone; RNone; RNone; RPtr (Some 4)], [true; false; true; true; true; false; false; false]).
Proof. vm_compute. reflexivity. Qed.
Example freed :
  view (run initial (five ++ [History 3; Launch LLVM true 0 15; Free 4; Clear; History 0])) 9 =
  Some ([], [RNone; RNone; RNone; RNone; RNone; RPtr (Some 4); RNone; RNone; RNone; RPtr None], repeat false 8).
Proof. vm_compute. reflexivity. Qed.
Example twice_freed : run initial (five ++ [History 3; Free 4; Free 4]) = None.
Proof. vm_compute. reflexivity. Qed.
(** A kernel of another thread that has ended *)
Example ended :
  view (run initial [Launch CUDA true 1 7; Finish 0; History 2]) 1 =
  Some ([Some (7, Some 0, true); None; None; None], [RNone; RNone; RPtr (Some 1)], [true; true; false; false; false; false; false; false]).
Proof. vm_compute. reflexivity. Qed.
(** The calls are legal *)
Example legal_history :
  legal {| c_new := [{| x_be := CUDA; x_jit := true; x_thr := 3; x_tag := 1 |}; {| x_be := LLVM; x_jit := true; x_thr := 0; x_tag := 2 |}];
           c_res := [(4, [])] |} (History 3).
Proof. intros x [<- | [<- | []]]; cbn; [ reflexivity | discriminate ]. Qed.
