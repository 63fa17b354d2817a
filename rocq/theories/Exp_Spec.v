(** Accumulating into an expanded array. *)
From Verif Require Import Base Par_Model.
Local Open Scope N_scope.

(** Kernels accumulate value [v] into entry [i] from worker [w]: with index scale
    [scale], slot [w * scale + i] is updated (llvm_eval.cpp, scatter with
    ReduceMode::Expand). *)
Definition accumulate {V} (op : V -> V -> V) (scale : N) (buf : list V) (u : N * N * V) : option (list V) :=
  let '(w, i, v) := u in
  let? x := nth_error buf (N.to_nat (w * scale + i)) in
  Some (set_nth (N.to_nat (w * scale + i)) (op x v) buf).
Fixpoint accumulate_all {V} (op : V -> V -> V) (scale : N) (buf : list V) (us : list (N * N * V)) : option (list V) :=
  match us with
  | [] => Some buf
  | u :: r => let? b := accumulate op scale buf u in accumulate_all op scale b r
  end.

(** The values sent to entry [i], in program order. *)
Definition sent_to {V} (i : N) (us : list (N * N * V)) : list V :=
  map snd (filter (fun u => snd (fst u) =? i) us).
