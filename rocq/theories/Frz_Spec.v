From Verif Require Import Base Frz_Model.
Local Open Scope N_scope.

(** A kernel that can be recorded: sizes are 32-bit numbers, inputs are not empty and fill
    their slots *)
Definition input_ok (e : env) (p : param) : Prop :=
  p_out p = false -> exists v, 0 < v < 2 ^ 32 /\ 0 < p_tsize p /\ e (p_slot p) = v * p_tsize p.
Definition kernel_ok (e : env) (n : N) (ps : list param) : Prop :=
  0 < n < 2 ^ 32 /\ Forall (input_ok e) ps /\ Forall (fun p => p_ptr p = true -> p_out p = false) ps.
Fixpoint function_ok (e : env) (ks : list (N * list param)) : Prop :=
  match ks with
  | [] => True
  | (n, ps) :: ks => kernel_ok e n ps /\ function_ok (outputs e n ps) ks
  end.
(** Direct inputs, or else arrays behind pointers whose size is related to the launch size *)
Definition max_of (e : env) (ps : list param) : N := fold_right N.max 0 (map (vsize e) ps).
Definition direct (ps : list param) : list param := filter (fun p => negb (p_out p) && negb (p_ptr p)) ps.
Definition through (e : env) (n : N) (ps : list param) : list param :=
  let big := max_of e (filter (fun p => p_ptr p && ((vsize e p mod n =? 0) || (n mod vsize e p =? 0))) ps) in
  filter (fun p => p_ptr p && (vsize e p =? big)) ps.
(** The parameters that determine the launch size when it is replayed *)
Definition driving (e : env) (n : N) (ps : list param) : list param := match direct ps with [] => through e n ps | d => d end.
