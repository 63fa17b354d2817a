(** C62: at the end of an iteration, all loop state variables change at once (CUDA, Metal). *)
From Verif Require Import Base Cpy_Model Cpy_Proofs.
Local Open Scope N_scope.

(** Whatever variables the state is updated from, including other state variables: afterwards
    every state variable holds the value that its source had before, no other variable
    changed, and no temporary was read before it was written. *)
Theorem C62_simultaneous : forall (live b8 : N -> bool) (via16 : bool) (pairs : list (N * N)) (r : N -> N) (t : bool -> N -> option N),
  (forall p, In p pairs -> b8 (fst p) = b8 (snd p)) ->
  (forall i o o', In (i, o) pairs -> In (i, o') pairs -> o = o') ->
  exists r' t', irun b8 via16 (r, t) (render live pairs) = Some (r', t') /\
    (forall i o, In (i, o) pairs -> live i = true -> live o = true -> r' i = r o) /\
    (forall x, (forall o, In (x, o) pairs -> live x = false \/ live o = false) -> r' x = r x).
Proof. intros live b8 via16 pairs r t H1 H2. exact (render_ok live b8 via16 pairs H1 H2 r t). Qed.
Print Assumptions C62_simultaneous.

(** No temporary is declared twice, which the assembler would reject *)
Theorem C62_declared_once : forall (live : N -> bool) (pairs : list (N * N)),
  NoDup (flat_map (fun i => match i with ITmp o => [o] | _ => [] end) (render live pairs)).
Proof. exact render_once. Qed.
Print Assumptions C62_declared_once.

(** Rotation of three state variables (1 <- 2 <- 3 <- 1), a new value for 4, and a second use
    of variable 2; 5 is a state variable that nobody reads *)
Example C62_example :
  let pairs := [(1, 2); (2, 3); (3, 1); (4, 9); (6, 2); (5, 8)] in
  let live x := negb (x =? 5) in
  render live pairs = [ITmp 2; ITmp 3; ITmp 1; IMovTmp 1 2; IMovTmp 2 3; IMovTmp 3 1; IMov 4 9; IMovTmp 6 2] /\
  (let? m := irun (fun _ => false) true ((fun x => 10 * x), fun _ _ => None) (render live pairs) in Some (map (fst m) [1; 2; 3; 4; 5; 6; 9])) = Some [20; 30; 10; 90; 50; 20; 90].
Proof. split; vm_compute; reflexivity. Qed.
(** Copies one after the other would not do *)
Example C62_in_order_differs :
  (let? m := irun (fun _ => false) true ((fun x => 10 * x), fun _ _ => None) [IMov 1 2; IMov 2 1] in Some (map (fst m) [1; 2])) = Some [20; 20] /\
  (let? m := irun (fun x => true) true ((fun x => 10 * x), fun _ _ => None) (render (fun _ => true) [(1, 2); (2, 1); (3, 7)]) in Some (map (fst m) [1; 2; 3])) = Some [20; 10; 70].
Proof. split; vm_compute; reflexivity. Qed.
(** State variables and new values must have the same width: otherwise the move reads a
    register that was never written *)
Theorem C62_mixed_refuted : exists (b8 : N -> bool) (pairs : list (N * N)) (r : N -> N) (t : bool -> N -> option N),
  (forall i o o', In (i, o) pairs -> In (i, o') pairs -> o = o') /\ irun b8 true (r, t) (render (fun _ => true) pairs) = None.
Proof.
  exists (fun x => x =? 1), [(1, 2); (2, 1)], (fun x => x), (fun _ _ => None).
  split; [|reflexivity]. intros i o o' [H|[H|[]]] [H'|[H'|[]]]; congruence.
Qed.
Print Assumptions C62_mixed_refuted.
