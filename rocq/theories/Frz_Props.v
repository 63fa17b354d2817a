(** C52: launch sizes of replayed functions. *)
From Verif Require Import Base Frz_Model Frz_Spec Frz_Proofs.
Local Open Scope N_scope.

(** *** C52: a function of any number of kernels, replayed with inputs of the recorded
    sizes, is not refused, launches every kernel with the recorded size, and leaves buffers
    of the recorded sizes *)
Theorem C52_same : forall ks e, function_ok e ks -> replay_all e (fst (record_all e ks)) = Some (map fst ks, snd (record_all e ks)).
Proof. exact same_all. Qed.
Print Assumptions C52_same.
(** *** C52: a kernel recorded with launch size [n] in [e] and replayed with other sizes
    [e'].  [d], [d']: largest size of the driving inputs (those read directly, or if there
    are none the arrays behind pointers with the largest related size).  The launch size
    keeps its ratio to [d']; it stays as recorded if there was no integer ratio. *)
Theorem C52_ratio_partial : forall e n ps e' e'' s, kernel_ok e n ps -> replay1 e' (record e n ps) = Some (e'', s) ->
  (forall p, In p (driving e n ps) -> vsize e' p < 2 ^ 32) ->
  let d := max_of e (driving e n ps) in let d' := max_of e' (driving e n ps) in
  e'' = outputs e' s ps /\
  ((d = 0 \/ (n mod d <> 0 /\ d mod n <> 0)) -> s = n) /\
  (d <> 0 -> d < n -> n mod d = 0 -> d' * (n / d) < 2 ^ 32 -> s = d' * (n / d)) /\
  (d <> 0 -> n <= d -> d mod n = 0 -> d / n <= d' -> s = d' / (d / n)).
Proof. exact other_sizes. Qed.
Print Assumptions C52_ratio_partial.

(** Parameters and environments of the examples *)
Definition inp (slot : nat) : param := {| p_slot := slot; p_tsize := 4; p_out := false; p_ptr := false |}.
Definition outp (slot : nat) : param := {| p_slot := slot; p_tsize := 4; p_out := true; p_ptr := false |}.
Definition ptr (slot : nat) : param := {| p_slot := slot; p_tsize := 4; p_out := false; p_ptr := true |}.
Definition mk (l : list N) : env := fun s => 4 * nth s l 0.
Definition replayed (l : list N) (n : N) (ps : list param) (l' : list N) : option N := option_map snd (replay1 (mk l') (record (mk l) n ps)).
Lemma mk_input l p : p_tsize p = 4 -> 0 < nth (p_slot p) l 0 < 2 ^ 32 -> input_ok (mk l) p.
Proof. intros E B _. exists (nth (p_slot p) l 0). rewrite E. split; [assumption|]. split; [reflexivity|]. unfold mk. lia. Qed.

(** *** C52: the size of the replayed input need not be a multiple: recorded with 10
    entries (pointer) and 5 lanes, replayed with 7 entries, 3 lanes; not refused *)
Theorem C52_inexact_refuted : exists l n ps l', kernel_ok (mk l) n ps /\ driving (mk l) n ps = [ptr 0] /\ replayed l n ps l' = Some 3 /\ nth 0 l 0 = 2 * n /\ nth 0 l' 0 = 7.
Proof.
  exists [10], 5, [ptr 0; outp 1], [7]. split; [|repeat split]. split; [lia|]. split.
  - constructor; [apply mk_input; [reflexivity|cbn; lia]|]. constructor; [intros H; discriminate|constructor].
  - repeat constructor; intros; (reflexivity || discriminate).
Qed.
(** *** C52: if the division gives zero, the recorded size is launched: 5 lanes that
    access an array with a single entry *)
Theorem C52_zero_refuted : exists l n ps l', kernel_ok (mk l) n ps /\ driving (mk l) n ps = [ptr 0] /\ nth 0 l 0 = 2 * n /\ nth 0 l' 0 = 1 /\ replayed l n ps l' = Some n.
Proof.
  exists [10], 5, [ptr 0; outp 1], [1]. split; [|repeat split]. split; [lia|]. split.
  - constructor; [apply mk_input; [reflexivity|cbn; lia]|]. constructor; [intros H; discriminate|constructor].
  - repeat constructor; intros; (reflexivity || discriminate).
Qed.
(** *** C52: the product is computed with 32 bits: recorded with 1 entry and 4 lanes,
    replayed with 2^30 entries, 4 lanes *)
Theorem C52_overflow_refuted : exists l n ps l', kernel_ok (mk l) n ps /\ driving (mk l) n ps = [inp 0] /\ n = 4 * nth 0 l 0 /\ nth 0 l' 0 = 2 ^ 30 /\ replayed l n ps l' = Some n.
Proof.
  exists [1], 4, [inp 0; outp 1], [2 ^ 30]. split; [|repeat split]. split; [lia|]. split.
  - constructor; [apply mk_input; [reflexivity|cbn; lia]|]. constructor; [intros H; discriminate|constructor].
  - repeat constructor; intros; (reflexivity || discriminate).
Qed.
(** *** C52: an input that is read directly takes precedence even if it is a scalar: the
    launch size does not follow the array that all lanes access *)
Theorem C52_scalar_refuted : exists l n ps l', kernel_ok (mk l) n ps /\ driving (mk l) n ps = [inp 0] /\ nth 1 l 0 = n /\ nth 0 l 0 = nth 0 l' 0 /\ nth 1 l' 0 = 2 * n /\ replayed l n ps l' = Some n.
Proof.
  exists [1; 8], 8, [inp 0; ptr 1; outp 2], [1; 16]. split; [|repeat split]. split; [lia|]. split.
  - constructor; [apply mk_input; [reflexivity|cbn; lia]|]. constructor; [apply mk_input; [reflexivity|cbn; lia]|]. constructor; [intros H; discriminate|constructor].
  - repeat constructor; intros; (reflexivity || discriminate).
Qed.

(** Examples: two kernels; the second one reads the result of the first through a pointer *)
Definition ex_fun := [(100, [inp 0; outp 1]); (50, [ptr 1; outp 2])].
Example ex_same : option_map fst (replay_all (mk [100]) (fst (record_all (mk [100]) ex_fun))) = Some [100; 50].
Proof. vm_compute. reflexivity. Qed.
Example ex_other : option_map fst (replay_all (mk [300]) (fst (record_all (mk [100]) ex_fun))) = Some [300; 150].
Proof. vm_compute. reflexivity. Qed.
Example ex_refused : option_map fst (replay_all (fun _ => 301) (fst (record_all (mk [100]) ex_fun))) = None.
Proof. vm_compute. reflexivity. Qed.
Example ex_ok : function_ok (mk [100]) ex_fun.
Proof.
  repeat split; try lia; repeat constructor; try (intros; (reflexivity || discriminate)).
  - apply mk_input; [reflexivity|cbn; lia].
  - intros _. exists 100. split; [lia|]. split; reflexivity.
Qed.
