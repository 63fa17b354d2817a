(** C78: copy-on-write of scatters *)
From Verif Require Import Base Cow_Model Cow_Spec Cow_Proofs.

(** After any history of legal operations, all references have the contents that the client
    expects: a scatter is seen by other references only if there was just one of them when
    the array was stashed.  No operation fails, and no variable is left without reference. *)
Theorem C78_histories l : served initial start l.
Proof. exact (histories l). Qed.

(** 65537 references: the stashed count is 1, and a scatter changes the array of the others. *)
Theorem C78_width_refuted :
  exists n s, run initial (New 0 [1; 2]%Z :: repeat (Copy 0) n ++ [Stash 0; Scatter 0 1 0 9]) = Some s /\
    2 <= S n /\ value s 1 = Some [9; 2]%Z.
Proof.
  exists (N.to_nat 65536). assert (E : N.of_nat (N.to_nat 65536) = 65536%N) by apply N2Nat.id. revert E.
  generalize (N.to_nat 65536). intros n E. destruct (width n) as (s & A & B); [ lia | |].
  - replace (N.of_nat (S n)) with 65537%N by lia. reflexivity.
  - exists s. split; [ exact A |]. split; [ lia | exact B ].
Qed.

Print Assumptions C78_histories.
Print Assumptions C78_width_refuted.

(** ** Examples *)
Definition values (n : nat) (l : list op) := option_map (fun s => map (value s) (seq 0 n)) (run initial l).
(** One reference: in place; two references: the other one keeps the contents. *)
Example one : values 1 [New 0 [1; 2]%Z; Scatter 0 1 0 9] = Some [Some [9; 2]%Z].
Proof. vm_compute. reflexivity. Qed.
Example two : values 2 [New 0 [1; 2]%Z; Copy 0; Scatter 0 1 0 9] = Some [Some [9; 2]%Z; Some [1; 2]%Z].
Proof. vm_compute. reflexivity. Qed.
(** Stashed with one reference, until the handle is returned *)
Example stashed : values 2 [New 0 [1; 2]%Z; Stash 0; Copy 0; Scatter 0 1 0 9] = Some [Some [9; 2]%Z; Some [9; 2]%Z].
Proof. vm_compute. reflexivity. Qed.
Example unstashed : values 2 [New 0 [1; 2]%Z; Stash 0; Copy 0; Unstash 0; Scatter 0 1 0 9] = Some [Some [9; 2]%Z; Some [1; 2]%Z].
Proof. vm_compute. reflexivity. Qed.
(** A nested stash has no effect, nor does its end. *)
Example nested : values 2 [New 0 [1; 2]%Z; Stash 0; Copy 0; Stash 1; Unstash 1; Scatter 0 1 0 9] = Some [Some [9; 2]%Z; Some [9; 2]%Z].
Proof. vm_compute. reflexivity. Qed.
(** An expired handle does not affect another variable with the same index. *)
Example expired : values 3 [New 0 [1]%Z; Stash 0; Drop 0; New 0 [2]%Z; Stash 1; Copy 1; Unstash 0; Scatter 1 1 0 9] =
  Some [None; Some [9]%Z; Some [9]%Z].
Proof. vm_compute. reflexivity. Qed.
(** A dropped variable is gone. *)
Example gone : option_map (fun s => vars s 0) (run initial [New 0 [1]%Z; Copy 0; Drop 0; Drop 1]) = Some None.
Proof. vm_compute. reflexivity. Qed.
