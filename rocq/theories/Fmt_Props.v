(** C47: texts for memory sizes. *)
From Verif Require Import Base Fmt_Model Fmt_Spec Fmt_Proofs.
Local Open Scope N_scope.

(** What the text says, for every size.  The value [d / 10^k] in the unit 1024^u is within
    0.05 % of the size.  If that value is not a multiple of 10, then this is what the text
    says, digits [p] with [q] of them after the point.  Otherwise, the text says at most a
    tenth of it. *)
Theorem C47_text_partial : forall lg size, log10_ok lg -> 1 <= size < 2 ^ 64 ->
  exists p q u (k : N) d, read_size (mem_string lg size) = Some (p, q, u) /\ u <= 6 /\ k <= 3 /\
    1999 * (d * 1024 ^ u) <= 2000 * (size * 10 ^ k) /\ 1998 * (size * 10 ^ k) <= 1999 * (d * 1024 ^ u) /\
    (d mod (10 * 10 ^ k) <> 0 -> p * 10 ^ k = d * 10 ^ q) /\
    (d mod (10 * 10 ^ k) = 0 -> 10 * p * 10 ^ k <= d * 10 ^ q).
Proof. exact mem_string_read. Qed.
Print Assumptions C47_text_partial.

(** Floor of the logarithm, for examples *)
Definition lg0 (num den : N) : N := if num <? 10 * den then 0 else if num <? 100 * den then 1 else if num <? 1000 * den then 2 else if num <? 10000 * den then 3 else 4.
Example C47_log10_ok : log10_ok lg0.
Proof.
  intros num den D L. unfold lg0. destruct (num <? 10 * den) eqn:E1; [change (10 ^ 0) with 1; lia|]. apply N.ltb_ge in E1. destruct (num <? 100 * den) eqn:E2; [change (10 ^ 1) with 10; lia|]. apply N.ltb_ge in E2.
  destruct (num <? 1000 * den) eqn:E3; [change (10 ^ 2) with 100; lia|]. apply N.ltb_ge in E3. destruct (num <? 10000 * den) eqn:E4; [change (10 ^ 3) with 1000; lia|]. apply N.ltb_ge in E4. change (10 ^ 4) with 10000. lia.
Qed.
(** "1.5 KiB", "1023 B", "1024 B", "15.26 MiB", "0 B", "16 EiB" *)
Example C47_example :
  map (mem_string lg0) [1536; 1023; 1024; 16000000; 0; 2 ^ 64 - 1] =
  [[49; 46; 53; 32; 75; 105; 66]; [49; 48; 50; 51; 32; 66]; [49; 48; 50; 52; 32; 66]; [49; 53; 46; 50; 54; 32; 77; 105; 66]; [48; 32; 66]; [49; 54; 32; 69; 105; 66]] /\
  map (fun n => read_size (mem_string lg0 n)) [1536; 16000000] = [Some (15, 1, 1); Some (1526, 2, 2)].
Proof. split; vm_compute; reflexivity. Qed.

(** 10 bytes are shown as "1 B", 20 KiB as "2 KiB", 1000 TiB as "1 TiB" *)
Theorem C47_refuted : log10_ok lg0 /\
  mem_string lg0 10 = [49; 32; 66] /\ mem_string lg0 20480 = [50; 32; 75; 105; 66] /\ mem_string lg0 (1000 * 1024 ^ 4) = [49; 32; 84; 105; 66] /\
  exists size p q u, 1 <= size < 2 ^ 64 /\ read_size (mem_string lg0 size) = Some (p, q, u) /\ 1000 * (p * 1024 ^ u) = size * 10 ^ q.
Proof.
  split; [exact C47_log10_ok|]. split; [vm_compute; reflexivity|]. split; [vm_compute; reflexivity|]. split; [vm_compute; reflexivity|].
  exists 1000, 1, 0, 0. split; [split; vm_compute; congruence|]. split; vm_compute; reflexivity.
Qed.
Print Assumptions C47_refuted.
