(** C20: stream compaction. *)
From Verif Require Import Base Arith_Model Par_Model Par_Proofs Red_Model Red_Props
  Comp_Model Comp_Spec Comp_Proofs.
Local Open Scope N_scope.

(** Every execution ends with the increasing list of active indices in the output and
    their number in the returned counter; nothing else changes. *)
Theorem C20_compress_partial :
  forall workers ideal fresh cnt (xs : list Z) src dst m,
  is_mask xs -> machine workers ideal ->
  N.of_nat (length xs) + ideal - 1 < 2 ^ 32 ->
  src <> dst -> src <> cnt -> dst <> cnt ->
  src < fresh -> dst < fresh -> cnt < fresh -> fresh_from m fresh ->
  holds m src xs ->
  (forall j, (j < length (active xs))%nat -> m (dst, N.of_nat j) <> None) ->
  m (cnt, 0) = Some 0%Z ->
  exists cs,
    compress workers ideal 11 fresh cnt (N.of_nat (length xs)) src dst = Cmds cs /\
    ensures cs (fun m' =>
      (forall j, (j < length (active xs))%nat -> m' (dst, N.of_nat j) = nth_error (active xs) j) /\
      m' (cnt, 0) = Some (Z.of_nat (length (active xs))) /\
      (forall l, ~ (fst l = dst /\ (N.to_nat (snd l) < length (active xs))%nat) ->
         l <> (cnt, 0) -> m' l = m l)) m.
Proof. exact compress_ok. Qed.

(** What the reference list is: increasing, and exactly the nonzero positions. *)
Theorem C20_active_spec : forall xs,
  (forall i, In i (active xs) <->
     (0 <= i < Z.of_nat (length xs))%Z /\ nth (Z.to_nat i) xs 0%Z <> 0%Z) /\
  StronglySorted Z.lt (active xs).
Proof.
  intros xs. split.
  - intros i. unfold active. rewrite filter_In, in_map_iff. split.
    + intros [(t & <- & Ht) H]. apply in_seq in Ht. split; [lia|].
      destruct (Z.eqb_spec (nth (Z.to_nat (Z.of_nat t)) xs 0%Z) 0); auto; discriminate.
    + intros [H1 H2]. split.
      * exists (Z.to_nat i). rewrite in_seq. lia.
      * destruct (Z.eqb_spec (nth (Z.to_nat i) xs 0%Z) 0); auto; lia.
  - unfold active. generalize (fun i => negb (nth (Z.to_nat i) xs 0 =? 0)%Z). intros f.
    generalize (length xs) 0%nat. intros n.
    induction n as [|n IH]; intros s; cbn; [constructor|].
    specialize (IH (S s)).
    destruct (f _); auto. constructor; auto.
    apply Forall_forall. intros j Hj. apply filter_In in Hj. destruct Hj as [Hj _].
    apply in_map_iff in Hj. destruct Hj as (t & <- & Ht). apply in_seq in Ht. lia.
Qed.

(** Finding: with several threads and 2^32 - 16383 or more entries the number of
    blocks wraps to zero; the result is empty. *)
Theorem C20_large_refuted :
  exists size, size < 2 ^ 32 /\
    compress 8 16384 11 2 3 size 0 1 = Cmds [Par []].
Proof. exists (2 ^ 32 - 16383). split; vm_compute; reflexivity. Qed.

Definition ex_mask : list Z := map (fun i => if (i mod 3 =? 1)%nat then 1%Z else 0%Z) (seq 0 50).
Definition ex_comp :=
  match compress 4 16 11 3 2 50 0 1 with
  | Cmds cs => match exec 7%Z cs (mem_of [(0, ex_mask); (1, repeat 9%Z 20); (2, [0%Z])]) with
               | Some m => Some (contents m 1 20, contents m 2 1)
               | None => None
               end
  | _ => None
  end.
Example C20_ex : ex_comp =
  Some (map (fun i => Some (3 * Z.of_nat i + 1)%Z) (seq 0 17) ++ repeat (Some 9%Z) 3, [Some 17%Z]).
Proof. vm_compute. reflexivity. Qed.

Print Assumptions C20_compress_partial.
Print Assumptions C20_active_spec.
Print Assumptions C20_large_refuted.
