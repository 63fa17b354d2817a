(** Theorems about the kernel cache on disk (C41-C44, C58). *)
From Verif Require Import Base Cac_Model Cac_Spec Cac_Parse Cac_Files Cac_Pub Cac_Sweep.
Local Open Scope N_scope.

(** ** C44: every size is understood, saturating *)
Theorem C44_accepts : forall s n, denotes s n -> parse_size s = N.min n (2 ^ 64 - 1).
Proof. exact parse_ok. Qed.
Print Assumptions C44_accepts.

(** What is missing: white space and '+' in front (see the refutation) *)
Theorem C44_sound_partial : forall s, match s with c :: _ => is_space c = false /\ c <> 43 | [] => True end ->
  ~ refused (parse_size s) -> denotes s (parse_size s).
Proof. exact parse_sound. Qed.
Print Assumptions C44_sound_partial.

(** " -5" is accepted, as 2^64 - 5 *)
Theorem C44_strict_refuted : exists s, ~ refused (parse_size s) /\ ~ (exists n, denotes s n) /\ parse_size s = 2 ^ 64 - 5.
Proof.
  exists [32; 45; 53]. split; [|split].
  - unfold refused. vm_compute. discriminate.
  - intros (n & ds & suf & sc & E & NE & D & _). destruct ds as [|c ds]; [congruence|]. injection E as <- _. inversion D as [|x y D1 D2]. destruct D1 as [D1 _]. vm_compute in D1. apply D1. reflexivity.
  - vm_compute. reflexivity.
Qed.
Print Assumptions C44_strict_refuted.

(** "512M", "0", "18446744073709551616", "16G", "12Q", "-1", "" *)
Example C44_ex :
  map parse_size [[53; 49; 50; 77]; [48]; [49; 56; 52; 52; 54; 55; 52; 52; 48; 55; 51; 55; 48; 57; 53; 53; 49; 54; 49; 54]; [49; 54; 71]; [49; 50; 81]; [45; 49]; []]
  = [512 * 1024 * 1024; 0; 2 ^ 64 - 1; 16 * 2 ^ 30; 2 ^ 64 - 1; 2 ^ 64 - 1; 2 ^ 64 - 1].
Proof. vm_compute. reflexivity. Qed.
Example C44_ex_denotes : denotes [53; 49; 50; 77] (512 * 1024 * 1024).
Proof.
  exists [53; 49; 50], [77], (2 ^ 20). split; [reflexivity|]. split; [discriminate|]. split; [repeat constructor; vm_compute; discriminate|].
  split; [apply Mega; auto|vm_compute; reflexivity].
Qed.

(** ** C41 *)
Theorem C41_round_trip : forall checksum compress decompress source k table,
  digest checksum -> lz4 compress decompress -> storable k -> len source < 2 ^ 32 ->
  exists k', load checksum decompress source (write checksum compress source k) table = Loaded k' /\ same_kernel k k' table.
Proof. exact round_trip. Qed.
Print Assumptions C41_round_trip.

(** Only files with the right version, sizes and checksum get past the checks *)
Theorem C41_accepts_only : forall checksum decompress source f table, bytes f -> load checksum decompress source f table <> Rejected ->
  33 <= len f /\ hd 0 f = 6 /\ len (skipn 33 f) = unle (firstn 4 (skipn 1 f)) /\ unle (firstn 4 (skipn 5 f)) = u32 (len source) /\
  checksum_field f = checksum (protected source f).
Proof. exact (fun checksum => accepted checksum (fun x => x)). Qed.
Print Assumptions C41_accepts_only.

(** An altered file, or one of another source text, is rejected: if it was accepted with the
    checksum that was stored, then one would hold two texts with the same checksum. *)
Theorem C41_altered : forall checksum compress decompress source k source' f table,
  digest checksum -> lz4 compress decompress -> storable k -> len source < 2 ^ 32 -> bytes f ->
  let stored := write checksum compress source k in
  checksum_field f = checksum_field stored ->
  load checksum decompress source' f table <> Rejected ->
  (source' = source /\ f = stored) \/ collides checksum (protected source' f) (protected source stored).
Proof. exact altered. Qed.
Print Assumptions C41_altered.

(** A file with a correct checksum is trusted: an offset in it can point outside of the code. *)
Theorem C41_total_refuted : exists checksum compress decompress source f table,
  digest checksum /\ lz4 compress decompress /\ bytes f /\ load checksum decompress source f table = Undefined.
Proof. exact trusts. Qed.
Print Assumptions C41_total_refuted.

Definition k0 : kernel := mkKernel [1; 2; 3; 0; 0; 0; 0; 0; 0; 0; 0; 9] [0; 3].
Definition f0 : list N := write toy_sum (fun x => x) [97; 98; 99] k0.
Definition flip (i : nat) (f : list N) : list N := set_nth i (N.lxor 1 (nth i f 0)) f.
Example C41_ex_loads : load toy_sum toy_unpack [97; 98; 99] f0 258 = Loaded (mkKernel [1; 2; 3; 2; 1; 0; 0; 0; 0; 0; 0; 9] [0; 3]).
Proof. vm_compute. reflexivity. Qed.
Example C41_ex_hypotheses : digest toy_sum /\ lz4 (fun x => x) toy_unpack /\ storable k0.
Proof.
  split; [exact toy_digest|]. split; [exact toy_lz4|]. split; [discriminate|]. split; [repeat constructor|]. split; [repeat constructor|]. split; [reflexivity|].
  intros a off r E. injection E as <- <- <-. vm_compute. discriminate.
Qed.
(** every single bit 0 flipped, the source changed, the file cut or extended *)
Example C41_ex_damaged :
  forallb (fun i => match load toy_sum toy_unpack [97; 98; 99] (flip i f0) 258 with Rejected => true | _ => false end) (seq 0 (length f0)) = true /\
  load toy_sum toy_unpack [97; 98; 100] f0 258 = Rejected /\ load toy_sum toy_unpack [97; 98] f0 258 = Rejected /\
  load toy_sum toy_unpack [97; 98; 99] (removelast f0) 258 = Rejected /\ load toy_sum toy_unpack [97; 98; 99] (f0 ++ [0]) 258 = Rejected /\
  load toy_sum toy_unpack [97; 98; 99] [] 258 = Rejected.
Proof. vm_compute. repeat split. Qed.

(** ** C42 *)
(** Whatever the interleaving, failures, deaths and evictions: what is found under a final
    name is complete. *)
Theorem C42_atomic : forall ok ws es s h i, distinct_names ws -> clean ok ws s ->
  dir (w_fs (run ws es (start ws s))) (Final h) = Some i -> sound ok ws h (content (w_fs (run ws es (start ws s))) i).
Proof. exact atomic. Qed.
Print Assumptions C42_atomic.

(** A file that has been published does not change any more while someone reads it. *)
Theorem C42_stable : forall ok ws es es' s h i, distinct_names ws -> clean ok ws s ->
  dir (w_fs (run ws es (start ws s))) (Final h) = Some i ->
  content (w_fs (run ws (es ++ es') (start ws s))) i = content (w_fs (run ws es (start ws s))) i.
Proof. exact stable. Qed.
Print Assumptions C42_stable.

Theorem C42_publishes : forall ok ws s n w, distinct_names ws -> clean ok ws s -> nth_error ws n = Some w -> dir s (Final (w_hash w)) = None ->
  let y := run ws (repeat (Step n false) (length (w_pieces w) + 4)) (start ws s) in
  exists i, dir (w_fs y) (Final (w_hash w)) = Some i /\ content (w_fs y) i = complete w /\ dir (w_fs y) (temp w) = None.
Proof. exact publishes. Qed.
Print Assumptions C42_publishes.

Definition empty_fs : fs := mkFs (fun _ => None) (fun _ => []) 0.
(** Two writers with the same process number (containers or machines that share the
    directory): the temporary file is shared, and an incomplete entry is published. *)
Theorem C42_same_pid_refuted : exists ws es i h, ws = [mkWriter h 7 [[1]; [2]]; mkWriter h 7 [[1]; [2]]] /\ clean (fun _ _ => False) ws empty_fs /\
  let y := run ws es (start ws empty_fs) in dir (w_fs y) (Final h) = Some i /\ content (w_fs y) i = [] /\ ~ sound (fun _ _ => False) ws h (content (w_fs y) i).
Proof.
  exists [mkWriter 1 7 [[1]; [2]]; mkWriter 1 7 [[1]; [2]]], [Step 0 false; Step 0 false; Step 0 false; Step 0 false; Step 1 false; Step 0 false], 0%nat, 1%nat.
  split; [reflexivity|]. split; [repeat split; cbn; discriminate|]. cbv zeta. split; [vm_compute; reflexivity|]. split; [vm_compute; reflexivity|].
  intros [X|(w & I & _ & X)]; [exact X|]. destruct I as [<-|[<-|[]]]; vm_compute in X; discriminate.
Qed.
Print Assumptions C42_same_pid_refuted.

(** two processes, the first one dies in the middle, an old entry is replaced *)
Definition ws0 : list writer := [mkWriter 1 7 [[1]; [2; 3]]; mkWriter 1 8 [[1]; [2; 3]]; mkWriter 2 7 [[4]]].
Definition fs0 : fs := mkFs (fun n => match n with Final 2 => Some 0%nat | Temp 1 8 => Some 1%nat | _ => None end) (fun i => match i with O => [9] | _ => [5; 5; 5; 5; 5] end) 2.
Example C42_ex_hypotheses : distinct_names ws0 /\ clean (fun h c => h = 2%nat /\ c = [9]) ws0 fs0.
Proof.
  split; [repeat constructor; cbn; intuition discriminate|]. split; [|split].
  - intros [[|[|[|h]]]|[|[|h]] [|[|[|[|[|[|[|[|[|p]]]]]]]]]] i; cbn; intros E; try discriminate; injection E as <-; lia.
  - intros w m i [<-|[<-|[<-|[]]]] E F; try discriminate. injection E as <-.
    destruct m as [[|[|[|h]]]|[|[|h]] [|[|[|[|[|[|[|[|[|p]]]]]]]]]]; cbn in F; try discriminate. reflexivity.
  - intros [|[|[|h]]] i E; try discriminate. injection E as <-. auto.
Qed.
Example C42_ex :
  let y := w_fs (run ws0 [Step 0 false; Step 1 false; Step 0 false; Step 1 false; Evict 2; Step 1 false; Step 1 false; Step 1 false; Step 2 false; Step 1 false; Step 2 true] (start ws0 fs0)) in
  (dir y (Final 1), dir y (Temp 1 7), dir y (Temp 1 8), dir y (Final 2)) = (Some 1%nat, Some 2%nat, None, None) /\ content y 1%nat = [1; 2; 3] /\ content y 2%nat = [1].
Proof. vm_compute. auto. Qed.

(** ** C43 *)
Theorem C43_only_entries : forall sort removes max l e, by_time sort -> sum_sizes l < 2 ^ 64 -> In e (sweep sort removes max l) -> In e l /\ cache_file e /\ removes e = true.
Proof. exact (fun sort removes max l e bt => sweep_only sort removes bt max l e). Qed.
Print Assumptions C43_only_entries.
Theorem C43_untouched : forall sort removes max l, by_time sort -> sum_sizes l < 2 ^ 64 ->
  max = 0 \/ sum_sizes (filter candidate l) <= max -> sweep sort removes max l = [].
Proof. exact (fun sort removes max l bt B => proj1 (sweep_shape sort removes bt max l B)). Qed.
Print Assumptions C43_untouched.
Theorem C43_oldest : forall sort removes max l e k, by_time sort -> sum_sizes l < 2 ^ 64 -> In e (sweep sort removes max l) ->
  In k l -> cache_file k -> removes k = true -> ~ In k (sweep sort removes max l) -> (d_time e <= d_time k)%Z.
Proof. exact (fun sort removes max l e k bt => sweep_oldest sort removes bt max l e k). Qed.
Print Assumptions C43_oldest.
(** It gets below four fifths of the limit, *)
Theorem C43_budget : forall sort removes max l, by_time sort -> sum_sizes l < 2 ^ 64 -> (forall e, In e l -> removes e = true) ->
  0 < max < sum_sizes (filter candidate l) -> sum_sizes (filter candidate l) <= max / 5 * 4 + sum_sizes (sweep sort removes max l).
Proof. exact (fun sort removes max l bt => sweep_budget sort removes bt max l). Qed.
Print Assumptions C43_budget.
(** and was not there before the last removal. *)
Theorem C43_minimal : forall sort removes max l a e, by_time sort -> sum_sizes l < 2 ^ 64 -> sweep sort removes max l = a ++ [e] ->
  max / 5 * 4 + sum_sizes a < sum_sizes (filter candidate l).
Proof. exact (fun sort removes max l a e bt => sweep_minimal sort removes bt max l a e). Qed.
Print Assumptions C43_minimal.
Theorem C43_entries : forall e, candidate e = true <-> cache_file e.
Proof. exact (candidate_spec (fun _ => true)). Qed.
Print Assumptions C43_entries.

Fixpoint place (e : dentry) (l : list dentry) : list dentry :=
  match l with x :: r => if (d_time e <=? d_time x)%Z then e :: l else x :: place e r | [] => [e] end.
Definition isort (l : list dentry) : list dentry := fold_right place [] l.
Definition d0 : list dentry :=
  [mkDentry 1 true true false 40 5; mkDentry 2 false true false 1000 0; mkDentry 3 true true false 30 1; mkDentry 4 true true false 50 3; mkDentry 5 true true true 7 2; mkDentry 6 true true false 20 9].
Example C43_ex : map d_name (sweep isort (fun _ => true) 100 d0) = [3; 4]%nat /\ map d_name (sweep isort (fun e => negb (Nat.eqb (d_name e) 4)) 100 d0) = [3; 1]%nat /\
  sweep isort (fun _ => true) 140 d0 = [] /\ sweep isort (fun _ => true) 0 d0 = [].
Proof. vm_compute. auto. Qed.
Example C43_ex_hypotheses : by_time isort.
Proof.
  intros l. induction l as [|e l [IH1 IH2]]; [split; constructor|]. cbn [isort fold_right]. fold (isort l). revert IH1 IH2. generalize (isort l). intros m P Q. split.
  - rewrite <- P. clear P Q. induction m as [|x m IH]; [reflexivity|]. cbn [place]. destruct (_ <=? _)%Z; [reflexivity|]. rewrite IH. apply perm_swap.
  - clear P. induction m as [|x m IH]; [constructor; constructor|]. cbn [place]. apply StronglySorted_inv in Q. destruct Q as [Q F]. destruct (Z.leb_spec (d_time e) (d_time x)).
    + constructor; [constructor; assumption|]. constructor; [assumption|]. eapply Forall_impl; [|exact F]. cbn. intros. lia.
    + constructor; [apply IH, Q|]. clear -F H. induction m as [|y m IH]; cbn [place]; [constructor; [lia|constructor]|]. inversion F; subst. destruct (_ <=? _)%Z; constructor; auto; lia.
Qed.

(** ** C58 *)
(** If processes do not look at the stamp at the same time, sweeps are an hour apart *)
Theorem C58_hourly_partial : forall bs file now n, apart (st_sweeps (fst (srun (flat_map events_of bs) (idle (mkStamp file now []) n)))).
Proof. exact hourly. Qed.
Print Assumptions C58_hourly_partial.
(** otherwise not: the second process removes the stamp that the first has just created *)
Theorem C58_once_refuted : exists es, let s := fst (srun es (idle (mkStamp (Some 0%Z) 10000 []) 2)) in
  st_sweeps s = [(1%nat, 10000%Z); (0%nat, 10000%Z)] /\ ~ apart (st_sweeps s).
Proof.
  exists [Go 0; Go 1; Go 0; Go 1; Go 0; Go 0; Go 1; Go 1]. cbv zeta. split; [vm_compute; reflexivity|]. vm_compute. intros A. inversion A as [|x y A1 A2]. inversion A2 as [|x' y' A3 A4]. apply A3. reflexivity.
Qed.
Print Assumptions C58_once_refuted.
(** four processes, one after the other *)
Example C58_ex : st_sweeps (fst (srun (flat_map events_of [Whole 0; Pause 1800; Whole 1; Pause 1800; Whole 2; Pause 3599; Whole 3]) (idle (mkStamp None 50 []) 4))) = [(2%nat, 3650%Z); (0%nat, 50%Z)].
Proof. vm_compute. reflexivity. Qed.
