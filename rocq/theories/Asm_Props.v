(** C70: the kernel that jitc_assemble generates computes, in every interleaving of the
    threads of the launch, the values of the recorded variables. *)
From Verif Require Import Base Asm_Model Asm_Spec Asm_Place Asm_Proofs Asm_Text Asm_Examples Asm_Flags.
Local Open Scope N_scope.

(** LLVM: for the work units of the thread pool ([desired]: jit_llvm_set_block_size,
    [cores]: size of the pool), every interleaving of the units runs without undefined
    behaviour or rejected statement; once it is finished, every output contains the
    values of its variable, nothing else has changed, and every lane had each side
    effect once, in order; it is finished after finitely many steps of each unit. *)
Theorem C70_llvm_launch :
  forall sem size cb g m0 w malloc k desired n cores,
  well_formed LLVM size g -> aligned_ok g w ->
  allocate LLVM w size malloc cb g = Done k ->
  buffers_ok LLVM m0 w (k_bufs k) -> inputs_ok sem LLVM size cb g m0 w (k_bufs k) ->
  defined sem LLVM size cb g m0 w ->
  desired = n * w -> 0 < desired -> size + desired <= 2 ^ 32 -> size + 2 * cores * w + w <= 2 ^ 32 ->
  exists units, llvm_units w desired cores size = Some units /\
  forall picks, exists s,
    run sem (generate LLVM w k) w (k_params k) (launched m0 units) picks = Ok s /\
    (finished s = true -> launched_ok sem LLVM size cb g m0 w (k_bufs k) (m_mem s) (m_log s)) /\
    ((forall i u, nth_error units i = Some u ->
        (length (fst u) * (length g + 2) <= count_occ Nat.eq_dec picks i)%nat) -> finished s = true).
Proof. exact llvm_launch. Qed.
Print Assumptions C70_llvm_launch.

(** CUDA and Metal: the same for every set of threads that covers the size. *)
Theorem C70_gpu_launch :
  forall sem b size cb g m0 malloc k threads, b <> LLVM ->
  well_formed b size g -> allocate b 1 size malloc cb g = Done k ->
  buffers_ok b m0 1 (k_bufs k) -> inputs_ok sem b size cb g m0 1 (k_bufs k) ->
  defined sem b size cb g m0 1 ->
  NoDup threads -> (forall i, i < size -> In i threads) ->
  forall picks, exists s,
    run sem (generate b 1 k) 1 (k_params k) (launched m0 (gpu_units (k_params k) threads)) picks = Ok s /\
    (finished s = true -> launched_ok sem b size cb g m0 1 (k_bufs k) (m_mem s) (m_log s)) /\
    ((forall i u, nth_error (gpu_units (k_params k) threads) i = Some u ->
        (length (fst u) * (length g + 2) <= count_occ Nat.eq_dec picks i)%nat) -> finished s = true).
Proof. exact gpu_launch. Qed.
Print Assumptions C70_gpu_launch.

(** Assembly succeeds when memory is available, fails for sizes other than 1 and the
    size of the kernel, and otherwise only for lack of memory. *)
Theorem C70_assembles :
  forall b w size malloc cb g,
  match allocate b w size malloc cb g with
  | Done _ => forall v, In v g -> v_size v = 1 \/ v_size v = size
  | Fails => exists v, In v g /\ v_size v <> 1 /\ v_size v <> size
  | OutOfMemory => exists i bytes, malloc i bytes = None
  end.
Proof. exact assembles. Qed.
Print Assumptions C70_assembles.

(** The parameters that are marked as written are the output buffers (Metal orders launches
    by these marks) *)
Theorem C70_written :
  forall b w size malloc cb g k, allocate b w size malloc cb g = Done k ->
  length (k_params k) = length (k_write k) /\
  map fst (filter snd (combine (k_params k) (k_write k))) = map snd (k_bufs k).
Proof. exact allocate_flags. Qed.
Print Assumptions C70_written.

(** Kernels that differ only in identifiers, addresses and sizes have the same text (and
    hence share one compiled kernel), and the same parameters are written. *)
Theorem C70_text_shared :
  forall b w size1 size2 cb1 cb2 malloc1 malloc2 f g1 g2 k1 k2,
  (forall x y, f x = f y -> x = y) -> well_formed b size1 g1 -> 0 < size2 ->
  Forall2 (same_shape size1 size2 f) g1 g2 ->
  allocate b w size1 malloc1 cb1 g1 = Done k1 -> allocate b w size2 malloc2 cb2 g2 = Done k2 ->
  generate b w k1 = generate b w k2 /\ k_write k1 = k_write k2.
Proof. exact text_shared. Qed.
Print Assumptions C70_text_shared.

(** A sequence of launches through the kernel cache: if the hash has no collision, each
    launch executes its own text. *)
Theorem C70_cache_own :
  forall hash ts,
  (forall t t', In t ts -> In t' ts -> hash t = hash t' -> t = t') ->
  snd (run_all hash {| q_kernels := []; q_hits := 0; q_misses := 0 |} ts) = ts.
Proof. exact cache_own. Qed.
Print Assumptions C70_cache_own.

(** ... and the number of compilations is the number of different texts. *)
Theorem C70_cache_once :
  forall hash ts,
  (forall t t', In t ts -> In t' ts -> hash t = hash t' -> t = t') ->
  let q := fst (run_all hash {| q_kernels := []; q_hits := 0; q_misses := 0 |} ts) in
  exists distinct, NoDup distinct /\ (forall t, In t distinct <-> In t ts) /\
    q_misses q = N.of_nat (length distinct) /\
    q_hits q + q_misses q = N.of_nat (length ts).
Proof. exact cache_once. Qed.
Print Assumptions C70_cache_once.

(** Without the condition on alignment: at vector width 16 (the default on AVX512) the
    text asks for 128-byte alignment of 64-bit vectors, buffers only have 64. *)
Theorem C70_alignment_refuted :
  exists sem size cb g m0 w malloc k units picks,
  well_formed LLVM size g /\ w = 16 /\ (forall v, In v g -> v_unal v = false) /\
  allocate LLVM w size malloc cb g = Done k /\
  buffers_ok LLVM m0 w (k_bufs k) /\ inputs_ok sem LLVM size cb g m0 w (k_bufs k) /\
  defined sem LLVM size cb g m0 w /\ llvm_units w 16 1 size = Some units /\
  run sem (generate LLVM w k) w (k_params k) (launched m0 units) picks = UB.
Proof. exact alignment_refuted. Qed.
Print Assumptions C70_alignment_refuted.

(** If only the lanes below the size are defined: the last vector also computes the
    lanes behind the end, where an integer division by the (arbitrary) padding of an
    array is undefined. *)
Theorem C70_padding_refuted :
  exists sem size cb g m0 w malloc k units picks,
  well_formed LLVM size g /\ aligned_ok g w /\
  allocate LLVM w size malloc cb g = Done k /\
  buffers_ok LLVM m0 w (k_bufs k) /\ inputs_ok sem LLVM size cb g m0 w (k_bufs k) /\
  (forall v lane, In v g -> lane < size -> exists x, means sem LLVM size cb g m0 (v_id v) lane x) /\
  llvm_units w 4 1 size = Some units /\
  run sem (generate LLVM w k) w (k_params k) (launched m0 units) picks = UB.
Proof. exact padding_refuted. Qed.
Print Assumptions C70_padding_refuted.

(** Examples: a kernel with an input, a counter, a mask, an output and a side effect *)
Example C70_example_conditions :
  exists k, allocate LLVM 4 5 ex_malloc 0 ex_g = Done k /\
  well_formed LLVM 5 ex_g /\ aligned_ok ex_g 4 /\ buffers_ok LLVM ex_m 4 (k_bufs k) /\
  inputs_ok ex_sem LLVM 5 0 ex_g ex_m 4 (k_bufs k) /\ defined ex_sem LLVM 5 0 ex_g ex_m 4.
Proof. exact ex_conditions. Qed.

Example C70_example_written :
  match allocate METAL 4 5 ex_malloc 0 ex_g with
  | Done k => (k_write k, map snd (k_bufs k)) = ([false; false; true], [64])
  | _ => False
  end.
Proof. vm_compute. reflexivity. Qed.

Example C70_example_units : llvm_units 4 4 2 5 = Some [([0], 4); ([4], 5)].
Proof. vm_compute. reflexivity. Qed.

Example C70_example_run :
  match allocate LLVM 4 5 ex_malloc 0 ex_g with
  | Done k =>
      match run ex_sem (generate LLVM 4 k) 4 (k_params k) (launched ex_m [([0], 4); ([4], 5)])
                [0; 1; 1; 0; 0; 1; 1; 1; 0; 1; 0; 1; 0; 0]%nat with
      | Ok s => finished s = true /\
                map (fun i => m_mem s (64 + 4 * i)) [0; 1; 2; 3; 4] =
                  [Some 10; Some 12; Some 14; Some 16; Some 18] /\
                map (fun e => fst (fst e)) (filter (fun e : event => snd (fst e) =? 4) (m_log s)) = [1]
      | _ => False
      end
  | _ => False
  end.
Proof. vm_compute. auto. Qed.

Example C70_example_gpu :
  match allocate CUDA 1 5 ex_malloc 0 ex_gpu with
  | Done k =>
      match run ex_sem (generate CUDA 1 k) 1 (k_params k)
                (launched ex_m (gpu_units (k_params k) [0; 1; 2; 3; 4; 5; 6; 7]))
                (flat_map (fun _ => [3; 0; 1; 2; 4; 7]%nat) (seq 0 7)) with
      | Ok s => finished s = true /\
                map (fun i => m_mem s (64 + 4 * i)) [0; 1; 2; 3; 4] =
                  [Some 10; Some 12; Some 14; Some 16; Some 18]
      | _ => False
      end
  | _ => False
  end.
Proof. vm_compute. auto. Qed.

Example C70_example_shared :
  match allocate LLVM 4 5 ex_malloc 0 ex_g, allocate LLVM 4 9 ex_malloc2 0 ex_g2 with
  | Done k1, Done k2 => generate LLVM 4 k1 = generate LLVM 4 k2 /\ k_params k1 <> k_params k2
  | _, _ => False
  end.
Proof. vm_compute. split; [reflexivity|discriminate]. Qed.

Example C70_example_cache :
  match allocate LLVM 4 5 ex_malloc 0 ex_g, allocate CUDA 1 5 ex_malloc 0 ex_gpu with
  | Done k1, Done k2 =>
      let t1 := generate LLVM 4 k1 in let t2 := generate CUDA 1 k2 in
      let q := fst (run_all (fun t => N.of_nat (length (t_code t)))
                            {| q_kernels := []; q_hits := 0; q_misses := 0 |} [t1; t2; t1; t1]) in
      q_misses q = 2 /\ q_hits q = 2
  | _, _ => False
  end.
Proof. vm_compute. auto. Qed.
