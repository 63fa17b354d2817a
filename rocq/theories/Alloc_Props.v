(** Properties C30, C31, C32, C54 (round_pow2), C55. *)
From Verif Require Import Base Bits Alloc_Model Alloc_Spec Alloc_Proofs Alloc_Refine.
Local Open Scope N_scope.

Ltac wit := match goal with |- _ /\ _ => split; [wit|wit] | |- _ => vm_compute; reflexivity end.

(** ** C30 *)

(** Every history of the allocator is acceptable to the client: granted blocks
    never overlap blocks the client holds, releases of unknown addresses raise. *)
Theorem C30_client_history es :
  forallb ev_ok es = true -> exists c, accepts (mkC [] []) (a_trace a_init es) c.
Proof. exact (trace_accept es a_init _ Inv_init R_init). Qed.
Print Assumptions C30_client_history.

(** Memory is never given back to the system twice, with the wrong size, or
    through the wrong routine. *)
Theorem C30_system_contract es : forallb ev_ok es = true -> a_run a_init es <> AUB.
Proof. intros H. exact (proj1 (run_inv es a_init Inv_init H)). Qed.
Print Assumptions C30_system_contract.

(** Blocks in use are backed by memory of at least the recorded size. *)
Theorem C30_backed es s o p i : forallb ev_ok es = true -> a_run a_init es = AOk s o ->
  In (p, i) (used s) -> exists k, In (p, info_size i, k) (os s).
Proof.
  intros H E Hin. pose proof (proj2 (run_inv es a_init Inv_init H) s o E) as HI.
  pose proof (inv_good _ HI) as Hg. rewrite Forall_forall in Hg.
  destruct (Hg _ (used_entry _ _ _ Hin)) as (_ & _ & A). eauto.
Qed.
Print Assumptions C30_backed.

(** The reported usage is the sum of the live sizes (modulo the 64-bit counter). *)
Theorem C30_usage es s o b : forallb ev_ok es = true -> a_run a_init es = AOk s o ->
  usage s b = u64 (fold_right N.add 0
     (map (fun e => info_size (snd e)) (filter (fun e => info_backend (snd e) =? b) (used s)))).
Proof.
  intros H E. pose proof (proj2 (run_inv es a_init Inv_init H) s o E) as HI.
  rewrite (inv_usage _ HI b). f_equal. clear. induction (used s) as [|[p i] l IH]; [reflexivity|].
  cbn [map snd sum_b filter]. destruct (info_backend i =? b); cbn [map fold_right snd]; rewrite IH; lia.
Qed.
Print Assumptions C30_usage.

(** A block served from the cache was released before with the same size class,
    backend, flag and device, and is in use under that description afterwards. *)
Theorem C30_reuse_matches es s o vw backend size shared device s' p :
  forallb ev_ok es = true -> a_run a_init es = AOk s o ->
  ev_ok (EReuse vw backend size shared device) = true ->
  a_step s (EReuse vw backend size shared device) = AOk s' (APtr p) ->
  exists i, In (i, p) (free s) /\ ~ In p (map fst (used s)) /\ In (p, i) (used s') /\
    info_size i = malloc_size vw backend size /\ size <= info_size i /\ info_backend i = backend /\
    info_device i = device /\ info_shared i = (if backend =? B_None then false else shared).
Proof.
  intros H E Hok Hst. pose proof (proj2 (run_inv es a_init Inv_init H) s o E) as HI.
  cbn [ev_ok] in Hok. rewrite !andb_true_iff in Hok. destruct Hok as [[[[H1 H2] H3] H4] H5].
  apply N.ltb_lt in H1, H4, H5. apply N.leb_le in H2, H3.
  cbn [a_step] in Hst. destruct (N.eqb_spec size 0); [lia|]. cbv zeta in Hst.
  destruct (malloc_size_ok vw backend size ltac:(lia) H3) as (M1 & M2 & _).
  destruct (info_decode_encode (malloc_size vw backend size) backend
     (if backend =? B_None then false else shared) device M2 H4 H5) as (D1 & D2 & D3 & D4 & D5).
  destruct (pop_free _ (free s)) as [[q fr]|] eqn:Ep; [|discriminate].
  injection Hst as <- ->. apply pop_free_perm in Ep.
  set (ai := malloc_info vw backend size shared device) in *.
  assert (Hf : In (ai, p) (free s)).
  { eapply Permutation_in; [apply Permutation_sym, Ep|now left]. }
  assert (HP : Permutation (entries s)
     ((ai, p) :: flat_map pend_entry (pending s) ++ map swap (used s) ++ fr ++ map snd (parked s) ++ concat (batches s) ++
      concat (releasing s) ++ leaked s)).
  { unfold entries, settled. rewrite Ep. cbn [app]. rewrite <- !Permutation_middle. reflexivity. }
  assert (Hnp : ~ In p (map fst (used s))).
  { eapply used_ptr_not_In; [exact HI|exact HP|].
    eexists _, _; split; [reflexivity|]. intros q Hq.
    rewrite !map_app, !in_app_iff. right; left. now apply In_used_swap. }
  exists ai. cbn [used]. unfold emplace. rewrite lookup_None by auto.
  repeat split; auto; [now left|unfold ai, malloc_info; rewrite D1; exact M1].
Qed.
Print Assumptions C30_reuse_matches.

(** Two threads, cache reuse, migration, flush. *)
Definition c30_run : list aev :=
  [EOsAlloc 8 B_LLVM 100 false 0 (Some 4096) None; EOsAlloc 8 B_None 3000000 false 0 None (Some 8388608);
   ECommit 1; ECommit 0; EFree 4096 true 1; EReuse 8 B_LLVM 120 false 0;
   EMove 8388608 B_LLVM; EFree 8388608 true 1; EFree 77 true 1; EFlush; EOsFree 0; EFlushStats 0].

Example C30_example :
  forallb ev_ok c30_run = true /\
  map snd (a_trace a_init c30_run) =
   [AUnit; AUnit; APtr 4096; APtr 8388608; AUnit; APtr 4096; APtr 8388608; AUnit; ARaise; AUnit; AUnit; AUnit] /\
  exists s, a_run a_init c30_run = AOk s AUnit /\ map fst (used s) = [4096] /\ usage s B_LLVM = 128 /\
    allocated s B_LLVM = 128 /\ os s = [(4096, 128, 0)].
Proof. split; [wit|]. split; [wit|]. eexists. wit. Qed.

(** The hypothesis of the theorems above excludes refused large host requests.
    Without it two requests both receive the same (invalid) pointer. *)
Theorem C30_refused_mmap_refuted :
  exists es, exists s, exists o, a_run a_init es = AOk s o /\
    map snd (a_trace a_init es) = [AUnit; APtr MAP_FAILED; AUnit; APtr MAP_FAILED] /\ os s = [].
Proof.
  exists [EOsAlloc 8 B_None (2 ^ 40) false 0 None None; ECommit 0;
          EOsAlloc 8 B_None (2 ^ 40) false 0 None None; ECommit 0].
  eexists _, _. wit.
Qed.
Print Assumptions C30_refused_mmap_refuted.

(** ** C31 *)
Theorem C31_round_trip size backend shared device :
  size < 2 ^ 53 -> backend < 4 -> device < 256 ->
  let v := info_encode size backend shared device in
  info_size v = size /\ info_backend v = backend /\ info_shared v = shared /\
  info_device v = device /\ v < 2 ^ 64.
Proof. exact (info_decode_encode size backend shared device). Qed.
Print Assumptions C31_round_trip.

Theorem C31_injective s1 b1 h1 d1 s2 b2 h2 d2 :
  s1 < 2 ^ 53 -> b1 < 4 -> d1 < 256 -> s2 < 2 ^ 53 -> b2 < 4 -> d2 < 256 ->
  info_encode s1 b1 h1 d1 = info_encode s2 b2 h2 d2 ->
  s1 = s2 /\ b1 = b2 /\ h1 = h2 /\ d1 = d2.
Proof. exact (info_encode_inj s1 b1 h1 d1 s2 b2 h2 d2). Qed.
Print Assumptions C31_injective.

Example C31_example : info_size (info_encode (2 ^ 52) B_Metal true 255) = 2 ^ 52 /\
  info_backend (info_encode (2 ^ 52) B_Metal true 255) = B_Metal /\
  info_shared (info_encode (2 ^ 52) B_Metal true 255) = true /\
  info_device (info_encode (2 ^ 52) B_Metal true 255) = 255.
Proof. wit. Qed.

(** Beyond 2^53 bytes the size is truncated. *)
Theorem C31_large_refuted : exists size, info_size (info_encode size B_LLVM false 0) <> size /\ size < 2 ^ 64.
Proof. exists (2 ^ 53). vm_compute. split; [discriminate|reflexivity]. Qed.

(** ** C32 *)

(** For requests of at most 2^51 bytes and while the system does not refuse
    large host blocks: the bookkeeping step of jit_malloc returns a block that
    the system provided and that holds the requested bytes, or raises and leaves
    the table of live blocks and the usage counter alone. Missing from the full
    claim: refused large host requests, larger sizes, the [allocated] and
    [watermark] statistics on failure (see the refutations). *)
Theorem C32_commit_partial es s o n s' o' : forallb ev_ok es = true ->
  a_run a_init es = AOk s o -> a_step s (ECommit n) = AOk s' o' ->
  (exists p i k req, o' = APtr p /\ In (p, i) (used s') /\ In (p, info_size i, k) (os s') /\
     nth_error (map pd_req (pending s)) n = Some req /\ req <= info_size i) \/
  (o' = ARaise /\ used s' = used s /\ free s' = free s /\ os s' = os s /\ forall b, usage s' b = usage s b).
Proof.
  intros H E Hst. pose proof (proj2 (run_inv es a_init Inv_init H) s o E) as HI.
  pose proof (step_commit s n HI) as [_ HS]. specialize (HS _ _ Hst).
  cbn [a_step] in Hst. destruct (extract n (pending s)) as [[d pd]|] eqn:Ex; [|discriminate].
  pose proof (extract_nth _ _ _ _ Ex) as [N1 _]. apply extract_perm in Ex.
  pose proof (inv_pend _ HI) as Hpo. eapply Permutation_Forall in Hpo; [|exact Ex].
  inversion Hpo as [|? ? (P1 & P2 & P3 & P4) Hpo']; subst.
  cbv zeta in Hst. destruct (N.eqb_spec (pd_ptr d) 0) as [E0|E0].
  - right. injection Hst as <- <-. cbn. auto.
  - left. injection Hst as <- <-.
    assert (Hnp : ~ In (pd_ptr d) (map fst (used s))).
    { pose proof (pend_split s d pd Ex) as HP. unfold pend_entry in HP at 1.
      rewrite (proj2 (N.eqb_neq _ _) E0) in HP. cbn [app] in HP.
      destruct (own_perm _ _ _ HP (inv_nodup _ HI) (inv_good _ HI)) as [Hnn _].
      cbn [map snd] in Hnn. inversion Hnn as [|? ? Hni _]; subst. intros Hin. apply Hni.
      unfold settled. rewrite !map_app, !in_app_iff. right; left. now apply In_used_swap. }
    unfold emplace in HS |- *. rewrite lookup_None in HS |- * by auto.
    pose proof (inv_good _ HS) as Hg. rewrite Forall_forall in Hg.
    destruct (Hg (pd_info d, pd_ptr d)) as (_ & _ & A).
    { apply used_entry. now left. }
    exists (pd_ptr d), (pd_info d), (kind_of (pd_info d)), (pd_req d).
    split; [reflexivity|]. split; [now left|]. split; [exact A|].
    split; [now apply map_nth_error|lia].
Qed.
Print Assumptions C32_commit_partial.

(** Refused by the system, yet no exception: a 4 MiB host request. *)
Theorem C32_no_exception_refuted :
  exists size s s', a_step a_init (EOsAlloc 8 B_LLVM size false 0 None None) = AOk s AUnit /\
    a_step s (ECommit 0) = AOk s' (APtr MAP_FAILED) /\ os s' = [] /\ size = 4194304.
Proof. exists 4194304. eexists _, _. wit. Qed.
Print Assumptions C32_no_exception_refuted.

(** A request of 2^63+1 bytes is silently served by a block of 0 bytes. *)
Theorem C32_huge_refuted :
  exists size s s', a_step a_init (EOsAlloc 8 B_LLVM size false 0 (Some 4096) None) = AOk s AUnit /\
    a_step s (ECommit 0) = AOk s' (APtr 4096) /\ os s' = [(4096, 0, 0)] /\ size = 2 ^ 63 + 1.
Proof. exists (2 ^ 63 + 1). eexists _, _. wit. Qed.
Print Assumptions C32_huge_refuted.

(** A failed request raises but stays in the [allocated] statistics for ever. *)
Theorem C32_statistics_refuted :
  exists s s', a_step a_init (EOsAlloc 8 B_LLVM 1000 false 0 None None) = AOk s AUnit /\
    a_step s (ECommit 0) = AOk s' ARaise /\ allocated s B_LLVM = 0 /\ allocated s' B_LLVM = 1024 /\
    watermark s' B_LLVM = 1024 /\ os s' = [].
Proof. eexists _, _. wit. Qed.
Print Assumptions C32_statistics_refuted.

Example C32_example : exists s s',
  a_step a_init (EOsAlloc 8 B_LLVM 100 false 0 (Some 4096) None) = AOk s AUnit /\
  a_step s (ECommit 0) = AOk s' (APtr 4096) /\ os s' = [(4096, 128, 0)].
Proof. eexists _, _. wit. Qed.

(** ** C54: round_pow2 *)
Theorem C54_round_pow2 x : 0 < x <= 2 ^ 63 ->
  (exists k, round_pow2 x = 2 ^ k) /\ x <= round_pow2 x /\ round_pow2 x < 2 * x.
Proof.
  intros H. split; [exists (N.size (x - 1)); now apply round_pow2_spec|now apply round_pow2_bounds].
Qed.
Print Assumptions C54_round_pow2.

Theorem C54_round_pow2_refuted : exists x, 0 < x < 2 ^ 64 /\ round_pow2 x = 0.
Proof. exists (2 ^ 63 + 1). wit. Qed.
Print Assumptions C54_round_pow2_refuted.

Example C54_round_pow2_example : round_pow2 1000 = 1024 /\ round_pow2 1024 = 1024 /\ round_pow2 (2 ^ 62 + 1) = 2 ^ 63.
Proof. wit. Qed.

(** ** C55 *)

(** Without moves between host and LLVM memory the peak statistic is never
    below the current one, provided the summed sizes stay below 2^64 bytes.
    Missing: moves (false, see below). *)
Theorem C55_watermark_partial es s o b :
  forallb ev_ok es = true ->
  forallb (fun e => match e with EMove _ _ => false | _ => true end) es = true ->
  along (fun s => forall b, b < 4 -> total s b < 2 ^ 64) a_init es ->
  a_run a_init es = AOk s o -> b < 4 -> allocated s b <= watermark s b.
Proof.
  intros H1 H2 H3 H4 H5. exact (wm_run es a_init s o Inv_init H1 H2 H3 (fun _ _ => N.le_refl 0) H4 b H5).
Qed.
Print Assumptions C55_watermark_partial.

Theorem C55_move_refuted :
  exists es s o, forallb ev_ok es = true /\ a_run a_init es = AOk s o /\
    allocated s B_LLVM = 128 /\ watermark s B_LLVM = 0.
Proof.
  exists [EOsAlloc 8 B_None 100 false 0 (Some 4096) None; ECommit 0; EMove 4096 B_LLVM].
  eexists _, _. wit.
Qed.
Print Assumptions C55_move_refuted.

Example C55_example : exists s o, a_run a_init
    [EOsAlloc 8 B_LLVM 100 false 0 (Some 4096) None; ECommit 0; EFree 4096 true 0; EFlush; EOsFree 0; EFlushStats 0] = AOk s o /\
    allocated s B_LLVM = 0 /\ watermark s B_LLVM = 128.
Proof. eexists _, _. wit. Qed.
