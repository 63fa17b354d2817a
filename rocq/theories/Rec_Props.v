(** C66: recording of virtual function calls. *)
From Verif Require Import Base Rec_Model Rec_Spec Rec_Proofs Rec_Front Rec_Accept.
Local Open Scope N_scope.

(** ** Side effects *)
(** Whatever calls are recorded, nested in each other, with exceptions at any point: the
    surrounding code gets the side effects it should, with those of each instance kept apart
    and in order, the recording state is restored, and every side effect that
    was recorded is either there or was released, once *)
Theorem C66_recorded : forall p s, N.of_nat (length (r_queue s)) + weights p < 0x7fffffff ->
  exists rel, exec_body exec p s = Ran (snd (den_body (den (r_names s)) p)) (add_effects s (fst (den_body (den (r_names s)) p))) rel /\
    Permutation (flat_map leaves (fst (den_body (den (r_names s)) p)) ++ flat_map leaves rel) (seen_body (den (r_names s)) (seen (r_names s)) p).
Proof.
  intros p s B. destruct (body_ok p (proj2 (Forall_forall _ _) (fun c _ => exec_ok c)) s B) as (rel & E & P & _). eauto.
Qed.

(** ** Acceptance and sizes *)
(** An argument is wrapped before the recording *)
Theorem C66_argument : forall optimize st h v, nth_error st h = Some v -> wf_store st ->
  exists new, call_input optimize st h = Some (st ++ [new], length st) /\ argument (st ++ [new]) (length st) (v_size v) /\ v_ty new = v_ty v /\ wf_store (st ++ [new]).
Proof. exact call_input_ok. Qed.
Theorem C66_argument_kept : forall st l h n, argument st h n -> argument (st ++ l) h n.
Proof. exact argument_app. Qed.
(** Anything else is not accepted *)
Theorem C66_inputs : forall optimize stack still st gen self mask ins oss ses st' gen' c, wf_store st ->
  var_call optimize stack still st gen self mask ins oss ses = FOk st' gen' c -> Forall (fun h => exists n, argument st h n) ins.
Proof.
  intros optimize stack still st gen self mask ins oss ses st' gen' c W. unfold var_call. destruct oss; [discriminate|].
  destruct (nth_error st self); [|discriminate]. destruct (nth_error st mask); [|discriminate]. destruct (_ || _); [discriminate|].
  destruct (check_inputs _ _ _ ins) eqn:E; try discriminate. intros _. eapply inputs_only; eauto.
Qed.
(** A call is accepted exactly when it should be, and has the size of the largest of self,
    mask and the arguments; each instance captures exactly the evaluated variables
    that it uses, once *)
Theorem C66_accepts : forall optimize stack still st gen self mask ins ns oss ses,
  wf_store st -> fresh st gen -> Forall2 (argument st) ins ns -> length ses = length oss ->
  (self < length st)%nat -> (mask < length st)%nat -> (forall hs h, In hs (oss ++ ses) -> In h hs -> (h < length st)%nat) ->
  let size := largest (size_of st self :: size_of st mask :: ns) in
  (acceptable still st self mask ins oss ses size /\ exists st' gen' c, var_call optimize stack still st gen self mask ins oss ses = FOk st' gen' c /\
     c_size c = size /\ eqs st st' /\ fresh st' gen' /\
     Forall2 (fun hs slots => NoDup slots /\ forall x, In x slots <-> captured st hs x) (map (fun x => fst x ++ snd x) (combine oss ses)) (c_slots c)) \/
  (~ acceptable still st self mask ins oss ses size /\ var_call optimize stack still st gen self mask ins oss ses = FRaise).
Proof.
  intros optimize stack still st gen self mask ins ns oss ses W F A L L1 L2 L3 size.
  pose proof (call_ok optimize stack still st gen self mask ins ns oss ses W F A L L1 L2 L3) as H. cbn zeta in H. fold size in H.
  destruct (var_call optimize stack still st gen self mask ins oss ses) as [| |st' gen' c]; [destruct H|right; auto|left].
  destruct H as (H1 & H2 & H3 & H4 & H5 & H6 & H7). split; [exact H1|]. exists st', gen', c. auto.
Qed.
(** Results: types of the instances' results, size of the call; kernels can be generated
    if the arguments fit the size.  The mask stack must not be larger. *)
Theorem C66_results_partial : forall optimize stack still st gen self mask ins ns oss ses st' gen' c,
  wf_store st -> fresh st gen -> Forall2 (argument st) ins ns -> length ses = length oss ->
  (self < length st)%nat -> (mask < length st)%nat -> (forall hs h, In hs (oss ++ ses) -> In h hs -> (h < length st)%nat) ->
  1 <= size_of st self -> stack_ok stack (c_size c) ->
  var_call optimize stack still st gen self mask ins oss ses = FOk st' gen' c ->
  length (c_outs c) = length (hd [] oss) /\
  (forall o t n d, nth_error (c_outs c) o = Some (t, n, d) -> n = c_size c /\ (forall os h, In os oss -> nth_error os o = Some h -> t = type_of st h) /\
     (d = true -> optimize = true /\ literal_out st oss o)) /\
  (Forall (fits (c_size c)) ns -> assembles st c self ins = true).
Proof.
  intros optimize stack still st gen self mask ins ns oss ses st' gen' c W F A L L1 L2 L3 S1 SO E.
  pose proof (call_ok optimize stack still st gen self mask ins ns oss ses W F A L L1 L2 L3) as H. cbn zeta in H. rewrite E in H.
  set (size := largest _) in H. destruct H as (H1 & H2 & H3 & H4 & H5 & H6 & H7). rewrite H4 in *.
  assert (GE : 1 <= size) by (unfold size; cbn [largest fold_right]; lia).
  assert (MS : mask_size stack size = size) by (now apply mask_size_ok).
  rewrite MS in *. rewrite H6. split; [apply outputs_len|]. split.
  - intros o t n d N0. destruct (outputs_nth _ _ _ _ _ _ _ _ _ _ _ N0) as (h & N1 & B).
    assert (I0 : In (hd [] oss) oss) by (destruct H1 as [NE _ _ _ _ _ _]; destruct oss; [congruence|now left]).
    assert (LH : (h < length st)%nat). { apply (L3 (hd [] oss) h); [apply in_or_app; now left|]. eapply nth_error_In; eauto. }
    rewrite (eqs_len _ _ H2) in LH. destruct (B LH) as (T & D1 & D2). split; [destruct d; [destruct (D1 eq_refl) as (-> & _); lia|auto]|]. split.
    + intros os h' I1 N2. rewrite T. destruct H1 as [_ _ _ AO _ _ _]. specialize (AO os I1). rewrite <- (type_eqs _ _ _ H2). clear -AO N1 N2.
      revert o N1 N2. induction AO as [|x y lx ly [X _] _ IH]; intros [|o] N1 N2; cbn [nth_error] in *; try discriminate; [congruence|eauto].
    + intros ->. destruct (D1 eq_refl) as (_ & OP & SH & v & G & VL). split; [exact OP|]. destruct (eqs_nth _ _ _ _ (eqs_sym _ _ H2) G) as (w & G' & _ & _ & E3 & _).
      exists h, w. split; [now apply same_iff|]. split; [exact G'|congruence].
  - intros FI. apply (assembles_ok st c self ins ns size W L1 A H4 H5).
    + destruct H1 as [_ _ _ _ _ [X _] _]. exact X.
    + revert FI. generalize size. clear -A. intros z FI. induction A as [|a n la ln X _ IH]; constructor; apply Forall_cons_iff in FI; destruct FI; auto.
Qed.

(** ** What does not hold *)
Definition mk (ty size : N) (lit capt : bool) (deps : list nat) : var :=
  {| v_ty := ty; v_size := size; v_lit := lit; v_capt := capt; v_input := None; v_deps := deps; v_scratch := 0; v_dirty := false |}.
(** 0: self, 1: mask, 2: argument, 3: a result *)
Definition base (n_self n_arg : N) : store := [mk TUInt32 n_self false true []; mk TBool 1 true false []; mk 14 n_arg true false []; mk 14 1 true false []].
(** The size of a literal argument is lost when a nested call visits it: the call has some
    other size *)
Theorem C66_stashed_size_refuted : exists st a k st1 st2 gen2 c1 st3 gen3 c2,
  call_input true st a = Some (st1, k) /\
  var_call true None (fun _ => false) st1 100 0 1 [] [[k]] [[]] = FOk st2 gen2 c1 /\
  var_call true None (fun _ => false) st2 gen2 0 1 [k] [[3%nat]] [[]] = FOk st3 gen3 c2 /\
  wf_store st1 /\ argument st1 k 5 /\ c_size c2 = 202 /\ largest (size_of st1 0 :: size_of st1 1 :: [5]) = 5.
Proof.
  exists (base 1 5), 2%nat. do 8 eexists. split; [vm_compute; reflexivity|]. split; [vm_compute; reflexivity|]. split; [vm_compute; reflexivity|].
  split. { intros h v G. do 5 (destruct h as [|h]; [cbn in G; injection G as <-; cbn; repeat split; try discriminate; intros d []|]). destruct h; discriminate. }
  split. { eexists. split; [reflexivity|]. split; [reflexivity|]. right. split; reflexivity. }
  split; reflexivity.
Qed.
(** A larger mask on the stack: the outputs have size 1, those that are literals the
    size of the mask; code cannot be generated *)
Theorem C66_mask_stack_refuted : exists st stack c st' gen', wf_store st /\ acceptable (fun _ => false) st 0 1 [] [[2%nat; 3%nat]; [3%nat; 3%nat]] [[]; []] 1 /\
  var_call true stack (fun _ => false) st 1 0 1 [] [[2%nat; 3%nat]; [3%nat; 3%nat]] [[]; []] = FOk st' gen' c /\
  c_outs c = [(14, 1, false); (14, 8, true)] /\ assembles st' c 0 [] = false.
Proof.
  assert (W : wf_store (base 1 1)). { intros h v G. do 4 (destruct h as [|h]; [cbn in G; injection G as <-; cbn; repeat split; try discriminate; intros d []|]). destruct h; discriminate. }
  exists (base 1 1), (Some 8). do 3 eexists. split; [exact W|].
  assert (E : exists st' gen' c, var_call true None (fun _ => false) (base 1 1) 1 0 1 [] [[2%nat; 3%nat]; [3%nat; 3%nat]] [[]; []] = FOk st' gen' c) by (do 3 eexists; vm_compute; reflexivity).
  split.
  { pose proof (call_ok true None (fun _ => false) (base 1 1) 1 0 1 [] [] [[2%nat; 3%nat]; [3%nat; 3%nat]] [[]; []] W) as H. destruct E as (st' & gen' & c & E). rewrite E in H. apply H.
    - split; [lia|]. intros h v G. right. do 4 (destruct h as [|h]; [cbn in G; injection G as <-; cbn; lia|]). destruct h; discriminate.
    - constructor.
    - reflexivity.
    - cbn. lia.
    - cbn. lia.
    - intros hs h I1 I2. cbn in I1. repeat destruct I1 as [<-|I1]; cbn in I2; cbn; lia. }
  split; [vm_compute; reflexivity|]. split; reflexivity.
Qed.
(** Arguments whose sizes contradict each other are accepted; code cannot be generated *)
Theorem C66_sizes_refuted : exists st k st' gen' c, wf_store st /\ argument st k 3 /\
  var_call true None (fun _ => false) st 1 0 1 [k] [[3%nat]] [[]] = FOk st' gen' c /\ c_size c = 4 /\ assembles st' c 0 [k] = false.
Proof.
  exists [mk TUInt32 4 false true []; mk TBool 1 true false []; mk 14 3 false true []; mk 14 1 true false [];
          {| v_ty := 14; v_size := 1; v_lit := false; v_capt := false; v_input := Some 2%nat; v_deps := [2%nat]; v_scratch := 0; v_dirty := false |}], 4%nat.
  do 3 eexists. split. { intros h v G. do 4 (destruct h as [|h]; [cbn in G; injection G as <-; cbn; repeat split; try discriminate; intros d []|]).
    destruct h as [|h]; [|destruct h; discriminate]. cbn in G. injection G as <-. cbn. split; [|split; [discriminate|]]. - intros d [<-|[]]. lia. - intros d [= <-]. split; [lia|reflexivity]. }
  split. { eexists. split; [reflexivity|]. split; [reflexivity|]. left. do 2 eexists. repeat split; reflexivity. }
  split; [vm_compute; reflexivity|]. split; reflexivity.
Qed.
(** The first checkpoint must not be the one that jit_record_begin returned *)
Theorem C66_begin_checkpoint_refuted : exists s c s1 s2, record_begin s None = (c, s1) /\ s2 = mark_side_effect s1 true (Eff 7) /\
  move_effects s2 false [c; checkpoint s2] false false = MFault /\
  exists s3, move_effects s2 false [checkpoint s1; checkpoint s2] false false = MOk s3 /\ r_done s3 = [ECalls [[Eff 7]]].
Proof.
  exists {| r_queue := []; r_done := []; r_flag := false; r_names := [] |}. do 3 eexists. split; [reflexivity|]. split; [reflexivity|]. split; [vm_compute; reflexivity|].
  eexists. split; [vm_compute; reflexivity|]. reflexivity.
Qed.

(** ** Examples *)
Definition s0 : rstate := {| r_queue := []; r_done := []; r_flag := false; r_names := [] |}.
(** Two instances; the second one has a nested call, one of whose instances has an effect *)
Definition prog : list stmt := [SCall (Some 1) [[SEff 1; SEff 2]; [SEff 3; SCall None [[]; [SEff 4]] false false; SEff 5]] false false].
Example C66_ex_recorded : exec_body exec prog s0 =
  Ran false {| r_queue := []; r_done := [ECalls [[Eff 1; Eff 2]; [Eff 3; ECalls [[]; [Eff 4]]; Eff 5]]]; r_flag := false; r_names := [] |} [].
Proof. vm_compute. reflexivity. Qed.
(** The nested call fails late; everything is released *)
Definition prog2 : list stmt := [SEff 9; SCall (Some 1) [[SEff 1; SEff 2]; [SEff 3; SCall None [[]; [SEff 4]] false true; SEff 5]] false false; SEff 6].
Example C66_ex_raised : exec_body exec prog2 s0 =
  Ran true {| r_queue := []; r_done := [Eff 9]; r_flag := false; r_names := [] |} [Eff 4; Eff 3; Eff 2; Eff 1] /\
  seen_body (den []) (seen []) prog2 = [9; 1; 2; 3; 4]%nat.
Proof. vm_compute. split; reflexivity. Qed.
Example C66_ex_accepts : exists st' gen' c, var_call true (Some 5) (fun _ => false) (base 1 1 ++ [mk 14 5 true false []; {| v_ty := 14; v_size := 1; v_lit := true; v_capt := false; v_input := None; v_deps := []; v_scratch := 5; v_dirty := false |};
    mk 14 1 false true []; mk 14 1 false false [6; 5; 6]%nat]) 1 0 1 [5%nat] [[7%nat; 2%nat]; [6%nat; 2%nat]] [[]; []] = FOk st' gen' c /\
  c = {| c_size := 5; c_mask := 5; c_outs := [(14, 5, false); (14, 5, true)]; c_slots := [[6]; [6]]%nat |}.
Proof. do 3 eexists. split; [vm_compute; reflexivity|]. reflexivity. Qed.

Print Assumptions C66_recorded.
Print Assumptions C66_argument.
Print Assumptions C66_argument_kept.
Print Assumptions C66_inputs.
Print Assumptions C66_accepts.
Print Assumptions C66_results_partial.
