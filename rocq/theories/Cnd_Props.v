(** C63: symbolic conditional statements choose each lane's value from the branch it takes. *)
From Verif Require Import Base Cnd_Model Cnd_Spec Cnd_Proofs.
Local Open Scope N_scope.

(** What is accepted: as many values from one branch as from the other, all of them
    variables, each pair equal or of sizes that can be combined with the condition's *)
Theorem C63_accepts : forall st size ts fs,
  (exists outs, cond_end st size ts fs = CEnd outs) <->
  length ts = length fs /\ forall i t f, nth_error ts i = Some t -> nth_error fs i = Some f ->
    exists vt vf, cget st t = Some vt /\ cget st f = Some vf /\
      (agree t f vt vf \/ c_dirty vf = true \/ compatible [size; c_size vt; c_size vf]).
Proof. exact accepts. Qed.

(** LLVM.  Missing: values of the false branch with pending side effects *)
Theorem C63_llvm_partial : forall st size ts fs outs w ct cf i t f vt vf k, literals st ->
  cond_end st size ts fs = CEnd outs -> nth_error ts i = Some t -> nth_error fs i = Some f ->
  cget st t = Some vt -> cget st f = Some vf -> c_dirty vf = false -> k < w ->
  chosen (ct k) (cf k) (c_val vt k) (c_val vf k) (value_llvm st outs w ct cf i k).
Proof. exact llvm_values. Qed.

(** The blocks are valid for LLVM: every branch has a target, every phi instruction one entry
    for each predecessor; the code ends, a branch without active lanes is skipped *)
Theorem C63_llvm_blocks : valid emit = true /\ forall w ct cf tv fv,
  exists ran r, llvm w ct cf tv fv 8 = Some (ran, r) /\
    (In true ran <-> exists k, In k (lanes w) /\ ct k = true) /\ (In false ran <-> exists k, In k (lanes w) /\ cf k = true) /\ NoDup ran.
Proof. exact llvm_blocks. Qed.

(** CUDA, Metal *)
Theorem C63_thread_partial : forall st size ts fs outs act ct i t f vt vf k, literals st ->
  cond_end st size ts fs = CEnd outs -> nth_error ts i = Some t -> nth_error fs i = Some f ->
  cget st t = Some vt -> cget st f = Some vf -> c_dirty vf = false -> act i = true ->
  value_thread st outs ct act i k = Some (if ct k then c_val vt k else c_val vf k).
Proof. exact thread_values. Qed.
Theorem C63_thread_branch : forall ct tv fv act n k, fst (thread ct tv fv act n k) = ct k.
Proof. exact thread_branch. Qed.

(** Types and sizes, when both branches return the same type.  Missing: conditions with one
    element and branches with more *)
Theorem C63_shape_partial : forall st size ts fs outs i t f vt vf,
  cond_end st size ts fs = CEnd outs -> nth_error ts i = Some t -> nth_error fs i = Some f ->
  cget st t = Some vt -> cget st f = Some vf -> c_dirty vf = false -> c_ty vt = c_ty vf ->
  exists r, nth_error outs i = Some r /\ ret_type st r = c_ty vt /\
    (agree t f vt vf -> ret_size st r = c_size vf) /\
    (~ agree t f vt vf -> ret_size st r = size /\ (size <> 1 \/ c_size vt = 1 /\ c_size vf = 1 ->
       assembles st r = true /\ c_size vt <= size /\ c_size vf <= size)).
Proof. exact shapes. Qed.

(** Side effects: all of them become part of the statement when their sizes can be combined
    with the condition's, and take place in the lanes in which their branch's condition holds *)
Theorem C63_effects : forall size se_t se_f, (forall i n, In (i, n) (se_t ++ se_f) -> compatible [size; n]) ->
  cond_effects size se_t se_f = (map fst (se_t ++ se_f), [], false).
Proof. exact effects_accept. Qed.
Theorem C63_effects_all_or_raise : forall size se_t se_f g l, cond_effects size se_t se_f = (g, l, false) ->
  g = map fst (se_t ++ se_f) /\ l = [].
Proof. exact effects_ok. Qed.
(** With or without an exception, every recorded side effect has an owner that will release it *)
Theorem C63_effects_owned : forall size se_t se_f g l r, cond_effects size se_t se_f = (g, l, r) ->
  incl (map fst (se_t ++ se_f)) (g ++ l).
Proof. exact effects_kept. Qed.
Theorem C63_effect_lanes : forall w ct cf tv fv ran r, llvm w ct cf tv fv 8 = Some (ran, r) ->
  effect_lanes w ct cf ran true = filter ct (lanes w) /\ effect_lanes w ct cf ran false = filter cf (lanes w).
Proof. exact effect_lanes_ok. Qed.

(** ** What does not hold *)
Definition plain (ty size x : N) : cvar := {| c_ty := ty; c_size := size; c_lit := None; c_dirty := false; c_val := fun k => x + k |}.
Definition dirty (ty size x : N) : cvar := {| c_ty := ty; c_size := size; c_lit := None; c_dirty := true; c_val := fun k => x + k |}.
Definition lit (ty size x : N) : cvar := {| c_ty := ty; c_size := size; c_lit := Some x; c_dirty := false; c_val := fun _ => x |}.
Lemma literals_of l : forallb (fun v => match c_lit v with None => true | _ => false end) l = true -> literals l.
Proof. intros H v x HI E. rewrite forallb_forall in H. specialize (H v HI). now rewrite E in H. Qed.

(** A value of the false branch with pending side effects is returned for all lanes,
    including those that take the other branch *)
Theorem C63_dirty_refuted : exists st size ts fs outs w ct cf vt k, literals st /\
  cond_end st size ts fs = CEnd outs /\ ts = [1%nat] /\ fs = [2%nat] /\ cget st 1 = Some vt /\ k < w /\ ct k = true /\ cf k = false /\
  value_llvm st outs w ct cf 0 k <> Some (c_val vt k).
Proof.
  exists [plain 1 4 10; dirty 1 4 50], 4, [1%nat], [2%nat], [RSame 2], 4, (fun _ => true), (fun _ => false), (plain 1 4 10), 0.
  split. { intros v x [<-|[<-|[]]]; discriminate. }
  repeat (split; [reflexivity|]). vm_compute. discriminate.
Qed.
(** A condition with one element and branches with seven: accepted, the result has one
    element, and evaluating it aborts the process *)
Theorem C63_scalar_condition_refuted : exists st ts fs r, cond_end st 1 ts fs = CEnd [r] /\
  (forall v, In v st -> c_size v = 7) /\ ret_size st r = 1 /\ assembles st r = false.
Proof.
  exists [plain 1 7 10; plain 1 7 50], [1%nat], [2%nat], (ROut 1 1 1 2).
  split; [reflexivity|]. split; [intros v [<-|[<-|[]]]; reflexivity|]. split; reflexivity.
Qed.
(** Branches returning different types are accepted: the LLVM code is ill-typed, or, for
    equal literals, the result's type is that of the false branch *)
Theorem C63_type_refuted :
  (exists st size r, cond_end st size [1%nat] [2%nat] = CEnd [r] /\ exists vt vf, st = [vt; vf] /\ typed (c_ty vt) (c_ty vf) (ret_type st r) = false) /\
  (exists st size r, cond_end st size [1%nat] [2%nat] = CEnd [r] /\ exists vt vf, st = [vt; vf] /\ ret_type st r <> c_ty vt).
Proof.
  split.
  - exists [plain 1 4 10; plain 2 4 50], 4, (ROut 1 4 1 2). split; [reflexivity|]. eexists _, _. split; reflexivity.
  - exists [lit 1 4 10; lit 2 4 10], 4, (RSame 2). split; [reflexivity|]. eexists _, _. split; [reflexivity|]. vm_compute. discriminate.
Qed.
(** Equal literals: the result can have fewer elements than the condition *)
Theorem C63_literal_size_refuted : exists st size r vt, cond_end st size [1%nat] [2%nat] = CEnd [r] /\ cget st 1 = Some vt /\
  c_size vt = size /\ ret_size st r < size.
Proof. exists [lit 1 4 10; lit 1 1 10], 4, (RSame 2), (lit 1 4 10). repeat (split; [reflexivity|]). vm_compute. reflexivity. Qed.
(** An uninitialized return value raises an exception and leaks the results made so far;
    incompatible sizes raise an exception and do not *)
Theorem C63_leak_refuted : exists st size ts fs held, cond_end st size ts fs = CRaise held /\ held <> [].
Proof. exists [plain 1 4 10; plain 1 4 50], 4, [1%nat; 0%nat], [2%nat; 2%nat], [ROut 1 4 1 2]. split; [reflexivity|discriminate]. Qed.
(** A side effect of the wrong size: a reference to an earlier one is handed over and also
    released *)
Theorem C63_double_release_refuted : exists size se_t se_f given left_ i, cond_effects size se_t se_f = (given, left_, true) /\
  NoDup (map fst (se_t ++ se_f)) /\ In i given /\ In i left_.
Proof.
  exists 4, [(10%nat, 4); (11%nat, 3)], [], [10%nat], [10%nat; 11%nat], 10%nat. split; [reflexivity|].
  split. { repeat constructor; cbn; intuition discriminate. } split; now left.
Qed.

(** ** Examples *)
Definition ex_st : list cvar := [plain 1 4 10; plain 1 4 50; lit 1 1 7; lit 1 1 8].
Example ex_accept : cond_end ex_st 4 [1%nat; 3%nat; 1%nat; 3%nat] [2%nat; 3%nat; 4%nat; 4%nat] =
  CEnd [ROut 1 4 1 2; RSame 3; ROut 1 4 1 4; ROut 1 4 3 4].
Proof. reflexivity. Qed.
Example ex_values : map (fun i => map (fun k => value_llvm ex_st [ROut 1 4 1 2; RSame 3; ROut 1 4 1 4; ROut 1 4 3 4] 4 N.even N.odd i k) [0; 1; 2; 3]) [0; 1; 2; 3]%nat =
  [[Some 10; Some 51; Some 12; Some 53]; [Some 7; Some 7; Some 7; Some 7]; [Some 10; Some 8; Some 12; Some 8]; [Some 7; Some 8; Some 7; Some 8]].
Proof. reflexivity. Qed.
(** No lane takes the true branch: it does not run, and its values stay undefined *)
Example ex_skip : value_llvm ex_st [ROut 1 4 1 2] 4 (fun _ => false) (fun k => k <? 3) 0 2 = Some 52 /\
  option_map fst (llvm 4 (fun _ => false) (fun k => k <? 3) (fun _ _ => 1) (fun _ _ => 2) 8) = Some [false].
Proof. split; reflexivity. Qed.
Example ex_thread : map (fun k => value_thread ex_st [ROut 1 4 1 2] N.even (fun _ => true) 0 k) [0; 1; 2; 3] = [Some 10; Some 51; Some 12; Some 53].
Proof. reflexivity. Qed.
(** Sizes 4 and 3 *)
Example ex_sizes : cond_end [plain 1 4 10; plain 1 3 50] 4 [1%nat] [2%nat] = CRaise [].
Proof. reflexivity. Qed.
Example ex_count : cond_end ex_st 4 [1%nat; 2%nat] [2%nat] = CRaise [].
Proof. reflexivity. Qed.
Example ex_effects : cond_effects 4 [(10%nat, 4)] [(11%nat, 1); (12%nat, 4)] = ([10; 11; 12]%nat, [], false) /\
  effect_lanes 4 N.even N.odd [true; false] false = [1; 3].
Proof. split; reflexivity. Qed.

Print Assumptions C63_accepts.
Print Assumptions C63_llvm_partial.
Print Assumptions C63_llvm_blocks.
Print Assumptions C63_thread_partial.
Print Assumptions C63_shape_partial.
Print Assumptions C63_effects_owned.
Print Assumptions C63_effect_lanes.
