(** C68: getters of instance arrays. *)
From Verif Require Import Base Lay_Model Lay_Spec Gtr_Model Gtr_Spec Gtr_Proofs Gtr_Run.
Local Open Scope N_scope.

(** Every lane of a getter whose index and masks have no pending effects holds
    ``(mask && index != 0) ? values[index-1] : 0``, where the mask includes the one on the mask
    stack; nothing outside of the call data is read, and lanes past the end are inactive.  The
    shared buffer may contain any calls and other getters, written in any order ([es']). *)
Theorem C68_values :
  forall cp stack h ty values index mask h' g vi vm, getter cp stack h ty values index mask = Some (h', g) -> heap_ok h ->
  h index = Some vi -> h mask = Some vm -> clean h index -> clean h mask ->
  (forall t, stack = Some t -> exists v, h t = Some v /\ v_ty v = TBool /\ dirty v = false) ->
  let n := n_size g in let size := N.max (v_size vi) (v_size vm) in
  v_size vi = n \/ v_size vi = 1 -> v_size vm = n \/ v_size vm = 1 -> In (tsz ty) [1; 2; 4; 8] ->
  forall data llvm alignment cap items es es' total m late pad w k header db,
  kernel_ok data llvm alignment cap items -> upload data alignment items = (es, total) -> Permutation es es' ->
  nth_error (fst (fst (assemble items 0 0))) k = Some (table late h' g, header, db) ->
  (v_bk vi = LLVM -> N.of_nat (length values) < 2 ^ 31) -> (v_bk vi = LLVM -> ends h pad stack size n) ->
  forall l, l < lanes (v_bk vi) w n ->
  (l < n -> on_stack h stack size l = true -> entry vm l <> Some 0 -> forall i, entry vi l = Some i -> i <= N.of_nat (length values)) ->
  (l < n -> exists i q, entry vi l = Some i /\ entry vm l = Some q /\
     run w late pad h' g (aggregate m es') total header l = Some (expected h values (on_stack h stack size l) (negb (q =? 0)) i)) /\
  (n <= l -> run w late pad h' g (aggregate m es') total header l = Some 0).
Proof. intros. eapply getter_ok; eauto. Qed.
Print Assumptions C68_values.

(** With an empty mask stack, a getter is created exactly if the index is an array of unsigned 32-bit
    integers, the mask is boolean and not of another size than the result, and each value
    is absent or of size 1 and of the type; all on the same backend.  *)
Theorem C68_checks :
  forall cp h ty values index mask, heap_ok h ->
  (exists r, getter cp None h ty values index mask = Some r) <->
  (exists vi vm, index <> 0 /\ mask <> 0 /\ h index = Some vi /\ h mask = Some vm /\ v_ty vi = TUInt32 /\ v_ty vm = TBool /\ v_bk vm = v_bk vi /\
     (v_size vm = 1 \/ v_size vi <= v_size vm \/ (v_bk vi <> LLVM /\ exists x, v_lit vm = Some x)) /\
     forall id, In id values -> id = 0 \/ exists v, h id = Some v /\ v_size v = 1 /\ v_ty v = ty /\ v_bk v = v_bk vi).
Proof. exact checks_ok. Qed.
Print Assumptions C68_checks.

(** ** Examples and refutations *)
Definition arr (ty : N) (b : bk) (d : list N) : var :=
  {| v_ty := ty; v_bk := b; v_size := N.of_nat (length d); v_lit := None; v_node := false; v_data := d; v_new := None |}.
Definition lit (ty : N) (b : bk) (n x : N) : var := {| v_ty := ty; v_bk := b; v_size := n; v_lit := Some x; v_node := false; v_data := []; v_new := None |}.
Definition pending (v : var) (d : list N) : var :=
  {| v_ty := v_ty v; v_bk := v_bk v; v_size := v_size v; v_lit := v_lit v; v_node := v_node v; v_data := v_data v; v_new := Some d |}.
Definition mem (l : list (N * var)) : heap := fun i => match filter (fun p => fst p =? i) l with (_, v) :: _ => Some v | [] => None end.
Lemma mem_ok l : Forall (fun p => var_ok (snd p)) l -> heap_ok (mem l).
Proof.
  intros F i v. unfold mem. destruct (filter _ l) as [|[j u] r] eqn:E; [discriminate|]. intros X. injection X as <-.
  rewrite Forall_forall in F. apply (F (j, u)). assert (I : In (j, u) (filter (fun p => fst p =? i) l)) by (rewrite E; left; reflexivity). apply filter_In in I. apply I.
Qed.
Definition fits (v : var) (d : list N) : bool := (N.of_nat (length d) =? v_size v) && forallb (fun x => x <? limit (v_ty v)) d.
Definition var_okb (v : var) : bool :=
  (0 <? v_size v) && (v_size v <? 2 ^ 32) &&
  match v_lit v, v_new v with
  | Some x, None => x <? limit (v_ty v)
  | Some _, Some _ => false
  | None, None => fits v (v_data v)
  | None, Some d => fits v (v_data v) && fits v d && negb (v_node v)
  end.
Lemma fits_ok v d : fits v d = true -> N.of_nat (length d) = v_size v /\ Forall (fun x => x < limit (v_ty v)) d.
Proof.
  unfold fits. intros H. apply andb_true_iff in H. destruct H as [A B]. apply N.eqb_eq in A. split; [exact A|].
  apply Forall_forall. intros x I. rewrite forallb_forall in B. apply N.ltb_lt. apply B. exact I.
Qed.
Lemma var_okb_ok v : var_okb v = true -> var_ok v.
Proof.
  unfold var_okb, var_ok. intros H. apply andb_true_iff in H. destruct H as [H C]. apply andb_true_iff in H. destruct H as [A B]. apply N.ltb_lt in A, B.
  split; [auto|]. destruct (v_lit v) as [x|], (v_new v) as [d|]; try discriminate.
  - apply N.ltb_lt in C. split; [intros y E; injection E as <-; auto|]. split; [reflexivity|]. split; discriminate.
  - apply andb_true_iff in C. destruct C as [C D]. apply andb_true_iff in C. destruct C as [C1 C2]. split; [discriminate|].
    split; [intros E; rewrite E in D; discriminate|]. split; [intros _; apply fits_ok; exact C1|]. intros d' E. injection E as <-. apply fits_ok. exact C2.
  - split; [discriminate|]. split; [reflexivity|]. split; [intros _; apply fits_ok; exact C|discriminate].
Qed.
Ltac ok_var := apply var_okb_ok; vm_compute; reflexivity.
Definition late0 : N -> bool := fun _ => false.
Definition pad9 : N -> N -> N := fun _ _ => 4294967290.
(** The whole computation with the getter as the only user of the shared buffer *)
Definition lanes_of (r : option (heap * node)) (late : N -> bool) (pad : N -> N -> N) (w : N) (ls : list N) : option (list (option N)) :=
  let? r := r in
  let '(es, total) := upload (fun _ => []) 64 [table late (fst r) (snd r)] in
  Some (map (run w late pad (fst r) (snd r) (aggregate (fun _ => 77) es) total 0) ls).

(** Values 10 (literal), absent, 30 (in memory, after a pending scatter); lanes 5 to 7 are past the end *)
Definition ex_heap (b : bk) : heap :=
  mem [(1, arr TUInt32 b [3; 0; 1; 2; 3]); (2, arr TBool b [1; 1; 1; 1; 0]); (3, lit 14 b 1 10); (4, pending (arr 14 b [20]) [30]); (5, lit TBool b 1 1)].
Example C68_ex_llvm : lanes_of (getter true None (ex_heap LLVM) 14 [3; 0; 4] 1 2) late0 pad9 8 [0; 1; 2; 3; 4; 5; 6; 7] =
  Some [Some 30; Some 0; Some 10; Some 0; Some 0; Some 0; Some 0; Some 0].
Proof. vm_compute. reflexivity. Qed.
Example C68_ex_cuda : lanes_of (getter true (Some 2) (ex_heap CUDA) 14 [3; 0; 4] 1 5) late0 pad9 1 [0; 1; 2; 3; 4] =
  Some [Some 30; Some 0; Some 10; Some 0; Some 0].
Proof. vm_compute. reflexivity. Qed.
Example C68_ex_ok : forall b, heap_ok (ex_heap b).
Proof. intros b. apply mem_ok. destruct b; repeat apply Forall_cons; try apply Forall_nil; ok_var. Qed.
Example C68_ex_kernel : forall r, getter true None (ex_heap LLVM) 14 [3; 0; 4] 1 2 = Some r ->
  kernel_ok (fun _ => []) true 64 8 [table late0 (fst r) (snd r)] /\ ends (ex_heap LLVM) pad9 None 5 5.
Proof.
  intros r E. vm_compute in E. injection E as <-. split; [|intros t v X; discriminate].
  split; [split; cbn; auto|]. split; [|vm_compute; reflexivity]. constructor; [|constructor]. split; [cbn; auto|]. repeat constructor.
Qed.

(** A pending scatter to the index is not waited for: the kernel may read the old index. *)
Theorem C68_pending_index_refuted :
  exists h values index mask vi vm late, heap_ok h /\ h index = Some vi /\ h mask = Some vm /\ clean h mask /\ v_size vi = 2 /\ v_size vm = 1 /\
    entry vi 0 = Some 2 /\ entry vm 0 = Some 1 /\
    lanes_of (getter true None h 14 values index mask) late pad9 1 [0] = Some [Some 10] /\ expected h values true true 2 = 30.
Proof.
  exists (mem [(1, pending (arr TUInt32 CUDA [1; 1]) [2; 2]); (2, lit TBool CUDA 1 1); (3, lit 14 CUDA 1 10); (4, lit 14 CUDA 1 30)]), [3; 4], 1, 2.
  exists (pending (arr TUInt32 CUDA [1; 1]) [2; 2]), (lit TBool CUDA 1 1), (fun _ => true).
  split; [apply mem_ok; repeat apply Forall_cons; try apply Forall_nil; ok_var|]. repeat split; try reflexivity.
  - intros v X. vm_compute in X. injection X as <-. reflexivity.
Qed.
(** An index that is shorter than the mask is not rejected, and is read out of bounds. *)
Theorem C68_short_index_refuted :
  exists h values index mask vi vm, heap_ok h /\ h index = Some vi /\ h mask = Some vm /\ clean h index /\ clean h mask /\ v_size vi = 2 /\ v_size vm = 3 /\
    lanes_of (getter true None h 14 values index mask) late0 pad9 1 [0; 1; 2] = Some [Some 10; Some 10; None].
Proof.
  exists (mem [(1, arr TUInt32 CUDA [1; 1]); (2, arr TBool CUDA [1; 1; 1]); (3, lit 14 CUDA 1 10)]), [3], 1, 2, (arr TUInt32 CUDA [1; 1]), (arr TBool CUDA [1; 1; 1]).
  split; [apply mem_ok; repeat apply Forall_cons; try apply Forall_nil; ok_var|]. repeat split; try reflexivity; try (intros v X; vm_compute in X; injection X as <-; reflexivity).
Qed.
(** With a scalar mask in memory on the mask stack, LLVM executes the lanes past the end: a load from an
    arbitrary position.  The mask of the operation is not compared with the size of the index either. *)
Theorem C68_scalar_stack_mask_refuted :
  exists h values index mask t, heap_ok h /\ (forall i, clean h i) /\
    (exists v, h t = Some v /\ v_ty v = TBool /\ entry v 0 = Some 1) /\
    lanes_of (getter true None h 14 values index mask) late0 pad9 4 [0; 1; 2; 3] = Some [Some 10; Some 10; Some 10; Some 0] /\
    lanes_of (getter true (Some t) h 14 values index mask) late0 (fun i l => if i =? index then 4000 else 1) 4 [0; 1; 2; 3] = Some [Some 10; Some 10; Some 10; None].
Proof.
  exists (mem [(1, arr TUInt32 LLVM [1; 1; 1]); (2, arr TBool LLVM [1; 1; 1]); (3, lit 14 LLVM 1 10); (4, arr TBool LLVM [1])]), [3], 1, 2, 4.
  split; [apply mem_ok; repeat apply Forall_cons; try apply Forall_nil; ok_var|]. split.
  { intros i v X. unfold mem in X. cbn in X. repeat match type of X with context [?a =? ?b] => destruct (a =? b); cbn in X end; try discriminate; injection X as <-; reflexivity. }
  split; [eexists; split; [reflexivity|]; split; reflexivity|]. split; vm_compute; reflexivity.
Qed.
