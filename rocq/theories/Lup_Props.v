(** C50: symbolic loops compute what the program says. *)
From Verif Require Import Base Cpy_Model Lup_Model Lup_Spec Lup_Proofs Lup_More Lup_Acc.
Local Open Scope N_scope.

(** If recording a loop succeeds, with or without the optimization, then what the vector code
    leaves in every lane and every state variable, eliminated or not, is what the loop leaves
    there when it runs in that lane alone. *)
Theorem C50_vector : forall (K : Type) (expr_eq : forall a b : expr K, {a = b} + {a <> b}) sem outv (F : N -> list N -> bool * list N) (w : N)
  (llvm optimize : bool) (body : recorder K) (outer : list (var K)) (l : loop K) (fuel : nat) (out : N -> list N),
  faithful sem outv (length outer) body F -> Forall (closed sem outv) outer ->
  record_loop expr_eq llvm optimize body outer = Some l -> exec sem outv w fuel l outer = Some out ->
  forall k, k < w -> exists m, while m (F k) (map (fun v => eval sem outv k [] (v_expr v)) outer) = Some (out k).
Proof. intros K expr_eq sem outv F w llvm optimize body outer l fuel out. exact (exec_sound expr_eq sem outv F w llvm optimize body outer l fuel out). Qed.
Print Assumptions C50_vector.

(** The vector code ends when the loop ends in every lane *)
Theorem C50_vector_ends : forall (K : Type) (expr_eq : forall a b : expr K, {a = b} + {a <> b}) sem outv (F : N -> list N -> bool * list N) (w : N)
  (llvm optimize : bool) (body : recorder K) (outer : list (var K)) (l : loop K),
  faithful sem outv (length outer) body F -> Forall (closed sem outv) outer ->
  record_loop expr_eq llvm optimize body outer = Some l ->
  (forall k, k < w -> exists m r, while m (F k) (map (fun v => eval sem outv k [] (v_expr v)) outer) = Some r) ->
  exists fuel out, exec sem outv w fuel l outer = Some out.
Proof. intros K expr_eq sem outv F w llvm optimize body outer l. exact (exec_ends expr_eq sem outv F w llvm optimize body outer l). Qed.
Print Assumptions C50_vector_ends.

(** CUDA and Metal: iteration by iteration the same, with the copies of C62 *)
Theorem C50_thread : forall (K : Type) (expr_eq : forall a b : expr K, {a = b} + {a <> b}) sem outv (F : N -> list N -> bool * list N)
  (llvm optimize : bool) (body : recorder K) (outer : list (var K)) (l : loop K) (via16 : bool) (b8 : N -> bool) (fuel : nat) (k : N),
  faithful sem outv (length outer) body F -> Forall (closed sem outv) outer ->
  record_loop expr_eq llvm optimize body outer = Some l ->
  (forall p, In p (pairs 0 (l_new l)) -> b8 (fst p) = b8 (snd p)) ->
  exec_thread sem outv via16 b8 fuel l outer k = while fuel (F k) (map (fun v => eval sem outv k [] (v_expr v)) outer).
Proof. intros K expr_eq sem outv F llvm optimize body outer l via16 b8 fuel k. exact (exec_thread_ok expr_eq sem outv F 0 llvm optimize body outer l via16 b8 fuel k). Qed.
Print Assumptions C50_thread.

(** State that no requested output needs is left out: whatever is in its place, the loop ends
    after as many iterations, with the same values of the requested outputs [os]. *)
Theorem C50_needed : forall (K : Type) sem outv (w : N) (l : loop K) (os : list nat) (f : nat) (seen : list nat) (junk : nat -> N -> nat -> N) (fuel : nat) (s : N -> list N),
  needed f l os = Some seen -> (forall k, length (s k) = length (l_new l)) ->
  match run_loop sem outv w fuel l s, run_needed sem outv w seen junk fuel l s with
  | Some r, Some r' => forall k i, In i os -> nth i (r k) 0 = nth i (r' k) 0
  | None, None => True
  | _, _ => False
  end.
Proof.
  intros K sem outv w l os f seen junk fuel s Hn Hl. pose proof (run_needed_ok sem outv w l os f seen junk Hn fuel s s ltac:(intros k; repeat split; try apply Hl; reflexivity)) as H.
  destruct (run_loop _ _ _ _ _ _); destruct (run_needed _ _ _ _ _ _ _ _); try exact H. intros k i Hi. apply H. exact (proj1 (needed_ok l os f seen Hn) i Hi).
Qed.
Print Assumptions C50_needed.
Theorem C50_needed_ends : forall (K : Type) (l : loop K) (os : list nat), exists f seen, needed f l os = Some seen.
Proof. intros K l os. destruct (visit_ends (fun _ _ => 0) l _ (os ++ phis_of (v_expr (l_cond l))) [] (Nat.lt_succ_diag_r _)) as [r H]. eexists. exists r. exact H. Qed.
Print Assumptions C50_needed_ends.

(** New values have the loop's size or are scalar *)
Theorem C50_new_sizes : forall (K : Type) (expr_eq : forall a b : expr K, {a = b} + {a <> b}) (llvm optimize : bool) (body : recorder K) (outer : list (var K)) (l : loop K),
  (forall vs, length vs = length outer -> length (snd (body vs)) = length outer /\ forall v, In v (snd (body vs)) -> 1 <= v_size v) ->
  record_loop expr_eq llvm optimize body outer = Some l ->
  v_size (l_cond l) <= l_size l /\ forall v, In (Some v) (l_new l) -> v_size v = 1 \/ v_size v = l_size l.
Proof. intros K expr_eq. exact (record_sizes expr_eq). Qed.
Print Assumptions C50_new_sizes.
(** and initial values that are replaced do not have more elements than the loop *)
Theorem C50_initial_sizes : forall (K : Type) (expr_eq : forall a b : expr K, {a = b} + {a <> b}) (llvm optimize : bool) (body : recorder K) (outer : list (var K)) (l : loop K),
  (forall vs, length vs = length outer -> length (snd (body vs)) = length outer) ->
  record_loop expr_eq llvm optimize body outer = Some l ->
  forall i v1 v, nth_error outer i = Some v1 -> nth_error (l_new l) i = Some (Some v) -> v_size v1 <= l_size l.
Proof. intros K expr_eq. exact (initial_sizes expr_eq). Qed.
Print Assumptions C50_initial_sizes.
(** Loops with state variables of one size besides unchanged ones of any size are accepted
    and can be assembled *)
Theorem C50_accepts : forall (K : Type) (expr_eq : forall a b : expr K, {a = b} + {a <> b}) (n : N) (keep : list bool) (llvm optimize : bool) (body : recorder K) (outer : list (var K)),
  regular n keep outer body ->
  exists l, record_loop expr_eq llvm optimize body outer = Some l /\ assembles outer l = true /\ (In false keep -> l_size l = n).
Proof. intros K expr_eq. exact (regular_accepted expr_eq). Qed.
Print Assumptions C50_accepts.

(** ** Examples *)
Fixpoint nexpr_eq (a b : expr nat) {struct a} : {a = b} + {a <> b}.
Proof. decide equality; try apply N.eq_dec; try apply Nat.eq_dec. apply list_eq_dec. exact nexpr_eq. Defined.
Definition sem0 (k : N) (o : nat) (a : list N) : N :=
  match o, a with
  | 0%nat, [x; y] => x + y
  | 1%nat, [x; y] => if x <? y then 1 else 0
  | _, _ => 0
  end.
Definition out0 (k : N) (j : nat) : N := match j with 0%nat => k | _ => 100 * k end.
Definition op0 (o : nat) (a b : var nat) : var nat := {| v_expr := EOp o [v_expr a; v_expr b]; v_size := N.max (v_size a) (v_size b) |}.
Definition lit0 (x : N) : var nat := {| v_expr := ELit x; v_size := 1 |}.
(** while (i < n) { x += c; (i, n, c, a, b) = (i + 1, n, 5, b, a) } *)
Definition body0 : recorder nat := fun vs =>
  match vs with
  | [i; n; c; x; a; b] => (op0 1 i n, [op0 0 i (lit0 1); n; lit0 5; op0 0 x c; b; a])
  | _ => (lit0 0, vs)
  end.
Definition outer0 : list (var nat) := [lit0 0; {| v_expr := EOut 0; v_size := 4 |}; lit0 5; {| v_expr := EOut 1; v_size := 4 |}; lit0 1; lit0 2].
Definition F0 (k : N) (s : list N) : bool * list N :=
  match s with
  | [i; n; c; x; a; b] => (i <? n, [i + 1; n; 5; x + c; b; a])
  | _ => (false, s)
  end.
Example C50_example_faithful : faithful sem0 out0 6 body0 F0 /\ Forall (closed sem0 out0) outer0.
Proof.
  split.
  - intros [|i [|n [|c [|x [|a [|b [|? ?]]]]]]] k s H; try discriminate H. repeat split. cbn. destruct (_ <? _); reflexivity.
  - repeat constructor.
Qed.
Example C50_example :
  match record_loop nexpr_eq true true body0 outer0 with
  | Some l => map (fun n : option (var nat) => match n with None => true | _ => false end) (l_new l) = [false; true; true; false; false; false] /\ l_size l = 4 /\ assembles outer0 l = true /\
      (let? out := exec sem0 out0 4 5 l outer0 in Some (map out [0; 1; 2; 3])) = Some [[0; 0; 5; 0; 1; 2]; [1; 1; 5; 105; 2; 1]; [2; 2; 5; 210; 1; 2]; [3; 3; 5; 315; 2; 1]] /\
      exec_thread sem0 out0 true (fun _ => false) 5 l outer0 3 = Some [3; 3; 5; 315; 2; 1] /\
      needed 20 l [4%nat] = Some [5%nat; 0%nat; 4%nat]
  | None => False
  end.
Proof. vm_compute. repeat split. Qed.
(** while (i < n) { i += n; t, n unchanged }, where [t] has 3 elements and [n] has 7 *)
Definition body1 : recorder nat := fun vs =>
  match vs with
  | [i; t; n] => (op0 1 i n, [op0 0 i n; t; n])
  | _ => (lit0 0, vs)
  end.
Definition outer1 : list (var nat) := [lit0 0; {| v_expr := EOut 0; v_size := 3 |}; {| v_expr := EOut 1; v_size := 7 |}].
Fixpoint depth (e : expr nat) : nat := match e with EOp _ args => S (list_max (map depth args)) | _ => 0%nat end.
Example C50_example_regular : regular 7 [false; true; true] outer1 body1.
Proof.
  split; [lia|]. split; [reflexivity|]. split.
  - intros [|[|[|[|i]]]] v; cbn; try discriminate. intros _ [= <-]. now left.
  - intros [|i [|t [|n [|? ?]]]] H; try discriminate H. injection H as H1 H2 H3. cbn [body1 fst snd op0 v_size]. rewrite H1, H3. split; [now right|]. split; [reflexivity|].
    intros [|[|[|[|j]]]] v q; cbn [nth_error]; intros [= <-] [= <-]; try reflexivity.
    split; [|split; [reflexivity|cbn; rewrite H1, H3; reflexivity]].
    cbn [op0 v_expr]. intros C. apply (f_equal depth) in C. cbn in C. lia.
Qed.
Example C50_example_accepts :
  match record_loop nexpr_eq true false body1 outer1 with
  | Some l => map (fun n : option (var nat) => match n with None => true | _ => false end) (l_new l) = [false; true; false] /\ l_size l = 7
  | None => False
  end.
Proof. vm_compute. repeat split. Qed.
(** Without the optimization, nothing is eliminated here *)
Example C50_example_plain :
  match record_loop nexpr_eq true false body0 outer0 with
  | Some l => map (fun n : option (var nat) => match n with None => true | _ => false end) (l_new l) = [false; false; false; false; false; false] /\
      (let? out := exec sem0 out0 4 5 l outer0 in Some (out 3)) = Some [3; 3; 5; 315; 2; 1]
  | None => False
  end.
Proof. vm_compute. repeat split. Qed.
(** State that changes when the loop is recorded again is noticed *)
Example C50_example_changed :
  let body : recorder nat := fun vs => match vs with
    | [i; c] => (op0 1 i (lit0 3), [op0 0 i (lit0 1); match v_expr c with EPhi _ => c | _ => lit0 7 end])
    | _ => (lit0 0, vs) end in
  record_loop nexpr_eq true true body [lit0 0; lit0 5] = None.
Proof. vm_compute. reflexivity. Qed.

(** Recording succeeds although the state does not fit together: a state variable that starts
    with 3 entries and becomes scalar, beside another one with 7 entries.  The process is
    aborted when the result is evaluated. *)
Theorem C50_abort_refuted : exists (K : Type) (expr_eq : forall a b : expr K, {a = b} + {a <> b}) (body : recorder K) (outer : list (var K)) (l : loop K) sem outv F,
  faithful sem outv (length outer) body F /\ Forall (closed sem outv) outer /\ (forall v, In v outer -> 1 <= v_size v) /\
  (forall optimize, record_loop expr_eq true optimize body outer = Some l) /\ assembles outer l = false.
Proof.
  exists nat, nexpr_eq, (fun vs => match vs with [i; a; b] => (op0 1 i (lit0 9), [op0 0 i (lit0 1); lit0 5; op0 0 b (lit0 1)]) | _ => (lit0 0, vs) end),
    [lit0 0; {| v_expr := EOut 0; v_size := 3 |}; {| v_expr := EOut 1; v_size := 7 |}].
  eexists. exists sem0, out0, (fun k s => match s with [i; a; b] => (i <? 9, [i + 1; 5; b + 1]) | _ => (false, s) end).
  split; [|split; [repeat constructor|split; [|split; [intros [|]; vm_compute; reflexivity|vm_compute; reflexivity]]]].
  - intros [|i [|a [|b [|? ?]]]] k s H; try discriminate H. repeat split. cbn. destruct (_ <? _); reflexivity.
  - intros v [<-|[<-|[<-|[]]]]; cbn; lia.
Qed.
Print Assumptions C50_abort_refuted.
