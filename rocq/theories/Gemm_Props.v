(** C22, C23: batched matrix multiplication on the CPU. *)
From Verif Require Import Base Gemm_Model Gemm_Spec Gemm_Base Gemm_Fold.
Local Open Scope N_scope.

(** ** C22 *)
(** For every shape, transposition, batch layout, tile size, worker count and order in which
    tasks run: each entry of C is the sum of its products in the order (reduction batch, k),
    and nothing else in C changes.  Missing: sizes near 2^32 ([fits]), extents 0, both
    operands transposed (see below). *)
Theorem C22_entries_partial :
  forall (T Acc : Type) (widen : T -> Acc) (narrow : Acc -> T) (zero : Acc) (zeroT : T) (mac : Acc -> Acc -> Acc -> Acc) (junk : Acc)
    MR NR lanes KC NCmax widened cores order fuel At Bt M Nc K grid reduce A B st,
  tiles MR NR lanes KC NCmax -> any_order order -> 0 < cores -> fits MR NR KC NCmax At Bt M Nc K cores grid reduce ->
  0 < M -> 0 < Nc -> 0 < K -> positive grid -> positive reduce -> (length grid + length reduce <= 6)%nat -> At && Bt = false ->
  Nc <= N.of_nat fuel -> product reduce * K <= N.of_nat fuel ->
  exists st', batched_gemm widen narrow zero zeroT mac junk MR NR lanes KC NCmax widened cores order fuel At Bt M Nc K grid reduce A B st = Done st' /\
    (forall idx i j, index_of grid idx -> i < M -> j < Nc ->
       written widened narrow st' ((position grid idx * M + i) * Nc + j) (entry widen zero mac At Bt M Nc K grid reduce A B idx i j)) /\
    (forall x, product grid * M * Nc <= x -> untouched widened st st' x).
Proof. intros. apply batched_ok; assumption. Qed.
Print Assumptions C22_entries_partial.

(** The variable has one element per entry *)
Theorem C22_size :
  forall (T Acc : Type) (widen : T -> Acc) (narrow : Acc -> T) (zero : Acc) (zeroT : T) (mac : Acc -> Acc -> Acc -> Acc) (junk : Acc)
    MR NR lanes KC NCmax widened cores order fuel At Bt M Nc K grid reduce A B st size st',
  positive grid -> product grid < 2 ^ 32 ->
  var_gemm widen narrow zero zeroT mac junk MR NR lanes KC NCmax widened cores order fuel At Bt M Nc K grid reduce A B st = Done (size, st') ->
  size = product grid * M * Nc /\ size < 2 ^ 32.
Proof.
  intros until st'. intros P L. unfold var_gemm. destruct (6 <? _); [discriminate|]. rewrite (count_ok grid 1 P) by (try reflexivity; lia). rewrite N.mul_1_l. cbn [fst].
  destruct (2 ^ 32 - 1 <? product grid * M * Nc) eqn:E; [discriminate|]. apply N.ltb_ge in E. destruct (batched_gemm _ _ _ _ _ _ _ _ _ _ _ _ _ _ _ _ _ _ _ _ _ _ _ _); try discriminate. cbn [andThen]. intros H. injection H as <- _.
  split; [reflexivity|]. change (2 ^ 32) with 4294967296 in *. lia.
Qed.
Print Assumptions C22_size.

(** The CPU backend does not multiply two transposed operands *)
Theorem C22_both_transposed :
  forall (T Acc : Type) (widen : T -> Acc) (narrow : Acc -> T) (zero : Acc) (zeroT : T) (mac : Acc -> Acc -> Acc -> Acc) (junk : Acc)
    MR NR lanes KC NCmax widened cores order fuel M Nc K grid reduce A B st, 0 < M -> 0 < Nc -> 0 < K ->
  batched_gemm widen narrow zero zeroT mac junk MR NR lanes KC NCmax widened cores order fuel true true M Nc K grid reduce A B st = Raised.
Proof.
  intros. unfold batched_gemm. rewrite (proj2 (N.eqb_neq M 0)), (proj2 (N.eqb_neq Nc 0)), (proj2 (N.eqb_neq K 0)) by lia. cbn [orb]. destruct (6 <? _); reflexivity.
Qed.
Print Assumptions C22_both_transposed.

(** A concrete machine: integers, 2x4 tiles in vectors of 2, depth 2, panels of 4 columns, 3
    workers, tasks run backwards *)
Definition ex_gemm (widened : bool) (cores : N) :=
  batched_gemm (T := Z) (Acc := Z) (fun x => x) (fun x => (x mod 100)%Z) 0%Z 0%Z (fun acc a b => (acc + a * b)%Z) 77%Z 2 4 2 2 4 widened cores
    (fun _ _ _ _ _ n => rev (upto n)) 64.
Definition ex_a (x : N) : Z := Z.of_N (x + 1).
Definition ex_b (x : N) : Z := (3 - Z.of_N (x mod 5))%Z.
Definition ex_st : mem Z * mem Z := (fun _ => -1, fun _ => -2)%Z.
Definition look (o : outcome (mem Z * mem Z)) (n : N) : list Z * list Z :=
  match o with Done s => (map (fst s) (upto n), map (snd s) (upto n)) | _ => ([], []) end.
Definition by_def (At Bt : bool) (M Nc K : N) (grid reduce : list dim) (idx : list N) : list Z :=
  flat_map (fun i => map (fun j => entry (fun x => x) 0%Z (fun acc a b => (acc + a * b)%Z) At Bt M Nc K grid reduce ex_a ex_b idx i j) (upto Nc)) (upto M).
Example C22_ex_plain :
  fst (look (ex_gemm false 3 false false 3 5 3 [] [] ex_a ex_b ex_st) 16) = ([18; 12; 6; 0; -6; 45; 30; 15; 0; -15; 72; 48; 24; 0; -24; -1])%Z /\
  by_def false false 3 5 3 [] [] [] = ([18; 12; 6; 0; -6; 45; 30; 15; 0; -15; 72; 48; 24; 0; -24])%Z.
Proof. split; vm_compute; reflexivity. Qed.
(** wider sums, one grid dimension that is folded away and one reduction *)
Example C22_ex_batch :
  snd (look (ex_gemm true 2 false true 3 5 3 [(2, 9, 0)] [(3, 1, 2)] ex_a ex_b ex_st) 31)
  = map (fun v => v mod 100)%Z (by_def false true 3 5 3 [(2, 9, 0)] [(3, 1, 2)] [0] ++ by_def false true 3 5 3 [(2, 9, 0)] [(3, 1, 2)] [1]) ++ [(-2)%Z] /\
  by_def false true 3 5 3 [(2, 9, 0)] [(3, 1, 2)] [1] = ([117; 93; 134; 110; 86; 147; 117; 167; 137; 107; 177; 141; 200; 164; 128])%Z.
Proof. split; vm_compute; reflexivity. Qed.
(** a reduction that is folded into the inner dimension *)
Example C22_ex_reduce :
  fst (look (ex_gemm false 2 true false 3 2 2 [(2, 5, 1)] [(3, 6, 4)] ex_a ex_b ex_st) 13) = ([68; 52; 76; 59; 84; 66; 87; 96; 94; 102; 101; 108; -1])%Z /\
  by_def true false 3 2 2 [(2, 5, 1)] [(3, 6, 4)] [1] = ([87; 96; 94; 102; 101; 108])%Z.
Proof. split; vm_compute; reflexivity. Qed.
Example C22_ex_hyps :
  tiles 2 4 2 2 4 /\ any_order (fun _ _ _ _ _ n => rev (upto n)) /\ fits 2 4 2 4 false true 3 5 3 2 [(2, 9, 0)] [(3, 1, 2)] /\ index_of [(2, 9, 0)] [1] /\ positive [(2, 9, 0)].
Proof.
  split; [repeat split; vm_compute; congruence|]. split; [intros b jc rb pc ph n; symmetry; apply Permutation_rev|]. split; [repeat split; vm_compute; congruence|].
  split; repeat constructor.
Qed.

(** With 2^32 - 1 columns the number of column slabs wraps to 0: division by zero.  The
    machine here is the real one: 6x16 tiles, depth 1024, 4096 columns, 8 workers. *)
Theorem C22_near_limit_refuted :
  exists M Nc K, 0 < M /\ 0 < Nc /\ 0 < K /\ M < 2 ^ 32 /\ Nc < 2 ^ 32 /\ K < 2 ^ 32 /\
  var_gemm (T := Z) (Acc := Z) (fun x => x) (fun x => x) 0%Z 0%Z (fun acc a b => (acc + a * b)%Z) 77%Z 6 16 8 1024 4096 false 8
    (fun _ _ _ _ _ n => upto n) 64 false false M Nc K [] [] ex_a ex_b ex_st = Crash.
Proof. exists 1, (2 ^ 32 - 1), 1. repeat split; vm_compute; reflexivity. Qed.
Print Assumptions C22_near_limit_refuted.

(** The number of grid points wraps before it is checked: too small an array, no error. *)
Theorem C22_grid_wraps_refuted :
  exists M Nc K grid size st, 0 < M /\ 0 < Nc /\ 0 < K /\ positive grid /\
  var_gemm (T := Z) (Acc := Z) (fun x => x) (fun x => x) 0%Z 0%Z (fun acc a b => (acc + a * b)%Z) 77%Z 6 16 8 1024 4096 false 8
    (fun _ _ _ _ _ n => upto n) 64 true false M Nc K grid [] ex_a ex_b ex_st = Done (size, st) /\ size < product grid * M * Nc.
Proof. exists 1, 1, 1, [(65536, 1, 1); (65537, 0, 1); (65536, 0, 0)]. eexists _, _. split; [reflexivity|]. split; [reflexivity|]. split; [reflexivity|]. split; [repeat constructor|]. split; [vm_compute; reflexivity|vm_compute; reflexivity]. Qed.
Print Assumptions C22_grid_wraps_refuted.

(** A reduction over nothing leaves C as it was instead of writing zeros. *)
Theorem C22_empty_reduction_refuted :
  exists M Nc K reduce st, 0 < M /\ 0 < Nc /\ 0 < K /\
  ex_gemm false 3 false false M Nc K [] reduce ex_a ex_b ex_st = Done st /\
  ~ written false (fun x => x) st 0 (entry (fun x => x) 0%Z (fun acc a b => (acc + a * b)%Z) false false M Nc K [] reduce ex_a ex_b [] 0 0).
Proof. exists 2, 2, 2, [(0, 4, 4)]. eexists. split; [reflexivity|]. split; [reflexivity|]. split; [reflexivity|]. split; [vm_compute; reflexivity|]. vm_compute. discriminate. Qed.
Print Assumptions C22_empty_reduction_refuted.

(** A grid with an extent 0 has no matrices, but the variable is not empty (and never written). *)
Theorem C22_empty_grid_refuted :
  exists M Nc K grid size st, product grid = 0 /\
  var_gemm (T := Z) (Acc := Z) (fun x => x) (fun x => x) 0%Z 0%Z (fun acc a b => (acc + a * b)%Z) 77%Z 6 16 8 1024 4096 false 8
    (fun _ _ _ _ _ n => upto n) 64 false false M Nc K grid [] ex_a ex_b ex_st = Done (size, st) /\ 0 < size /\ st = ex_st.
Proof. exists 2, 2, 2, [(3, 0, 4); (0, 0, 4)]. eexists _, _. repeat split; vm_compute; reflexivity. Qed.
Print Assumptions C22_empty_grid_refuted.

(** ** C23 *)
(** With K = 0, C is never written, whatever the shape, ... *)
Theorem C23_unwritten :
  forall (T Acc : Type) (widen : T -> Acc) (narrow : Acc -> T) (zero : Acc) (zeroT : T) (mac : Acc -> Acc -> Acc -> Acc) (junk : Acc)
    MR NR lanes KC NCmax widened cores order fuel At Bt M Nc grid reduce A B st,
  batched_gemm widen narrow zero zeroT mac junk MR NR lanes KC NCmax widened cores order fuel At Bt M Nc 0 grid reduce A B st = Done st.
Proof. intros. unfold batched_gemm. rewrite N.eqb_refl, orb_true_r. reflexivity. Qed.
Print Assumptions C23_unwritten.
(** ... so it does not hold zeros, the sums of no products, ... *)
Theorem C23_refuted :
  exists M Nc st, 0 < M /\ 0 < Nc /\ ex_gemm false 3 false false M Nc 0 [] [] ex_a ex_b ex_st = Done st /\
  entry (fun x => x) 0%Z (fun acc a b => (acc + a * b)%Z) false false M Nc 0 [] [] ex_a ex_b [] 0 0 = 0%Z /\ ~ written false (fun x => x) st 0 0%Z.
Proof. exists 2, 2. eexists. split; [reflexivity|]. split; [reflexivity|]. split; [vm_compute; reflexivity|]. split; [reflexivity|]. vm_compute. discriminate. Qed.
Print Assumptions C23_refuted.
(** ... although the backend would write them. *)
Theorem C23_backend :
  forall (T Acc : Type) (widen : T -> Acc) (narrow : Acc -> T) (zero : Acc) (zeroT : T) (mac : Acc -> Acc -> Acc -> Acc) (junk : Acc)
    MR NR lanes KC NCmax widened cores order fuel At Bt M Nc grid reduce A B st,
  0 < M -> 0 < Nc -> positive grid -> positive reduce -> At && Bt = false -> product grid < 2 ^ 32 -> product reduce < 2 ^ 32 -> narrow zero = zeroT ->
  exists st', llvm_gemm widen narrow zero zeroT mac junk MR NR lanes KC NCmax widened cores order fuel At Bt M Nc 0 grid reduce A B st = Done st' /\
    (forall x, x < product grid * M * Nc -> written widened narrow st' x zero) /\ (forall x, product grid * M * Nc <= x -> untouched widened st st' x).
Proof.
  intros until st. intros M0 N0 pg pr Tr Lg Lr Nz. unfold llvm_gemm. rewrite Tr, (count_ok grid 1 pg), (count_ok reduce 1 pr) by (try reflexivity; lia). cbn [andb negb].
  rewrite (proj2 (N.eqb_neq M 0)), (proj2 (N.eqb_neq Nc 0)) by lia. cbn [orb]. rewrite N.eqb_refl, N.mul_1_l. eexists. split; [reflexivity|]. unfold written, untouched.
  split; intros x L; destruct widened; cbn [fst snd]; destruct (N.ltb_spec x (product grid * M * Nc)); try lia; congruence.
Qed.
Print Assumptions C23_backend.
Example C23_ex : exists st, ex_gemm true 3 false true 2 2 0 [(2, 4, 4)] [] ex_a ex_b ex_st = Done st /\ snd st 0 = (-2)%Z.
Proof. eexists. split; reflexivity. Qed.
