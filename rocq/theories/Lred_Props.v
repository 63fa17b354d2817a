(** C19: reductions of literals. *)
From Verif Require Import Base Op_Model Op_Spec Op_Store Op_Built Lred_Model Lred_Spec Lred_Proofs.
Local Open Scope N_scope.

(** jit_var_reduce of an integer literal yields the reduction of its lanes whenever
    the closed form is computed without overflow ([scalar_ok]). *)
Theorem C19_reduce_partial :
  forall fop powd evaluated st op h t n a, wf fop st -> get st h = Some (mkVar t n (Lit a)) -> is_int t = true ->
  op <> RAnd -> op <> ROr -> (1 < n -> scalar_ok powd op t n a) ->
  returns fop st (var_reduce fop powd evaluated st t op h) t 1 (fun _ x => reduces fop st h n op t (fun _ => True) x).
Proof. exact (fun fop => reduce_ok fop (fun _ _ => true)). Qed.
Print Assumptions C19_reduce_partial.

(** An empty array (index 0): the neutral element of the reduction. *)
Theorem C19_empty :
  forall fop powd evaluated st op h t, wf fop st -> get st h = None -> is_int t = true -> op <> RAnd -> op <> ROr ->
  returns fop st (var_reduce fop powd evaluated st t op h) t 1 (fun _ x => forall y, y < 2 ^ width t -> reduction op t [x; y] y).
Proof. exact (fun fop => empty_ok fop (fun _ _ => true)). Qed.
Print Assumptions C19_empty.

(** jit_var_block_reduce, including a shorter last block. *)
Theorem C19_block_reduce_partial :
  forall fop cp uniq powd evaluated st op h t n a bs, wf fop st -> get st h = Some (mkVar t n (Lit a)) -> is_int t = true ->
  1 < bs -> n + bs - 1 < 2 ^ 32 ->
  scalar_ok powd op t bs a -> scalar_ok powd op t (n - (ceil_div n bs - 1) * bs) a ->
  returns fop st (var_block_reduce fop cp uniq powd evaluated st op h bs) t (ceil_div n bs)
    (fun l x => reduces fop st h n op t (fun j => j / bs = l) x).
Proof. exact block_reduce_ok. Qed.
Print Assumptions C19_block_reduce_partial.

(** jit_var_block_prefix_reduce: sums (the multiplication wraps correctly), ... *)
Theorem C19_prefix_sum_partial :
  forall fop cp fast uniq evaluated st h t n a bs exclusive reverse, wf fop st -> get st h = Some (mkVar t n (Lit a)) -> is_int t = true ->
  n < 2 ^ 32 -> 1 <= bs < 2 ^ 32 -> (reverse = true -> n mod bs = 0) ->
  returns fop st (var_prefix fop cp fast uniq evaluated st RAdd h bs exclusive reverse) t n
    (fun l x => reduces fop st h n RAdd t (in_prefix bs exclusive reverse l) x).
Proof. exact (fun fop cp fast uniq => prefix_ok fop cp fast uniq (fun _ _ => None)). Qed.
Print Assumptions C19_prefix_sum_partial.
(** ... and inclusive minima and maxima. *)
Theorem C19_prefix_minmax_partial :
  forall fop cp fast uniq evaluated st op h t n a bs reverse, wf fop st -> get st h = Some (mkVar t n (Lit a)) ->
  op = RMin \/ op = RMax -> 1 <= bs ->
  returns fop st (var_prefix fop cp fast uniq evaluated st op h bs false reverse) t n
    (fun l x => reduces fop st h n op t (in_prefix bs false reverse l) x).
Proof. exact prefix_minmax. Qed.
Print Assumptions C19_prefix_minmax_partial.

(** The lanes of a small literal, for the counterexamples. *)
Definition lit1 t n a : store := [mkVar t n (Lit a)].
Definition lane (r : out (store * nat)) (l : N) : option N :=
  match r with Ok (st, h) => value (fun _ _ _ _ => 0) st h l | _ => None end.

(** Product of 256 times the literal 2 in uint8: the exponent is converted to uint8
    and becomes 0. *)
Theorem C19_product_refuted :
  exists st h t n a, (forall fop, wf fop st) /\ get st h = Some (mkVar t n (Lit a)) /\ is_int t = true /\
    forall fop powd evaluated, (forall x, powd x 0%Z = Some 1%Z) ->
    exists st' r, var_reduce fop powd evaluated st t RMul h = Ok (st', r) /\ value fop st' r 0 = Some 1 /\
      reduction RMul t (repeat a (N.to_nat n)) 0.
Proof.
  exists (lit1 U8 256 2), 1%nat, U8, 256, 2.
  split; [intros; apply (wf_input _ []); [apply wf_nil|lia|reflexivity]|]. split; [reflexivity|]. split; [reflexivity|].
  intros fop powd evaluated P.
  assert (E : scalar_mul fop powd U8 256 2 = Ok 1) by (unfold scalar_mul; cbn [is_bool is_float is_sint]; change (num U8 (wrap U8 256)) with 0%Z; rewrite P; reflexivity).
  unfold var_reduce. cbn [get lit1 nth_error v_ty v_desc v_size ty_eqb negb].
  change (1 <? 256) with true. cbn iota. cbn [scalar]. rewrite E. cbn [obind].
  eexists _, _. split; [reflexivity|]. split; [vm_compute; reflexivity|vm_compute; reflexivity].
Qed.
Print Assumptions C19_product_refuted.
(** Sum of four times 2^30 in int32: undefined behaviour of the host program; the
    lanes sum to 0 modulo 2^32. *)
Theorem C19_sum_refuted :
  exists st h t n a, (forall fop, wf fop st) /\ get st h = Some (mkVar t n (Lit a)) /\ is_int t = true /\
    (forall fop powd evaluated, var_reduce fop powd evaluated st t RAdd h = Ub) /\
    reduction RAdd t (repeat a (N.to_nat n)) 0.
Proof.
  exists (lit1 I32 4 (2 ^ 30)), 1%nat, I32, 4, (2 ^ 30).
  split; [intros; apply (wf_input _ []); [apply wf_nil|lia|reflexivity]|]. split; [reflexivity|]. split; [reflexivity|].
  split; [intros; vm_compute; reflexivity|vm_compute; reflexivity].
Qed.
Print Assumptions C19_sum_refuted.
(** Reverse prefix sum of three ones in blocks of two: the last block has one
    element, its inclusive sum is 1; the closed form gives 2. *)
Theorem C19_reverse_refuted :
  exists st h t n a bs, (forall fop, wf fop st) /\ get st h = Some (mkVar t n (Lit a)) /\ is_int t = true /\ 1 <= bs <= n /\
    (forall fop, reduces fop st h n RAdd t (in_prefix bs false true (n - 1)) 1) /\
    forall fop fast uniq evaluated, exists st' r,
      var_prefix fop true fast uniq evaluated st RAdd h bs false true = Ok (st', r) /\
      value fop st' r (n - 1) = Some 2.
Proof.
  exists (lit1 U32 3 1), 1%nat, U32, 3, 1, 2.
  split; [intros; apply (wf_input _ []); [apply wf_nil|lia|reflexivity]|]. split; [reflexivity|]. split; [reflexivity|]. split; [lia|].
  split.
  - intros fop. eapply (lit_reduces fop) with (lo := 2) (hi := 3); [reflexivity|lia| |vm_compute; reflexivity].
    intros j. unfold in_prefix. change ((3 - 1) / 2) with 1. split; [lia|]. intros J. assert (j = 2) as -> by lia. repeat split; lia.
  - intros. assert (W : wf fop (lit1 U32 3 1)) by (apply (wf_input _ []); [apply wf_nil|lia|reflexivity]).
    destruct (prefix_counts fop true fast uniq (fun _ _ => None) evaluated (lit1 U32 3 1) 1%nat U32 3 1 2 false true W) as (st' & r & E & _ & _ & _ & V); try reflexivity; try lia.
    exists st', r. split; [exact E|]. destruct (V (3 - 1)) as (x & -> & ->); [lia|]. reflexivity.
Qed.
Print Assumptions C19_reverse_refuted.
(** Exclusive minimum: the first entry of a block should be the largest value. *)
Theorem C19_exclusive_min_refuted :
  exists st h t n a bs, (forall fop, wf fop st) /\ get st h = Some (mkVar t n (Lit a)) /\ is_int t = true /\ 1 <= bs <= n /\
    reduce_identity t RMin <> a /\
    forall fop cp fast uniq evaluated,
      var_prefix fop cp fast uniq evaluated st RMin h bs true false = Ok (st, h) /\ value fop st h 0 = Some a.
Proof.
  exists (lit1 U8 4 7), 1%nat, U8, 4, 7, 2.
  split; [intros; apply (wf_input _ []); [apply wf_nil|lia|reflexivity]|]. split; [reflexivity|]. split; [reflexivity|]. split; [lia|].
  split; [discriminate|]. intros. split; reflexivity.
Qed.
Print Assumptions C19_exclusive_min_refuted.
(** A block size close to 2^32: the number of blocks wraps to 0 and the call raises. *)
Theorem C19_block_count_refuted :
  exists st h t n a bs, (forall fop, wf fop st) /\ get st h = Some (mkVar t n (Lit a)) /\ is_int t = true /\ bs < 2 ^ 32 /\
    (forall powd, scalar_ok powd RMax t n a) /\
    forall fop cp uniq powd evaluated, var_block_reduce fop cp uniq powd evaluated st RMax h bs = Raise.
Proof.
  exists (lit1 U8 10 7), 1%nat, U8, 10, 7, (2 ^ 32 - 1).
  split; [intros; apply (wf_input _ []); [apply wf_nil|lia|reflexivity]|]. split; [reflexivity|]. split; [reflexivity|]. split; [reflexivity|].
  split; [exact (fun _ => Logic.I)|]. intros. destruct cp; vm_compute; reflexivity.
Qed.
Print Assumptions C19_block_count_refuted.

(** Examples *)
Definition noeval : store -> nat -> out (store * nat) := fun _ _ => Abort.
Definition mypow (x e : Z) : option Z := if (e <? 0)%Z then None else Some (x ^ e)%Z.
Example C19_ex_reduce :
  lane (var_reduce (fun _ _ _ _ => 0) mypow noeval (lit1 U16 700 100) U16 RAdd 1) 0 = Some 4464 /\
  scalar_ok mypow RAdd U16 700 100 /\
  lane (var_reduce (fun _ _ _ _ => 0) mypow noeval (lit1 I32 5 (2 ^ 32 - 3)) I32 RMul 1) 0 = Some (2 ^ 32 - 243) /\
  scalar_ok mypow RMul I32 5 (2 ^ 32 - 3).
Proof.
  split; [vm_compute; reflexivity|]. split; [vm_compute; intros _; split; discriminate || reflexivity|]. split; [vm_compute; reflexivity|].
  split; [intros x e E _; unfold mypow; destruct (Z.ltb_spec e 0); [lia|reflexivity]|].
  unfold pow_fits. split; [vm_compute; reflexivity|]. split; [vm_compute; reflexivity|]. vm_compute. discriminate.
Qed.
Example C19_ex_empty :
  map (fun op => lane (var_reduce (fun _ _ _ _ => 0) mypow noeval [] I16 op 0) 0) [RAdd; RMul; RMin; RMax] = [Some 0; Some 1; Some 32767; Some 32768].
Proof. vm_compute. reflexivity. Qed.
Example C19_ex_block :
  map (lane (var_block_reduce (fun _ _ _ _ => 0) true (fun _ _ => true) mypow noeval (lit1 U32 10 3) RAdd 1 4)) [0; 1; 2]
  = [Some 12; Some 12; Some 6].
Proof. vm_compute. reflexivity. Qed.
Example C19_ex_prefix :
  map (lane (var_prefix (fun _ _ _ _ => 0) true false (fun _ _ => true) noeval (lit1 I16 6 5) RAdd 1 3 false true)) [0; 1; 2; 3; 4; 5]
  = [Some 15; Some 10; Some 5; Some 15; Some 10; Some 5] /\
  map (lane (var_prefix (fun _ _ _ _ => 0) false false (fun _ _ => true) noeval (lit1 I16 5 5) RAdd 1 3 true false)) [0; 1; 2; 3; 4]
  = [Some 0; Some 5; Some 10; Some 0; Some 5].
Proof. vm_compute. auto. Qed.
