(** C72: queries, reductions and rearrangements of arrays do not depend on how the arrays are stored. *)
From Verif Require Import Base Agg_Model Agg_Spec Agg_Steps.
Local Open Scope N_scope.

Theorem C72_histories : forall ar workers ideal l, 0 < ideal -> legals ar workers ideal empty [] l ->
  exists s, run ar workers ideal empty l = Some (s, snd (specs ar [] l)) /\ Forall2 (holds ar s) (s_vars s) (fst (specs ar [] l)).
Proof. intros ar workers ideal l H. exact (histories ar workers ideal H l). Qed.
Print Assumptions C72_histories.

Theorem C72_evaluated : forall ar workers ideal l i g, 0 < ideal -> legals ar workers ideal empty [] l ->
  nth_error (fst (specs ar [] l)) i = Some g -> g_def g = true ->
  exists s s' v, run ar workers ideal empty l = Some (s, snd (specs ar [] l)) /\ step ar workers ideal s (CEval i) = Ok s' REmpty /\
    nth_error (s_vars s') i = Some v /\ reads s' v g.
Proof. intros ar workers ideal l i g H. exact (evaluated ar workers ideal H l i g). Qed.
Print Assumptions C72_evaluated.

(** ** An instance of the arithmetic *)
Definition za : arith := {|
  red := fun o _ x y => match o with Add => x + y | Mul => x * y | Min => Z.min x y | Max => Z.max x y | And => Z.land x y | Or => Z.lor x y end%Z;
  idn := fun o _ => match o with Mul => 1 | And => -1 | _ => 0 end%Z;
  rep := fun o _ n x => match o with Add => Z.of_N n * x | Mul => x ^ Z.of_N n | _ => x end%Z;
  fma := fun x y z => (x * y + z)%Z;
  can := fun o t => match o with Add => true | _ => false end;
  bytes := fun t => match t with TBool => 1 | _ => 4 end |}.
Lemma za_add t : laws za Add t.
Proof.
  constructor; [cbn; intros; lia|cbn; intros; lia|cbn; intros; lia|]. intros n x _.
  assert (HT : forall k, total za Add t (repeat x k) = (Z.of_nat k * x)%Z) by (induction k as [|k IH]; [cbn; lia|]; change (total za Add t (repeat x (S k))) with (x + total za Add t (repeat x k))%Z; rewrite IH; lia).
  rewrite HT. cbn [rep za]. f_equal. lia.
Qed.
Lemma za_fma : exact_fma za.
Proof. intros x y z. split; reflexivity. Qed.
Lemma total_ones n : total za Add TFlt (map (fun _ => 1%Z) (upto n)) = Z.of_N n.
Proof.
  assert (H : forall l : list N, total za Add TFlt (map (fun _ => 1%Z) l) = Z.of_nat (length l)) by (induction l as [|a l IH]; [reflexivity|]; change (total za Add TFlt (map (fun _ => 1%Z) (a :: l))) with (1 + total za Add TFlt (map (fun _ => 1%Z) l))%Z; rewrite IH; cbn [length]; lia).
  rewrite H. unfold upto. rewrite map_length, seq_length. lia.
Qed.

(** What a caller sees *)
Definition shown (l : list call) : option (list (list Z) * list res) :=
  match run za 2 16384 empty l with
  | Some (s, r) => Some (map (fun v => map (content za s v) (upto (v_size v))) (s_vars s), r)
  | None => None
  end.
Definition three (l : N) : Z := nth (N.to_nat l) [3; 1; 2; 0; 4]%Z 0%Z.

(** The same array as expression, in memory, with scatters that were not executed yet, and as part
    of a larger one *)
Example C72_stored :
  option_map snd (shown [CExpr TInt three 5; CReduce Add 0; CReverse 0; CBlockReduce Add 0 2 Symbolic]) =
    Some [RVar 0; RVar 1; RVar 2; RVar 3] /\
  option_map (skipn 1) (option_map fst (shown [CExpr TInt three 5; CReduce Add 0; CReverse 0; CBlockReduce Add 0 2 Symbolic])) =
    Some [[10]; [4; 0; 2; 1; 3]; [4; 2; 4]]%Z /\
  option_map (skipn 1) (option_map fst (shown [CExpr TInt three 5; CEval 0; CReduce Add 0; CReverse 0; CBlockReduce Add 0 2 Auto])) =
    Some [[10]; [4; 0; 2; 1; 3]; [4; 2; 4]]%Z /\
  option_map (skipn 1) (option_map fst (shown [CLit TInt 9 5; CScatter 0 5 (fun l => l) three; CReduce Add 0; CReverse 0; CBlockReduce Add 0 2 Auto])) =
    Some [[10]; [4; 0; 2; 1; 3]; [4; 2; 4]]%Z /\
  option_map (skipn 2) (option_map fst (shown [CExpr TInt three 7; CShrink 0 5; CReduce Add 1; CReverse 1; CBlockReduce Add 1 2 Symbolic])) =
    Some [[10]; [4; 0; 2; 1; 3]; [4; 2; 4]]%Z.
Proof. repeat split; vm_compute; reflexivity. Qed.

(** Masks, dot products, copies *)
Example C72_masks :
  shown [CExpr TBool (fun l => if l =? 4 then 1%Z else 0%Z) 6; CQuery Or 0; CQuery And 0; CCompress 0; CQueryAsync Or 0; CQueryAsync And 0] =
    Some ([[0; 0; 0; 0; 1; 0]; [4]; [1]; [0]]%Z, [RVar 0; RBool true; RBool false; RVar 1; RVar 2; RVar 3]) /\
  shown [CMap TFlt 3 three; CExpr TFlt three 3; CDot 0 1; CTile 0 2; CRepeat 0 2 5; CLit TFlt 2 1; CDot 0 5] =
    Some ([[3; 1; 2]; [3; 1; 2]; [14]; [3; 1; 2; 3; 1; 2]; [3; 3; 1; 1; 2]; [2]; [12]]%Z, [RVar 0; RVar 1; RVar 2; RVar 3; RVar 4; RVar 5; RVar 6]).
Proof. repeat split; vm_compute; reflexivity. Qed.

(** The conditions can be met *)
Example C72_conditions :
  legals za 2 16384 empty []
    [CExpr TBool (fun l => if l =? 4 then 1%Z else 0%Z) 6; CQuery And 0; CCompress 0; CLit TInt 9 5; CScatter 2 5 (fun l => l) three;
     CReduce Add 2; CBlockReduce Add 2 2 Auto; CReverse 2; CTile 2 3] /\
  legals za 2 16384 empty [] [CMap TFlt 3 three; CExpr TFlt three 3; CDot 0 1; CShrink 0 2].
Proof.
  assert (M : forall n, (0 <? n) && (n <? 2 ^ 32) = true -> made n)
    by (intros n H; apply andb_true_iff in H; rewrite !N.ltb_lt in H; exact H).
  split.
  - cbn [legals].
    split; [apply M; reflexivity|intros ? ? _].
    split; [eexists _, _; split; [reflexivity|]; split; [reflexivity|]; split; [auto|]; intros _; split; auto;
      split; [intros l _; cbn; destruct (l =? 4); auto|]; split; [cbn; lia|auto]|intros ? ? _].
    split; [eexists _, _; split; [reflexivity|]; split; [reflexivity|]; cbn; split; [auto|lia]|intros ? ? _].
    split; [apply M; reflexivity|intros ? ? _].
    split; [eexists _, _; split; [reflexivity|]; split; [reflexivity|]; cbn; auto|intros ? ? _].
    split; [eexists _, _; split; [reflexivity|]; split; [reflexivity|]; split; [reflexivity|apply za_add]|intros ? ? _].
    split; [eexists _, _; split; [reflexivity|]; split; [reflexivity|]; split; [reflexivity|]; cbn; intros _; split; [lia|]; split; [lia|]; split; [apply za_add|discriminate]|intros ? ? _].
    split; [eexists _, _; split; [reflexivity|]; split; [reflexivity|]; exact Logic.I|intros ? ? _].
    split; [eexists _, _; split; [reflexivity|]; split; [reflexivity|]; cbn; lia|intros ? ? _]. exact Logic.I.
  - cbn [legals].
    split; [apply M; reflexivity|intros s1 x1 E1; cbn [step] in E1; unfold mem_map, ret, new in E1; cbn in E1; injection E1 as <- <-].
    split; [apply M; reflexivity|intros s2 x2 E2; cbn in E2; injection E2 as <- <-].
    split; [|intros s3 x3 E3].
    + eexists _, _. split; [reflexivity|]. split; [reflexivity|]. split; [reflexivity|]. split; [reflexivity|]. split; [intros _; apply za_add|].
      split; [intros _; exact za_fma|]. split; [cbn; lia|]. intros (_ & _ & [(_ & (v & V & C))|((v & V & C) & _)]); cbn in V; injection V as <-; discriminate C.
    + assert (D3 : exists v, nth_error (s_vars s3) 0 = Some v /\ negb (v_dirty v) = true).
      { cbn in E3. destruct (reduce_dot za 2 16384 _ _ 3) as [z|]; [|discriminate]. cbn in E3. injection E3 as <- <-. eexists. split; reflexivity. }
      split; [|intros ? ? _; exact Logic.I]. eexists _, _. split; [reflexivity|]. split; [reflexivity|]. split; [reflexivity|]. exact D3.
Qed.

(** ** What the conditions exclude *)
(** A query of a view whose size is not a multiple of four writes into the array behind it *)
Theorem C72_view_refuted : exists l i s r v g k, run za 2 16384 empty l = Some (s, r) /\ r = snd (specs za [] l) /\
  nth_error (s_vars s) i = Some v /\ nth_error (fst (specs za [] l)) i = Some g /\ g_def g = true /\ k < g_size g /\
  content za s v k <> g_val g k.
Proof.
  exists [CExpr TBool (fun l => if l <? 5 then 1%Z else 0%Z) 8; CShrink 0 5; CQuery And 1], 0%nat.
  do 3 eexists. exists (arr TBool 8 (fun l => if l <? 5 then 1%Z else 0%Z) true true), 6.
  split; [vm_compute; reflexivity|]. split; [reflexivity|]. split; [reflexivity|]. split; [reflexivity|]. split; [reflexivity|].
  split; [reflexivity|]. vm_compute. discriminate.
Qed.
Print Assumptions C72_view_refuted.

(** Queries of memory of the caller, of very large arrays, and of undefined arrays *)
Theorem C72_query_refuted :
  (exists l d, l = [CMap TBool 5 d; CQuery And 0] /\ run za 2 16384 empty l = None) /\
  (exists n, made n /\ run za 2 16384 empty [CExpr TBool (fun _ => 1%Z) n; CQuery And 0] = None) /\
  run za 2 16384 empty [CUndef TBool 4; CQuery Or 0] = None.
Proof.
  split; [exists [CMap TBool 5 (fun _ => 1%Z); CQuery And 0], (fun _ => 1%Z); split; [reflexivity|vm_compute; reflexivity]|].
  split; [exists (2 ^ 32 - 2); split; [unfold made; lia|vm_compute; reflexivity]|vm_compute; reflexivity].
Qed.
Print Assumptions C72_query_refuted.

(** The bits of a constant are taken for a pointer *)
Theorem C72_dot_constant_refuted : exists t n d x,
  run za 2 16384 empty [CMap t n d; CLit t x n; CDot 0 1] = None /\
  (exists s r, run za 2 16384 empty [CExpr t d n; CLit t x n; CDot 0 1] = Some (s, r) /\ r = [RVar 0; RVar 1; RVar 2]%nat).
Proof.
  exists TFlt, 2, three, 1%Z. split; [vm_compute; reflexivity|]. do 2 eexists. split; [vm_compute; reflexivity|reflexivity].
Qed.
Print Assumptions C72_dot_constant_refuted.

(** Of very large arrays only the first block is summed *)
Theorem C72_dot_size_refuted : exists n x, reduce_dot za 2 16384 (fun _ => 1%Z) (fun _ => 1%Z) n = Some x /\ made n /\
  x <> total za Add TFlt (products za (arr TFlt n (fun _ => 1%Z) true false) (arr TFlt n (fun _ => 1%Z) true false) n).
Proof.
  exists (2 ^ 32 - 1), 16384%Z. split; [vm_compute; reflexivity|]. split; [unfold made; lia|].
  change (products za _ _ _) with (map (fun _ : N => 1%Z) (upto (2 ^ 32 - 1))). rewrite total_ones. vm_compute. discriminate.
Qed.
Print Assumptions C72_dot_size_refuted.

(** A block larger than the array: one block for constants and expressions, an error in memory *)
Theorem C72_block_refuted : exists x n bs,
  option_map snd (run za 2 16384 empty [CLit TInt x n; CBlockReduce Add 0 bs Auto]) = Some [RVar 0; RVar 1]%nat /\
  option_map snd (run za 2 16384 empty [CExpr TInt (fun _ => x) n; CBlockReduce Add 0 bs Symbolic]) = Some [RVar 0; RVar 1]%nat /\
  option_map snd (run za 2 16384 empty [CMap TInt n (fun _ => x); CBlockReduce Add 0 bs Auto]) = Some [RVar 0; RErr]%nat.
Proof. exists 5%Z, 2, 4. repeat split; vm_compute; reflexivity. Qed.
Print Assumptions C72_block_refuted.

(** A view of an array with scatters that were not executed shows the old values *)
Theorem C72_dirty_refuted : exists l i g s r v, run za 2 16384 empty (l ++ [CEval i]) = Some (s, r) /\
  nth_error (fst (specs za [] l)) i = Some g /\ g_def g = true /\ nth_error (s_vars s) i = Some v /\ ~ reads s v g.
Proof.
  exists [CLit TInt 9 4; CScatter 0 4 (fun l => l) (fun _ => 7%Z); CShrink 0 2], 1%nat.
  eexists. do 3 eexists. split; [cbn; reflexivity|]. split; [cbn; reflexivity|]. split; [reflexivity|]. split; [cbn; reflexivity|].
  intros H. specialize (H 0 eq_refl). vm_compute in H. discriminate.
Qed.
Print Assumptions C72_dirty_refuted.
