(** C65: a virtual function call returns in every lane what the callee selected by that lane
    computes. *)
From Verif Require Import Base Lay_Model Lay_Spec Vcl_Model Vcl_Spec Vcl_Gen Vcl_Lane Vcl_Vec Vcl_Calls Vcl_Table Vcl_Out.
Local Open Scope N_scope.

(** Code is generated for every well-formed program. *)
Theorem C65_generates : forall llvm alignment cap (bk : N -> N) (data : N -> list N) cs,
  backend_ok llvm alignment cap -> (forall v, bk v < 8 /\ N.of_nat (length (data v)) = bsize (bk v)) ->
  Forall (fun c => cost (caps_of bk c) + 128 < 2 ^ 32) cs -> calls_wf cs ->
  exists is, build llvm alignment cap bk 0 cs = Some is /\
    forall e, wf cs 0 0 e -> exists t, gen is 0 (fun c => Some (TVar c)) e = Some t.
Proof. exact generates. Qed.
Print Assumptions C65_generates.

(** Every active lane of a vector (LLVM) or the thread (CUDA) obtains the value that the
    specification assigns to it: nested calls, captured variables, arguments that are not
    passed, outputs that are not returned and merged callables included. *)
Theorem C65_values : forall llvm alignment cap bk data opsem cs is hash mem0 lanes vars active e t fuel,
  build llvm alignment cap bk 0 cs = Some is -> gen is 0 (fun c => Some (TVar c)) e = Some t ->
  calls_wf cs -> wf cs 0 0 e -> sizes_ok llvm alignment cap bk data cs is -> live_ok cs is t ->
  hash_ok hash is -> (llvm = false -> exists l, lanes = [l]) ->
  (forall l, In l lanes -> active l = true -> exists y,
     val opsem (callee opsem cs (fun v => number (data v)) fuel) {| a_in := fun _ => None; a_self := 0; a_var := fun v => vars v l |} e = Some y) ->
  exists f, execute llvm alignment cap bk hash true data opsem lanes cs mem0 vars active e = Some f /\
    forall l, In l lanes -> active l = true ->
      val opsem (callee opsem cs (fun v => number (data v)) fuel) {| a_in := fun _ => None; a_self := 0; a_var := fun v => vars v l |} e = Some (f l).
Proof. exact values_merge. Qed.
Print Assumptions C65_values.
(** Without MergeFunctions: if no call has a single instance. *)
Theorem C65_values_nomerge : forall llvm alignment cap bk data opsem cs is hash mem0 lanes vars active e t fuel,
  build llvm alignment cap bk 0 cs = Some is -> gen is 0 (fun c => Some (TVar c)) e = Some t ->
  calls_wf cs -> wf cs 0 0 e -> sizes_ok llvm alignment cap bk data cs is -> live_ok cs is t ->
  Forall (fun c => n_inst c <> 1%nat) cs -> (llvm = false -> exists l, lanes = [l]) ->
  (forall l, In l lanes -> active l = true -> exists y,
     val opsem (callee opsem cs (fun v => number (data v)) fuel) {| a_in := fun _ => None; a_self := 0; a_var := fun v => vars v l |} e = Some y) ->
  exists f, execute llvm alignment cap bk hash false data opsem lanes cs mem0 vars active e = Some f /\
    forall l, In l lanes -> active l = true ->
      val opsem (callee opsem cs (fun v => number (data v)) fuel) {| a_in := fun _ => None; a_self := 0; a_var := fun v => vars v l |} e = Some (f l).
Proof. exact values_nomerge. Qed.
Print Assumptions C65_values_nomerge.

(** The dispatch loop of LLVM makes each lane with a callable take part in exactly one
    execution of exactly that callable, together with the other lanes that selected it; the
    remaining lanes take part in none.  Side effects happen once. *)
Theorem C65_once : forall lanes idx l, NoDup lanes -> In l lanes ->
  filter (fun x => existsb (Nat.eqb l) (snd x)) (trace lanes (length lanes) idx) =
  if idx l =? 0 then [] else [(idx l, filter (fun l' => idx l' =? idx l) lanes)].
Proof. exact once_each. Qed.
Print Assumptions C65_once.

(** An output that is the same literal in all instances is replaced by that literal, with the
    same value in every lane. *)
Theorem C65_devirtualized : forall opsem cs scalar fuel same j c o self mask args x y,
  nth_error cs j = Some c ->
  val opsem (callee opsem cs scalar fuel) x (ECall j o self mask args) = Some y ->
  val opsem (callee opsem cs scalar fuel) x (call_out same j c o self mask args) = Some y.
Proof. exact call_out_ok. Qed.
Print Assumptions C65_devirtualized.

(** The register of an argument is gone when the call is emitted exactly if the code of one
    of the callees contains the same variable. *)
Theorem C65_registers : forall c h, lost c h = true <-> exists i, In i (k_vars c) /\ (In h (fst i) \/ In h (snd i)).
Proof. exact lost_iff. Qed.
Print Assumptions C65_registers.

(** ** Example *)
Fixpoint code (t : text) : N :=
  match t with
  | TIn k => 1 + 16 * N.of_nat k
  | TVar c => 2 + 16 * c
  | TSlot r s => 3 + 16 * (N.of_nat s + 64 * r)
  | TSelf => 4
  | TLit x => 5 + 16 * x
  | TOp o ts => 6 + 16 * (o + 1024 * fold_right (fun t n => code t + 65536 * n) 0 ts)
  | TMasked x s m => 7 + 16 * (x + 1024 * (code s + 65536 * code m))
  | TCall j o s m ts => 8 + 16 * (N.of_nat j + 16 * (N.of_nat o + 16 * (code s + 65536 * (code m + 65536 * fold_right (fun t n => (match t with Some t => 1 + code t | None => 0 end) + 65536 * n) 0 ts))))
  end.
Definition ex_hash (f : fn) : N := fold_right (fun t n => (match t with Some t => 1 + code t | None => 0 end) + 2 ^ 300 * n) 0 f.
Definition ex_op (o : N) (l : list N) : N := if o =? 0 then fold_left N.add l 0 else 1 + fold_left N.mul l 1.
Definition ex_bk (v : N) : N := 1.
Definition ex_data (v : N) : list N := [v mod 256; 0; 0; 0].
(** Two instances; the second makes a nested call to a single instance; its second argument
    is only used there *)
Definition ex_call0 : vcall :=
  {| k_ids := [3; 1]; k_nin := 3; k_opt := true; k_live := fun o => Nat.ltb o 2; k_other := fun _ => false; k_refs := fun _ => false; k_vars := [([10%nat], [10%nat; 20%nat]); ([], [21%nat])];
     k_outs := [[EOp 0 [EIn 0; EVar 10]; ELit 5; EIn 2]; [ECall 1 0 (EIn 1) (ELit 1) [(30%nat, EIn 0)]; EVar 11; EVar 12]] |}.
Definition ex_call1 : vcall :=
  {| k_ids := [2]; k_nin := 1; k_opt := true; k_live := fun _ => true; k_other := fun _ => false; k_refs := fun _ => false; k_vars := [([], [])];
     k_outs := [[EOp 1 [EIn 0; EVar 12; ESelf]]] |}.
Definition ex_args : list (nat * expr) := [(1%nat, EVar 3); (2%nat, EVar 4); (3%nat, EVar 5)].
Definition ex_e : expr := EOp 0 [ECall 0 0 (EVar 1) (EVar 2) ex_args; ECall 0 1 (EVar 1) (EVar 2) ex_args].
Definition ex_vars (v : N) (l : nat) : N :=
  nth l (nth (N.to_nat v) [[]; [1; 3; 0; 3; 1]; [1; 1; 1; 0; 1]; [100; 200; 300; 400; 500]; [2; 9; 9; 9; 0]; [1; 1; 1; 1; 1]] []) 0.
Example C65_ex_values :
  option_map (fun f : vec => map f [0; 1; 2; 3; 4]%nat)
    (execute true 64 8 ex_bk ex_hash true ex_data ex_op [0; 1; 2; 3; 4]%nat [ex_call0; ex_call1] (fun _ => 0) ex_vars (fun _ => true) ex_e) =
    Some [1 + 100 * 12 * 2 + 11; 200 + 10 + 5; 0; 0; 0 + 11] /\
  map (fun l => option_map (fun f : vec => f l)
    (execute false 16 8 ex_bk ex_hash true ex_data ex_op [l] [ex_call0; ex_call1] (fun _ => 0) ex_vars (fun _ => true) ex_e)) [0; 1; 2; 3; 4]%nat =
    [Some 2412; Some 215; Some 0; Some 0; Some 11] /\
  map (fun l => val ex_op (callee ex_op [ex_call0; ex_call1] (fun v => number (ex_data v)) 3) {| a_in := fun _ => None; a_self := 0; a_var := fun v => ex_vars v l |} ex_e) [0; 1; 2; 3; 4]%nat =
    [Some 2412; Some 215; Some 0; Some 0; Some 11].
Proof. repeat split; vm_compute; reflexivity. Qed.
(** ... and the hypotheses of the theorem hold *)
Definition ex_is : list info := match build true 64 8 ex_bk 0 [ex_call0; ex_call1] with Some is => is | None => [] end.
Definition ex_t : text := match gen ex_is 0 (fun c => Some (TVar c)) ex_e with Some t => t | None => TSelf end.
Example C65_ex_hyps :
  calls_wf [ex_call0; ex_call1] /\ wf [ex_call0; ex_call1] 0 0 ex_e /\ sizes_ok true 64 8 ex_bk ex_data [ex_call0; ex_call1] ex_is /\
  live_ok [ex_call0; ex_call1] ex_is ex_t /\ hash_ok ex_hash ex_is /\ length (flat_map i_fns ex_is) = 3%nat.
Proof.
  assert (EF : flat_map i_fns ex_is = [[Some (TOp 0 [TIn 0; TSlot 0 4]); Some (TLit 5); None]; [Some (TCall 1 0 (TIn 1) (TLit 1) [Some (TIn 0)]); Some (TSlot 0 4); None]; [Some (TOp 1 [TIn 0; TSlot 0 4; TSelf])]]) by (vm_compute; reflexivity).
  assert (ET : ex_t = TOp 0 [TCall 0 0 (TVar 1) (TVar 2) [Some (TVar 3); Some (TVar 4); None]; TCall 0 1 (TVar 1) (TVar 2) [Some (TVar 3); Some (TVar 4); None]]) by (vm_compute; reflexivity).
  split.
  { intros j c E. destruct j as [|[|j]]; cbn [nth_error] in E; [| |destruct j; discriminate]; injection E as <-; cbn [k_outs k_ids k_nin ex_call0 ex_call1 length].
    - split; [reflexivity|]. split; [discriminate|]. split; [repeat constructor; cbn; intuition discriminate|]. split; [repeat constructor; lia|].
      repeat constructor; cbn [wf fold_right k_nin]; try lia. exists ex_call1. split; [reflexivity|]. split; [reflexivity|]. split; [repeat constructor|]. repeat constructor; cbn in *; intuition; subst; cbn in *; auto.
    - split; [reflexivity|]. split; [discriminate|]. split; [repeat constructor; cbn; intuition discriminate|]. split; [repeat constructor; lia|].
      repeat constructor; cbn [wf fold_right k_nin]; try lia. }
  split.
  { cbn [wf ex_e fold_right ex_args snd]. repeat split; auto; exists ex_call0; (split; [reflexivity|]); (split; [reflexivity|]); (split; [repeat constructor|]);
      repeat constructor; cbn in *; intuition; subst; cbn in *; intuition discriminate. }
  split.
  { split; [vm_compute; auto 6|]. split; [intros v; split; vm_compute; reflexivity|]. split; [repeat constructor|]. rewrite EF. split; [reflexivity|]. vm_compute. reflexivity. }
  split.
  { intros t' H j o c IR EC. assert (HT : t' = ex_t \/ exists f, In f (flat_map i_fns ex_is) /\ In (Some t') f).
    { destruct H as [H|(i & f & II & IF & IT)]; [auto|right; exists f; split; [apply in_flat_map; eauto|exact IT]]. }
    rewrite EF, ET in HT. destruct HT as [->|(f & IF & IT)].
    - cbn in IR. destruct IR as [E|[E|[]]]; injection E as <- <-; injection EC as <-; reflexivity.
    - cbn [In] in IF. destruct IF as [<-|[<-|[<-|[]]]]; cbn [In] in IT.
      + destruct IT as [E|[E|[E|[]]]]; inversion E; subst; destruct IR.
      + destruct IT as [E|[E|[E|[]]]]; inversion E; subst; try destruct IR. cbn in H0. injection H0 as <- <-. injection EC as <-. reflexivity. destruct H0.
      + destruct IT as [E|[]]; inversion E; subst; destruct IR. }
  split; [|rewrite EF; reflexivity].
  intros f g F G E. rewrite EF in F, G. cbn [In] in F, G. destruct F as [<-|[<-|[<-|[]]]], G as [<-|[<-|[<-|[]]]]; try reflexivity; vm_compute in E; discriminate.
Qed.
Example C65_ex_once : trace [0; 1; 2; 3; 4]%nat 5 (fun l => nth l [2; 1; 0; 1; 2] 0) = [(2, [0; 4]%nat); (1, [1; 3]%nat)].
Proof. vm_compute. reflexivity. Qed.
(** The third output is live nowhere, the third argument is not passed; an output that is a
    literal in both instances is replaced *)
Definition ex_call2 : vcall :=
  {| k_ids := [3; 1]; k_nin := 0; k_opt := true; k_live := fun _ => true; k_other := fun _ => false; k_refs := fun _ => false; k_vars := []; k_outs := [[ELit 5; EVar 1]; [ELit 5; EVar 2]] |}.
Example C65_ex_devirtualized :
  call_out true 0 ex_call2 0 (EVar 1) (EVar 2) [] = EMasked 5 (EVar 1) (EVar 2) /\ call_out true 0 ex_call2 1 (EVar 1) (EVar 2) [] = ECall 0 1 (EVar 1) (EVar 2) [].
Proof. split; reflexivity. Qed.

(** ** Exceptions *)
(** A scalar variable that is an argument and also captured by a callee: code is generated
    that reads a register that does not exist. *)
Definition sh_call (vars : list (list nat * list nat)) : vcall :=
  {| k_ids := [3; 1]; k_nin := 1; k_opt := true; k_live := fun _ => true; k_other := fun _ => false; k_refs := fun _ => false; k_vars := vars;
     k_outs := [[EOp 0 [EIn 0; EVar 10]]; [EIn 0]] |}.
Definition sh_vars (v : N) (l : nat) : N := if v =? 10 then 10 else ex_vars v l.
Theorem C65_shared_refuted : exists llvm alignment cap vars e y,
  e = ECall 0 0 (EVar 1) (EVar 2) [(10%nat, EVar 10)] /\
  val ex_op (callee ex_op [sh_call vars] (fun v => number (ex_data v)) 3) {| a_in := fun _ => None; a_self := 0; a_var := fun v => sh_vars v 0%nat |} e = Some y /\
  execute llvm alignment cap ex_bk ex_hash true ex_data ex_op [0%nat] [sh_call vars] (fun _ => 0) sh_vars (fun _ => true) e = None /\
  option_map (fun f : vec => f 0%nat) (execute llvm alignment cap ex_bk ex_hash true ex_data ex_op [0%nat] [sh_call []] (fun _ => 0) sh_vars (fun _ => true) e) = Some y.
Proof.
  exists true, 64, 8, [([10%nat], [10%nat; 11%nat]); ([], [12%nat])], (ECall 0 0 (EVar 1) (EVar 2) [(10%nat, EVar 10)]), 10.
  split; [reflexivity|]. split; [vm_compute; reflexivity|]. split; vm_compute; reflexivity.
Qed.
Print Assumptions C65_shared_refuted.
(** Without MergeFunctions, the second of two calls with a single instance runs the callee of
    the first. *)
Definition one_call (x : N) : vcall :=
  {| k_ids := [1]; k_nin := 0; k_opt := false; k_live := fun _ => true; k_other := fun _ => false; k_refs := fun _ => false; k_vars := []; k_outs := [[ELit x]] |}.
Theorem C65_nomerge_refuted : exists llvm alignment cap e y z,
  e = ECall 1 0 (EVar 1) (EVar 2) [] /\
  val ex_op (callee ex_op [one_call 5; one_call 6] (fun v => number (ex_data v)) 3) {| a_in := fun _ => None; a_self := 0; a_var := fun v => ex_vars v 0 |} e = Some y /\
  option_map (fun f : vec => f 0%nat) (execute llvm alignment cap ex_bk ex_hash false ex_data ex_op [0%nat] [one_call 5; one_call 6] (fun _ => 0) ex_vars (fun _ => true) e) = Some z /\ z <> y.
Proof.
  exists true, 64, 8, (ECall 1 0 (EVar 1) (EVar 2) []), 6, 5.
  split; [reflexivity|]. split; [vm_compute; reflexivity|]. split; [vm_compute; reflexivity|]. discriminate.
Qed.
Print Assumptions C65_nomerge_refuted.
(** CUDA: an index below the largest one that belongs to no instance runs some callable;
    LLVM: returns zero. *)
Definition two_call : vcall :=
  {| k_ids := [1; 3]; k_nin := 0; k_opt := false; k_live := fun _ => true; k_other := fun _ => false; k_refs := fun _ => false; k_vars := []; k_outs := [[ELit 5]; [ELit 6]] |}.
Theorem C65_unknown_id_refuted : exists e,
  e = ECall 0 0 (ELit 2) (ELit 1) [] /\
  option_map (fun f : vec => f 0%nat) (execute false 16 8 ex_bk ex_hash true ex_data ex_op [0%nat] [two_call] (fun _ => 0) ex_vars (fun _ => true) e) = Some 5 /\
  option_map (fun f : vec => f 0%nat) (execute true 64 8 ex_bk ex_hash true ex_data ex_op [0%nat] [two_call] (fun _ => 0) ex_vars (fun _ => true) e) = Some 0.
Proof.
  exists (ECall 0 0 (ELit 2) (ELit 1) []). split; [reflexivity|]. split; vm_compute; reflexivity.
Qed.
Print Assumptions C65_unknown_id_refuted.
