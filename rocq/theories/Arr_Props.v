(** Property C49: array variables are values. *)

From Verif Require Import Base Arr_Model Arr_Spec Arr_Proofs Arr_State Arr_Run Arr_Api.

(** What [jit_array_write] returns is the target with one entry replaced; all
    arrays that exist keep their value. *)
Theorem C49_write : forall calls t a o v m t' r l vm vo vv,
  api_all [] calls = Some t -> eval_use [] calls ->
  api t (CWrite a o v m) = Some (t', r) ->
  val_of t a = VArr l -> val_of t m = VNum vm -> val_of t o = VNum vo -> val_of t v = VNum vv ->
  val_of t' r = write_val l vm vo vv /\
  (forall i, (i < length t)%nat -> val_of t' i = val_of t i).
Proof. exact api_write. Qed.

(** What [jit_array_read] returns is the entry, and zero where the mask is
    not set.  Partial: outside of symbolic regions only where the mask is set
    (see [C49_masked_read_refuted]). *)
Theorem C49_read_partial : forall calls t sym a o m t' r l vm vo,
  api_all [] calls = Some t -> eval_use [] calls ->
  api t (CRead sym a o m) = Some (t', r) ->
  val_of t a = VArr l -> val_of t m = VNum (Some vm) -> val_of t o = VNum vo ->
  vm <> 0%Z \/ sym = true -> read_val l (Some vm) vo <> VBad ->
  val_of t' r = read_val l (Some vm) vo /\
  (forall i, (i < length t)%nat -> val_of t' i = val_of t i).
Proof. exact api_read. Qed.

(** The kernel, with all copies elided that the state machine elides, stores
    the values of the variables: for every program, every schedule, every set
    of outputs, all states left behind by earlier kernels and all contents of
    the buffers.  Partial: [init_use] and [eval_use] are needed (see the two
    theorems after this one), and loops and conditionals are left out. *)
Theorem C49_kernel_partial : forall calls t outs order st0 mem0 ev0,
  api_all [] calls = Some t -> eval_use [] calls ->
  schedule t order -> init_use t outs order ->
  (forall i, In i order -> val_of t i <> VBad) ->
  (forall i n, outs i = true -> nth_error t i = Some n ->
     match n with NArray _ (Some _) => False | _ => True end) ->
  (forall i d, In i order -> nth_error t i = Some (NEvald d) -> st0 i <> Invalid) ->
  (forall i len, In i order -> nth_error t i = Some (NArray len None) ->
     length (mem0 i) = len) ->
  exists k, kernel t outs order st0 mem0 ev0 = Some k /\
    (forall i l, In (i, l) (k_outa k) -> outs i = true /\ In i order /\ arr_ok (val_of t i) l) /\
    (forall i z, In (i, z) (k_outs k) -> outs i = true /\ In i order /\ num_ok (val_of t i) z) /\
    (forall i s, In i order -> outs i = true -> val_of t i = VArr s ->
       exists l, In (i, l) (k_outa k)) /\
    (forall i z, In i order -> outs i = true -> val_of t i = VNum z ->
       exists y, In (i, y) (k_outs k)).
Proof. exact kernel_values. Qed.

(** Two writes to one array made by [jit_array_init]: the second write is seen
    through the first one.  Variables: 6 is the initialized array (7, 7), 8 and
    10 are the arrays (5, 7) and (6, 7); 11 and 12 read entry 0 of them. *)
Definition init_calls : list call :=
  [CLit 0; CLit 1; CLit 5; CLit 6; CLit 7; CCreate 2; CInit 5 4;
   CWrite 6 0 2 1; CWrite 6 0 3 1; CRead false 8 0 1; CRead false 10 0 1].

Definition init_order : list nat := [5; 7; 9; 0; 1; 2; 3; 4; 6; 8; 10; 11; 12]%nat.

Ltac schedule_tac a b :=
  split; [|split];
  [ repeat (constructor; [cbn; intuition discriminate|]); constructor
  | let l1 := fresh "l1" in let i := fresh "i" in
    intros l1 i l2 n j EO EN IJ;
    do 16 (try (destruct l1 as [|? l1]; [cbn in EO; injection EO as <- <-; cbn in EN;
       injection EN as <-; cbn in IJ; cbn; intuition|
       cbn in EO; first [discriminate EO | injection EO as <- EO]]));
    destruct l1; discriminate
  | exists a, b; split; [reflexivity|]; split;
    repeat (constructor; [eexists; split; [reflexivity|exact I]|]); constructor ].

Theorem C49_init_refuted :
  exists calls t outs order k,
    api_all [] calls = Some t /\ eval_use [] calls /\ schedule t order /\
    (forall i, In i order -> val_of t i <> VBad) /\
    kernel t outs order (fun _ => Clean) (fun _ => [0; 0]%Z) (fun _ => 0%Z) = Some k /\
    exists i z y, In (i, z) (k_outs k) /\ val_of t i = VNum (Some y) /\ z <> y.
Proof.
  exists init_calls. eexists.
  exists (fun i => (11 <=? i)%nat), init_order. eexists.
  split; [vm_compute; reflexivity|].
  split; [vm_compute; repeat split|].
  split; [schedule_tac [5; 7; 9]%nat [0; 1; 2; 3; 4; 6; 8; 10; 11; 12]%nat|].
  split.
  { intros i H. unfold init_order in H. cbn in H.
    repeat (destruct H as [<-|H]; [vm_compute; discriminate|]). contradiction. }
  split; [vm_compute; reflexivity|].
  exists 11%nat, 6%Z, 5%Z. split; [cbn; auto|]. split; [vm_compute; reflexivity|discriminate].
Qed.

(** Two writes to an array, which is then evaluated before they are: the same.
    Variable 7 is (7, _), 9 and 11 are written from it. *)
Definition eval_calls : list call :=
  [CLit 0; CLit 1; CLit 5; CLit 6; CLit 7; CCreate 2; CWrite 5 0 4 1;
   CWrite 7 0 2 1; CWrite 7 0 3 1; CRead false 9 0 1; CRead false 11 0 1;
   CEval 7 [7; 0]%Z].

Definition eval_order : list nat := [7; 5; 6; 8; 10; 0; 1; 2; 3; 9; 11; 12; 13]%nat.

Theorem C49_eval_refuted :
  exists calls t outs order k,
    api_all [] calls = Some t /\ schedule t order /\ init_use t outs order /\
    (forall i, In i order -> val_of t i <> VBad) /\
    kernel t outs order (fun _ => Clean) (fun _ => [0; 0]%Z) (fun _ => 0%Z) = Some k /\
    exists i z y, In (i, z) (k_outs k) /\ val_of t i = VNum (Some y) /\ z <> y.
Proof.
  exists eval_calls. eexists.
  exists (fun i => (12 <=? i)%nat), eval_order. eexists.
  split; [vm_compute; reflexivity|].
  split; [schedule_tac [7; 5; 6; 8; 10]%nat [0; 1; 2; 3; 9; 11; 12; 13]%nat|].
  split.
  { intros i len a v H E. unfold eval_order in H. cbn in H.
    repeat (destruct H as [<-|H]; [discriminate E|]). contradiction. }
  split.
  { intros i H. unfold eval_order in H. cbn in H.
    repeat (destruct H as [<-|H]; [vm_compute; discriminate|]). contradiction. }
  split; [vm_compute; reflexivity|].
  exists 12%nat, 6%Z, 5%Z. split; [cbn; auto|]. split; [vm_compute; reflexivity|discriminate].
Qed.

(** A masked read from an initialized array gives the initial value, not
    zero: the mask is dropped. *)
Theorem C49_masked_read_refuted :
  exists calls t a o m t' r l vo,
    api_all [] calls = Some t /\ api t (CRead false a o m) = Some (t', r) /\
    val_of t a = VArr l /\ val_of t m = VNum (Some 0%Z) /\ val_of t o = VNum (Some vo) /\
    read_val l (Some 0%Z) (Some vo) = VNum (Some 0%Z) /\
    val_of t' r = VNum (Some 7%Z).
Proof.
  exists [CLit 0; CLit 7; CScal [] (fun _ => 0%Z); CCreate 2; CInit 3 1].
  eexists. exists 4%nat, 0%nat, 2%nat. do 4 eexists.
  repeat (split; [vm_compute; reflexivity|]). vm_compute. reflexivity.
Qed.

(** ** Examples *)

(** Two versions of one array, both used afterwards (tests/array.cpp,
    05_conflict): both writes are done in copies. *)
Definition ex_calls : list call :=
  [CLit 0; CLit 1; CLit 5; CLit 6; CLit 7; CCreate 2; CWrite 5 0 4 1;
   CWrite 7 0 2 1; CWrite 7 1 3 1; CRead false 9 0 1; CRead false 11 0 1;
   CRead false 7 0 1].

Definition ex_order : list nat := [5; 6; 8; 10; 0; 1; 2; 3; 4; 7; 9; 11; 12; 13; 14]%nat.

Definition ex_outs (i : nat) : bool := ((9 <=? i) && negb (i =? 10))%nat.

Definition ex_table : table :=
  match api_all [] ex_calls with Some t => t | None => [] end.

Example C49_ex_schedule : schedule ex_table ex_order.
Proof. schedule_tac [5; 6; 8; 10]%nat [0; 1; 2; 3; 4; 7; 9; 11; 12; 13; 14]%nat. Qed.

Example C49_ex_hyps : eval_use [] ex_calls /\ init_use ex_table ex_outs ex_order.
Proof.
  split; [vm_compute; repeat split|].
  intros i len a v H E. unfold ex_order in H. cbn in H.
  repeat (destruct H as [<-|H]; [discriminate E|]). contradiction.
Qed.

Example C49_ex_values : map (val_of ex_table) [7; 9; 11; 12; 13; 14]%nat =
  [VArr [Some 7; None]; VArr [Some 5; None]; VArr [Some 7; Some 6];
   VNum (Some 5); VNum (Some 7); VNum (Some 7)]%Z.
Proof. vm_compute. reflexivity. Qed.

Example C49_ex_run :
  option_map (fun k => (k_outs k, k_outa k, k_reg k 7, k_reg k 9, k_reg k 11)%nat)
    (kernel ex_table ex_outs ex_order (fun _ => Invalid)
       (fun _ => [3; 4]%Z) (fun _ => 0%Z))
  = Some ([(12, 5%Z); (13, 7%Z); (14, 7%Z)], [(9, [5; 4]%Z); (11, [7; 6]%Z)],
          5, 8, 10)%nat.
Proof. vm_compute. reflexivity. Qed.

(** A chain of writes stays in one buffer, also after [jit_array_init]. *)
Example C49_ex_chain :
  match api_all [] [CLit 0; CLit 1; CLit 5; CLit 6; CLit 7; CCreate 2; CInit 5 4;
                    CWrite 6 0 2 1; CWrite 8 1 3 1; CRead false 10 0 1] with
  | Some t =>
      option_map (fun k => (k_outs k, k_reg k 6, k_reg k 8, k_reg k 10)%nat)
        (kernel t (fun i => (11 <=? i)%nat) [5; 7; 9; 0; 1; 2; 3; 4; 6; 8; 10; 11]%nat
           (fun _ => Invalid) (fun _ => [3; 4]%Z) (fun _ => 0%Z))
  | None => None
  end = Some ([(11, 5%Z)], 5, 5, 5)%nat.
Proof. vm_compute. reflexivity. Qed.

Print Assumptions C49_write.
Print Assumptions C49_read_partial.
Print Assumptions C49_kernel_partial.
Print Assumptions C49_init_refuted.
Print Assumptions C49_eval_refuted.
Print Assumptions C49_masked_read_refuted.
