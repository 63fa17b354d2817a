(** C40: the bundled string and vector behave like sequences. *)

From Verif Require Import Base Nst_Model Nst_Spec Nst_StrRun Nst_Vec Nst_Int.

(** Every program over strings that does not assign a string to itself and does
    not pass a pointer into a string to a function that changes that string
    stays inside of its memory, and each string is the sequence that it should
    be: size(), the characters, the text at c_str() and operator==.  This covers
    arguments that are the changed string itself, as in s += s. *)
Theorem C40_string_partial : forall l, s_ok_all (fun _ => []) l ->
  exists w, srun l world0 = Some w /\
    forall i, s_get i w = Some (s_spec_all l (fun _ => []) i) /\
      s_cstr i w = Some (until0 (s_spec_all l (fun _ => []) i)) /\
      s_size (w_str w i) = length (s_spec_all l (fun _ => []) i) /\
      forall j, s_eq i j w = Some (if list_eq_dec Z.eq_dec (s_spec_all l (fun _ => []) i)
                                      (s_spec_all l (fun _ => []) j) then true else false).
Proof. exact strings_ok. Qed.
Print Assumptions C40_string_partial.

(** Copies are independent: no two strings share a block, every block has room
    for the capacity and the terminator, and no block is leaked. *)
Theorem C40_string_memory : forall l w,
  s_ok_all (fun _ => []) l -> srun l world0 = Some w ->
  (forall i j b, s_data (w_str w i) = Some b -> s_data (w_str w j) = Some b -> i = j) /\
  (forall i b, s_data (w_str w i) = Some b ->
     exists c, blk (w_heap w) b = Some c /\ length c = S (s_cap (w_str w i)) /\
       (s_size (w_str w i) <= s_cap (w_str w i))%nat) /\
  (forall b, blk (w_heap w) b <> None -> exists i, i <> 0%nat /\ s_data (w_str w i) = Some b).
Proof. exact strings_memory. Qed.
Print Assumptions C40_string_memory.

(** s = "ab"; s.put(s, "c", s); t = s; t += "d"; u = s + t; s.resize(3, '-') *)
Definition ex_prog : list sop :=
  [SAssign 1 (ALit [97; 98]%Z); SPut 1 [AStr 1; ALit [99]%Z; AStr 1]; SAssign 2 (AStr 1);
   SPut 2 [ALit [100]%Z; AFmt 20 [55]%Z]; SPlus 3 1 (AStr 2); SResize 1 3 45%Z; SIndent 1 2;
   SSwap 1 2; SMove 4 1; SPut 3 [ACstr 2 1]; SPlusMove 5 3 (ACstr 4 6);
   SPlusLeft 4 4 (AStr 4)].

Example C40_string_ex :
  s_ok_all (fun _ => []) ex_prog /\
  match srun ex_prog world0 with
  | Some w => map (fun i => s_get i w) [1; 2; 3; 4; 5]%nat =
      [Some []; Some [97; 98; 97; 32; 32]; Some [];
       Some [97; 98; 97; 98; 99; 97; 98; 100; 55; 97; 98; 97; 98; 99; 97; 98; 100; 55];
       Some [97; 98; 97; 98; 99; 97; 98; 97; 98; 97; 98; 99; 97; 98; 100; 55; 98; 97; 32; 32;
             98; 100; 55]]%Z
  | None => False
  end.
Proof.
  split; [|vm_compute; reflexivity].
  vm_compute. repeat split; try discriminate; try lia; repeat constructor; try discriminate; try lia.
Qed.

(** Assigning a string to itself: after any program, s = s makes s empty. *)
Theorem C40_self_assign_empties : forall l w d,
  s_ok_all (fun _ => []) l -> srun l world0 = Some w ->
  exists w', assign d (AStr d) w = Some w' /\ s_get d w' = Some [] /\
    forall j, j <> d -> s_get j w' = s_get j w.
Proof. exact self_assign_empties. Qed.
Print Assumptions C40_self_assign_empties.

(** So that s = s does not leave s unchanged. *)
Theorem C40_self_assign_refuted : exists w w' l,
  srun [SAssign 1 (ALit [97]%Z)] world0 = Some w /\ s_get 1 w = Some l /\
  assign 1 (AStr 1) w = Some w' /\ s_get 1 w' <> Some l.
Proof.
  destruct (srun [SAssign 1 (ALit [97]%Z)] world0) as [w|] eqn:E; [|vm_compute in E; discriminate].
  destruct (assign 1 (AStr 1) w) as [w'|] eqn:E'.
  - exists w, w', [97]%Z. split; [reflexivity|].
    vm_compute in E. injection E as <-. vm_compute in E'. injection E' as <-.
    vm_compute. repeat split. discriminate.
  - vm_compute in E. injection E as <-. vm_compute in E'. discriminate.
Qed.
Print Assumptions C40_self_assign_refuted.

(** s.put(s.c_str() + k) reads freed memory whenever s has to grow. *)
Theorem C40_pointer_append : forall l w d k,
  s_ok_all (fun _ => []) l -> srun l world0 = Some w ->
  (k < length (s_spec_all l (fun _ => []) d))%nat ->
  until0 (skipn k (s_spec_all l (fun _ => []) d)) <> [] ->
  (s_cap (w_str w d) < s_size (w_str w d) +
     length (until0 (skipn k (s_spec_all l (fun _ => []) d))))%nat ->
  put d [ACstr d k] w = None.
Proof. exact ptr_append_undefined. Qed.
Print Assumptions C40_pointer_append.

Theorem C40_pointer_append_refuted : exists l g,
  srun l world0 <> None /\ g = s_spec_all l (fun _ => []) /\ arg_ok g (ACstr 1 0) /\
  srun (l ++ [SPut 1 [ACstr 1 0]]) world0 = None.
Proof.
  exists [SAssign 1 (ALit [97; 98]%Z)]. eexists. split; [vm_compute; discriminate|].
  split; [reflexivity|]. split; [vm_compute; split; [discriminate|lia]|]. vm_compute. reflexivity.
Qed.
Print Assumptions C40_pointer_append_refuted.

(** Every program over vectors that does not append an element of a vector to
    that vector stays inside of its memory and computes the sequences; blocks
    are not shared and not leaked. *)
Theorem C40_vector_partial : forall l g, Forall v_ok l -> v_spec_all l (fun _ => []) = Some g ->
  exists w, vrun l vworld0 = Some w /\
    (forall i, v_get i w = Some (g i) /\ v_size (vw_vec w i) = length (g i) /\
       (length (g i) <= v_cap (vw_vec w i))%nat) /\
    (forall i j b, v_data (vw_vec w i) = Some b -> v_data (vw_vec w j) = Some b -> i = j) /\
    (forall b, blk (vw_heap w) b <> None -> exists i, v_data (vw_vec w i) = Some b).
Proof. exact vectors_ok. Qed.
Print Assumptions C40_vector_partial.

Definition ex_vprog : list vop :=
  [VPush 1 (VConst 5); VPush 1 (VConst 6); VPush 1 (VConst 7); VAssign 2 1; VPush 2 (VElem 1 1);
   VSet 1 0 (VConst 9); VResize 1 5 (VElem 1 0); VPop 2; VAssign 2 2; VSwap 1 2; VMove 3 1;
   VReserve 3 10; VResize 2 2 (VConst 0)]%Z.

Example C40_vector_ex :
  Forall v_ok ex_vprog /\
  match v_spec_all ex_vprog (fun _ => []), vrun ex_vprog vworld0 with
  | Some g, Some w => map g [1; 2; 3]%nat = [[]; [9; 6]; [5; 6; 7]]%Z /\
                      map (fun i => v_get i w) [1; 2; 3]%nat = map Some (map g [1; 2; 3]%nat)
  | _, _ => False
  end.
Proof.
  split; [|vm_compute; auto]. repeat constructor. discriminate.
Qed.

(** push_back(v[i]) appends a copy of element i if there is room, and reads
    freed memory if the storage is full. *)
Theorem C40_push_own : forall l g w d i,
  Forall v_ok l -> v_spec_all l (fun _ => []) = Some g ->
  vrun l vworld0 = Some w -> (i < length (g d))%nat ->
  if (v_size (vw_vec w d) <? v_cap (vw_vec w d))%nat
  then exists w', vpush d (VElem d i) w = Some w' /\
         v_get d w' = Some (g d ++ [nth i (g d) 0%Z]) /\
         forall j, j <> d -> v_get j w' = Some (g j)
  else vpush d (VElem d i) w = None.
Proof. exact push_own_ok. Qed.
Print Assumptions C40_push_own.

Theorem C40_push_own_refuted : exists l g,
  v_spec_all l (fun _ => []) = Some g /\ g 1%nat = [5; 5]%Z /\ vrun l vworld0 = None.
Proof.
  exists [VPush 1 (VConst 5); VPush 1 (VElem 1 0)]%Z. eexists.
  split; [reflexivity|]. split; vm_compute; reflexivity.
Qed.
Print Assumptions C40_push_own_refuted.

(** Numbers: the buffer has room for every value, and the text denotes it.  The
    negation of the most negative int and long overflows. *)
Theorem C40_number_partial : forall sgn bytes v,
  In bytes [1; 2; 4; 8]%Z -> int_range sgn bytes v ->
  ~ (sgn = true /\ (4 <= bytes)%Z /\ v = - 2 ^ (8 * bytes - 1))%Z ->
  exists t, int_text sgn bytes v = Some t /\ (Z.of_nat (length t) <= max_size sgn bytes)%Z /\
    (if (v <? 0)%Z then exists ds, t = 45%Z :: ds /\ numeral ds (- v) else numeral t v).
Proof. exact int_text_ok. Qed.
Print Assumptions C40_number_partial.

Example C40_number_ex :
  int_text true 1 (-128) = Some [45; 49; 50; 56]%Z /\
  int_text false 8 18446744073709551615 =
    Some [49; 56; 52; 52; 54; 55; 52; 52; 48; 55; 51; 55; 48; 57; 53; 53; 49; 54; 49; 53]%Z /\
  int_text true 4 0 = Some [48]%Z.
Proof. vm_compute. auto. Qed.

Theorem C40_number_refuted : exists v, int_range true 4 v /\ int_text true 4 v = None.
Proof. exists (-2147483648)%Z. split; [vm_compute; split; [discriminate|reflexivity]|vm_compute; reflexivity]. Qed.
Print Assumptions C40_number_refuted.
