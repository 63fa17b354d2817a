(** C17, C18: block reductions and prefix reductions. *)
From Verif Require Import Base Arith_Model Arith_Proofs Par_Model Par_Proofs Red_Model Red_Spec
  Red_Plan Red_Proofs Red_Scan Red_Laws.
Local Open Scope N_scope.

(** Element sizes. *)
Definition elem_size (n : N) : Prop := n = 1 \/ n = 2 \/ n = 4 \/ n = 8.
(** Thread count and jitc_llvm_block_size. *)
Definition machine (workers ideal : N) : Prop :=
  1 <= workers < 2 ^ 32 /\ 16 <= ideal <= 2 ^ 31.

Lemma fuel_11 bs : bs < 2 ^ 32 -> bs < 8 ^ N.of_nat 12.
Proof. intros H. eapply N.lt_trans; [exact H|]. reflexivity. Qed.

(** Any element type and operation, also floating point: every block's output is
    obtained by combining exactly the block's elements in order, in some bracketing;
    nothing else is written; no execution fails. *)
Theorem C17_block_reduce_partial :
  forall (T Value : Type) (up : T -> Value) (down : Value -> T) (init : Value)
         (rop : Value -> Value -> Value) tsize workers ideal fresh (xs : list T) bs src dst m,
  elem_size tsize -> machine workers ideal ->
  0 < bs <= N.of_nat (length xs) ->
  N.of_nat (length xs) + bs - 1 < 2 ^ 32 ->
  src <> dst -> src < fresh -> dst < fresh -> fresh_from m fresh ->
  holds m src xs ->
  (forall b, b < nblocks (N.of_nat (length xs)) bs -> m (dst, b) <> None) ->
  exists cs,
    block_reduce up down init rop tsize workers ideal 11 fresh (N.of_nat (length xs)) bs src dst
      = Cmds cs /\
    ensures cs (fun m' =>
      (forall b, b < nblocks (N.of_nat (length xs)) bs ->
         exists v, m' (dst, b) = Some v /\ reduces up down init rop (block xs bs b) v) /\
      (forall l, ~ (fst l = dst /\ snd l < nblocks (N.of_nat (length xs)) bs) -> m' l = m l)) m.
Proof.
  intros T Value up down init rop tsize workers ideal fresh xs bs src dst m Hts [Hw Hi] Hbs Hsz.
  intros. apply block_reduce_ok; auto. apply fuel_11. lia.
Qed.

(** Integer types: the exact (wrapped) result, independent of the work division. *)
Theorem C17_block_reduce_int_partial :
  forall t o tsize workers ideal fresh (xs : list Z) bs src dst m,
  is_int_type t -> Forall (it_in t) xs ->
  elem_size tsize -> machine workers ideal ->
  0 < bs <= N.of_nat (length xs) ->
  N.of_nat (length xs) + bs - 1 < 2 ^ 32 ->
  src <> dst -> src < fresh -> dst < fresh -> fresh_from m fresh ->
  holds m src xs ->
  (forall b, b < nblocks (N.of_nat (length xs)) bs -> m (dst, b) <> None) ->
  exists cs,
    block_reduce (fun x => x) (fun x => x) (iinit t o) (ired t o) tsize workers ideal 11 fresh
      (N.of_nat (length xs)) bs src dst = Cmds cs /\
    ensures cs (fun m' =>
      (forall b, b < nblocks (N.of_nat (length xs)) bs ->
         m' (dst, b) = Some (int_reduce t o (block xs bs b))) /\
      (forall l, ~ (fst l = dst /\ snd l < nblocks (N.of_nat (length xs)) bs) -> m' l = m l)) m.
Proof.
  intros t o tsize workers ideal fresh xs bs src dst m Ht HF Hts HM Hbs Hsz H1 H2 H3 H4 H5 H6.
  destruct (C17_block_reduce_partial Z Z (fun x => x) (fun x => x) (iinit t o) (ired t o)
              tsize workers ideal fresh xs bs src dst m) as (cs & E & X); auto.
  exists cs. split; auto. eapply ensures_weaken; [|exact X].
  intros m' [R1 R2]. split; auto. intros b Hb. destruct (R1 b Hb) as (v & -> & Rv).
  destruct (int_type_bits t Ht) as [B1 B2].
  assert (Forall (it_in t) (block xs bs b)) as HB by (apply Forall_slice; auto).
  destruct (reduces_exact (it_in t) _ _ (ired_exact t B1 B2 o) _ _ Rv HB) as [-> _].
  now rewrite int_fold.
Qed.

(** Invalid block sizes raise; empty arrays enqueue nothing. *)
Theorem C17_block_reduce_invalid :
  forall (T Value : Type) (up : T -> Value) (down : Value -> T) (init : Value)
         (rop : Value -> Value -> Value) tsize workers ideal fuel fresh size bs src dst,
  block_reduce up down init rop tsize workers ideal fuel fresh 0 bs src dst = Cmds [] /\
  (0 < size -> bs = 0 \/ size < bs ->
   block_reduce up down init rop tsize workers ideal fuel fresh size bs src dst = Raise).
Proof.
  intros. split; [destruct fuel; reflexivity|]. intros H0 H.
  destruct fuel; cbn [block_reduce]; destruct (N.eqb_spec size 0); try lia;
    destruct (N.eqb_spec bs 0), (N.ltb_spec size bs); cbn; auto; lia.
Qed.

(** Finding: reducing an array with more than 2^31 entries to a single value: the
    block count wraps to zero.  With several threads the host divides by zero; with
    one thread nothing is written to the output. *)
Theorem C17_large_refuted :
  exists size, size < 2 ^ 32 /\
    (forall (T Value : Type) (up : T -> Value) (down : Value -> T) init rop tsize src dst,
       block_reduce up down init rop tsize 8 16384 11 2 size size src dst = HostFault) /\
    (forall (T Value : Type) (up : T -> Value) (down : Value -> T) init rop tsize src dst,
       exists ps b, block_reduce up down init rop tsize 1 16384 11 2 size size src dst
         = Cmds [Alloc b (0 / tsize); Par ps; Free b] /\ ps = [Ret]).
Proof.
  exists (2 ^ 31 + 1). split; [reflexivity|]. split.
  - intros. vm_compute. reflexivity.
  - intros. eexists _, 2. split; [|reflexivity].
    unfold block_reduce.
    replace (2 ^ 31 + 1 =? 0) with false by reflexivity.
    replace (2 ^ 31 + 1 <? 2 ^ 31 + 1) with false by reflexivity.
    replace (2 ^ 31 + 1 =? 1) with false by reflexivity. cbn [orb].
    replace (plan 1 16384 (2 ^ 31 + 1) (2 ^ 31 + 1))
      with (Some (Plan 16384 131073 0 1 0)) by (vm_compute; reflexivity).
    cbn [p_cpb p_count p_units p_wus p_chunk]. unfold alloc_elems.
    replace (u32 (tsize * 0)) with 0 by (rewrite N.mul_0_r; reflexivity).
    reflexivity.
Qed.

(** Any element type and operation: every output is a bracketing of exactly the
    elements entering the scan at that position; also in place ([src = dst]). *)
Theorem C18_prefix_reduce_partial :
  forall (T Value : Type) (up : T -> Value) (down : Value -> T) (init : Value)
         (rop : Value -> Value -> Value) ident tsize workers ideal fresh (xs : list T) bs
         exclusive reverse src dst m,
  ident = down init ->
  elem_size tsize -> machine workers ideal ->
  0 < bs <= N.of_nat (length xs) ->
  N.of_nat (length xs) + bs - 1 < 2 ^ 32 ->
  (bs = 1 -> exclusive = false -> src <> dst -> N.of_nat (length xs) * tsize < 2 ^ 32) ->
  src < fresh -> dst < fresh -> fresh_from m fresh ->
  holds m src xs ->
  (forall j, j < N.of_nat (length xs) -> m (dst, j) <> None) ->
  exists cs,
    block_prefix_reduce up down init rop ident tsize workers ideal 11 fresh
      (N.of_nat (length xs)) bs exclusive reverse src dst = Cmds cs /\
    ensures cs (fun m' =>
      (forall j, j < N.of_nat (length xs) ->
         exists v, m' (dst, j) = Some v /\
                   scanned up down init rop xs bs exclusive reverse j v) /\
      (forall l, ~ (fst l = dst /\ snd l < N.of_nat (length xs)) -> m' l = m l)) m.
Proof.
  intros T Value up down init rop ident tsize workers ideal fresh xs bs ex rv src dst m
    Hid Hts [Hw Hi] Hbs Hsz Hone.
  intros. apply block_prefix_reduce_ok; auto. apply fuel_11. lia.
Qed.

Theorem C18_prefix_reduce_int_partial :
  forall t o tsize workers ideal fresh (xs : list Z) bs exclusive reverse src dst m,
  is_int_type t -> Forall (it_in t) xs ->
  elem_size tsize -> machine workers ideal ->
  0 < bs <= N.of_nat (length xs) ->
  N.of_nat (length xs) + bs - 1 < 2 ^ 32 ->
  (bs = 1 -> exclusive = false -> src <> dst -> N.of_nat (length xs) * tsize < 2 ^ 32) ->
  src < fresh -> dst < fresh -> fresh_from m fresh ->
  holds m src xs ->
  (forall j, j < N.of_nat (length xs) -> m (dst, j) <> None) ->
  exists cs,
    block_prefix_reduce (fun x => x) (fun x => x) (iinit t o) (ired t o)
      (it_wrap t (reduce_identity t o)) tsize workers ideal 11 fresh
      (N.of_nat (length xs)) bs exclusive reverse src dst = Cmds cs /\
    ensures cs (fun m' =>
      (forall j, j < N.of_nat (length xs) ->
         m' (dst, j) = Some (int_reduce t o (scan_inputs xs bs exclusive reverse j))) /\
      (forall l, ~ (fst l = dst /\ snd l < N.of_nat (length xs)) -> m' l = m l)) m.
Proof.
  intros t o tsize workers ideal fresh xs bs ex rv src dst m Ht HF Hts HM Hbs Hsz H1 H2 H3 H4 H5 H6.
  destruct (int_type_bits t Ht) as [B1 B2].
  destruct (C18_prefix_reduce_partial Z Z (fun x => x) (fun x => x) (iinit t o) (ired t o)
              (it_wrap t (reduce_identity t o))
              tsize workers ideal fresh xs bs ex rv src dst m) as (cs & E & X); auto.
  { now apply identity_ok. }
  exists cs. split; auto. eapply ensures_weaken; [|exact X].
  intros m' [R1 R2]. split; auto. intros j Hj. destruct (R1 j Hj) as (v & -> & Rv).
  rewrite (scanned_exact (it_in t) _ _ (ired_exact t B1 B2 o) _ _ _ _ _ _ Rv HF).
  rewrite int_fold; auto. unfold scan_inputs. destruct rv; apply Forall_slice; auto.
Qed.

(** Finding: with block size 1 the inclusive scan of 2^29 eight-byte elements copies
    nothing, because the byte count is computed with 32 bits. *)
Theorem C18_copy_wraps_refuted :
  exists size tsize, size < 2 ^ 32 /\ elem_size tsize /\
    forall (T Value : Type) (up : T -> Value) (down : Value -> T) init rop ident workers ideal m,
    exists cs,
      block_prefix_reduce up down init rop ident tsize workers ideal 11 2 size 1 false false 0 1
        = Cmds cs /\
      ensures cs (fun m' : mem T => forall l, m' l = m l) m.
Proof.
  exists (2 ^ 29), 8. split; [reflexivity|]. split; [unfold elem_size; auto|].
  intros. exists (Par (units 1 (fun _ => Ret)) :: []). split.
  - assert (E : u32 (2 ^ 29 * 8) / 8 = 0) by (vm_compute; reflexivity).
    unfold block_prefix_reduce.
    replace (2 ^ 29 =? 0) with false by reflexivity.
    replace (2 ^ 29 <? 1) with false by reflexivity. cbn [N.eqb orb].
    unfold copy_cmd. rewrite E. reflexivity.
  - apply (units_wp 1 (fun _ => Ret) (fun _ _ => False) (fun _ _ => False) (fun _ _ => True)); auto.
    { intros. exact I. }
    intros mf m' _ _ H. cbn. intros l. apply H. auto.
Qed.

(** Examples.  37 bytes in blocks of 32, one partial block; with 3 workers and a chunk
    size of 4 every block is cut into 8 chunks reduced separately. *)
Definition ex_xs : list Z := map (fun i => (Z.of_nat i * 7 + 3) mod 256)%Z (seq 0 37).
Definition ex_u8 := IT false 8.
Definition ex_mem : mem Z := mem_of [(0, ex_xs); (1, [0; 0; 0; 0]%Z)].
Definition ex_run o :=
  match block_reduce (fun x => x) (fun x => x) (iinit ex_u8 o) (ired ex_u8 o) 1 3 4 11 2 37 32 0 1 with
  | Cmds cs => match exec 0%Z cs ex_mem with Some m => contents m 1 4 | None => [] end
  | _ => []
  end.
Example C17_ex_add : ex_run RAdd = [Some 240; Some 181; Some 0; Some 0]%Z.
Proof. vm_compute. reflexivity. Qed.
Example C17_ex_ref :
  map (int_reduce ex_u8 RAdd) [block ex_xs 32 0; block ex_xs 32 1] = [240; 181]%Z.
Proof. vm_compute. reflexivity. Qed.
Example C17_ex_max : ex_run RMax = [Some 220; Some 255; Some 0; Some 0]%Z.
Proof. vm_compute. reflexivity. Qed.
Example C17_ex_cut :
  plan 3 4 37 32 = Some (Plan 4 8 16 16 1).
Proof. vm_compute. reflexivity. Qed.

Definition ex_scan o ex rv :=
  match block_prefix_reduce (fun x => x) (fun x => x) (iinit ex_u8 o) (ired ex_u8 o)
          (it_wrap ex_u8 (reduce_identity ex_u8 o)) 1 3 4 11 2 37 32 ex rv 0 0 with
  | Cmds cs => match exec 0%Z cs ex_mem with Some m => contents m 0 37 | None => [] end
  | _ => []
  end.
Example C18_ex :
  ex_scan RAdd true true =
  map (fun j => Some (int_reduce ex_u8 RAdd (scan_inputs ex_xs 32 true true (N.of_nat j)))) (seq 0 37).
Proof. vm_compute. reflexivity. Qed.
Example C18_ex_first : firstn 3 (ex_scan RAdd true false) = [Some 0; Some 3; Some 13]%Z.
Proof. vm_compute. reflexivity. Qed.

(** The public entry point swaps its arguments: every call with 0 < block_size < size
    is rejected. *)
Theorem C18_api_swapped_refuted :
  (exists bs size : N, 0 < bs <= size) /\
  forall bs size, 0 < bs < size ->
  forall (T Value : Type) (up : T -> Value) (down : Value -> T) init rop ident tsize workers ideal fuel
         fresh exclusive reverse src dst,
  api_block_prefix_reduce up down init rop ident tsize workers ideal fuel fresh bs size exclusive reverse src dst
  = Raise.
Proof.
  split; [exists 2, 6; lia|]. intros. unfold api_block_prefix_reduce.
  destruct fuel; cbn [block_prefix_reduce];
    (replace (bs =? 0) with false by (symmetry; apply N.eqb_neq; lia));
    (replace (bs <? size) with true by (symmetry; apply N.ltb_lt; lia));
    now rewrite Bool.orb_true_r.
Qed.
Theorem C18_api_whole :
  forall (T Value : Type) (up : T -> Value) (down : Value -> T) init rop ident tsize workers ideal fuel
         fresh size exclusive reverse src dst,
  api_block_prefix_reduce up down init rop ident tsize workers ideal fuel fresh size size exclusive reverse src dst
  = block_prefix_reduce up down init rop ident tsize workers ideal fuel fresh size size exclusive reverse src dst.
Proof. reflexivity. Qed.

Print Assumptions C17_block_reduce_partial.
Print Assumptions C17_block_reduce_int_partial.
Print Assumptions C17_block_reduce_invalid.
Print Assumptions C17_large_refuted.
Print Assumptions C18_prefix_reduce_partial.
Print Assumptions C18_prefix_reduce_int_partial.
Print Assumptions C18_copy_wraps_refuted.
Print Assumptions C18_api_swapped_refuted.
Print Assumptions C18_api_whole.
