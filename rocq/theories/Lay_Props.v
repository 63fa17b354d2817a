(** C29: layout of captured call data. *)
From Verif Require Import Base Lay_Model Lay_Spec Lay_Proofs Lay_Scatter Lay_Inst Lay_Call Lay_Upload Lay_Read.
Local Open Scope N_scope.

(** The slots of all instances are laid out in ascending order without overlap, aligned to
    their size, inside the data block; the slots of instance [i] are exactly its captured
    variables, at or after the start of its block. *)
Theorem C29_layout :
  forall llvm alignment cap insts inst_id, backend_ok llvm alignment cap ->
  Forall buckets_ok insts -> cost insts + 128 < 2 ^ 32 ->
  let c := layout_call llvm alignment cap insts inst_id in
  packed 0 (c_data_size c) (c_slots c) /\ c_data_size c mod alignment = 0 /\
  Permutation (map forget (c_slots c)) (concat insts) /\ length (c_layouts c) = length insts /\
  forall i ss l, nth_error insts i = Some ss -> nth_error (c_layouts c) i = Some l ->
    exists pre out post, c_slots c = pre ++ out ++ post /\ N.of_nat (length pre) = l_start l /\
      N.of_nat (length out) = l_count l /\ Permutation (map forget out) ss /\ packed (l_offset l) (c_data_size c) out.
Proof.
  intros llvm alignment cap insts inst_id BK F FIT c.
  destruct (layout_call_ok llvm alignment cap BK insts inst_id F FIT) as (hi & IN & HI & DM). fold c in IN, HI, DM.
  split; [eapply packed_hi; [exact HI|eapply instances_packed; eauto]|]. split; [exact DM|].
  split; [eapply instances_perm; eauto|]. split; [eapply instances_length; eauto|].
  intros i ss l E1 E2. destruct (instances_nth _ _ _ _ _ _ _ _ _ IN i ss l E1 E2) as (pre & out & post & h & A & B & C & D & PO & H & _).
  exists pre, out, post. split; [exact A|]. split; [exact B|]. split; [exact C|]. split; [exact D|].
  eapply packed_hi; [|exact PO]. eapply N.le_trans; eauto.
Qed.
Print Assumptions C29_layout.

(** Every packet load that the LLVM backend generates for the first slots of a bucket, for
    whichever of them are still needed, is aligned to its width and stays inside the data
    block; element [j] of the load is slot [ld_slot + j]. *)
Theorem C29_packet_loads :
  forall cap width alignment insts inst_id i ss l c live ld,
  backend_ok true alignment cap -> (if width <? 8 then width else 8) = cap ->
  Forall buckets_ok insts -> cost insts + 128 < 2 ^ 32 ->
  nth_error insts i = Some ss -> nth_error (c_layouts (layout_call true alignment cap insts inst_id)) i = Some l ->
  c < 4 -> In ld (bucket_loads width live (c_slots (layout_call true alignment cap insts inst_id)) l c) ->
  load_ok (l_offset l) (c_data_size (layout_call true alignment cap insts inst_id)) ld /\
  (forall j, j < ld_n ld -> ld_slot ld + j < fst (nth (N.to_nat c) (l_bucket l) (0, 0)) + snd (nth (N.to_nat c) (l_bucket l) (0, 0)) ->
     exists ref, nth_error (c_slots (layout_call true alignment cap insts inst_id)) (N.to_nat (ld_slot ld + j)) =
       Some (ref, l_offset l + ld_off ld + j * ld_size ld, c)).
Proof. exact bucket_loads_ok. Qed.
Print Assumptions C29_packet_loads.

(** The entries of the shared buffer of a kernel fit in it and do not overlap, ... *)
Theorem C29_buffer :
  forall data llvm alignment cap items es total, kernel_ok data llvm alignment cap items ->
  upload data alignment items = (es, total) ->
  Forall (fun e => fst e + N.of_nat (length (snd e)) <= total) es /\
  ForallOrdPairs (fun a b => disjoint (range_of a) (range_of b)) es.
Proof. intros data llvm alignment cap items es total OK. exact (entries_ok data llvm alignment cap items OK es total). Qed.
Print Assumptions C29_buffer.
(** ... and in whichever order they are written, the offset table leads from each instance
    to its callable and to each of its captured values. *)
Theorem C29_readback :
  forall data llvm alignment cap items es total es' m c ks ob db, kernel_ok data llvm alignment cap items ->
  upload data alignment items = (es, total) -> Permutation es es' ->
  In (ICall c ks, ob, db) (fst (fst (assemble items 0 0))) ->
  forall i id l k, nth_error (c_inst_id c) i = Some id -> nth_error (c_layouts c) i = Some l -> nth_error ks i = Some k ->
  number (read (aggregate m es') (ob + 8 * id) 4) = k /\
  forall j r o b, l_start l <= N.of_nat j < l_start l + l_count l -> nth_error (c_slots c) j = Some (r, o, b) ->
    read (aggregate m es') (number (read (aggregate m es') (ob + 8 * id + 4) 4) + (o - l_offset l)) (length (data r)) = data r.
Proof.
  intros data llvm alignment cap items es total es' m c ks ob db OK E P I.
  exact (call_readback data llvm alignment cap items OK es total es' m c ks ob db E P I).
Qed.
Print Assumptions C29_readback.
Theorem C29_getters :
  forall data llvm alignment cap items es total es' m t vs ob db, kernel_ok data llvm alignment cap items ->
  upload data alignment items = (es, total) -> Permutation es es' ->
  In (IGetter t vs, ob, db) (fst (fst (assemble items 0 0))) ->
  forall i v, nth_error vs i = Some v -> read (aggregate m es') (ob + t * (N.of_nat i + 1)) (length v) = v.
Proof.
  intros data llvm alignment cap items es total es' m t vs ob db OK E P I.
  exact (getter_readback data llvm alignment cap items OK es total es' m t vs ob db E P I).
Qed.
Print Assumptions C29_getters.

(** Example: two instances, mixed sizes, vector width 8. *)
Definition ex_insts : list (list slot) := [[(1, 1); (2, 3); (3, 1); (4, 0); (5, 1)]; [(6, 1); (7, 2); (8, 3)]].
Definition ex_call : call := layout_call true 64 8 ex_insts [2; 0].
Definition ex_data (r : N) : list N :=
  nth (N.to_nat r) [[]; [11; 0; 0; 0]; [12]; [13; 0; 0; 0]; [14; 0; 0; 0; 0; 0; 0; 1]; [15; 0; 0; 2]; [16; 0; 0; 0]; [17; 1]; [18]] [].
Example C29_ex_layout :
  backend_ok true 64 8 /\ Forall buckets_ok ex_insts /\ cost ex_insts + 128 < 2 ^ 32 /\
  c_slots ex_call = [(1, 0, 1); (3, 4, 1); (5, 8, 1); (4, 16, 0); (2, 24, 3); (6, 28, 1); (7, 32, 2); (8, 34, 3)] /\
  c_data_size ex_call = 64 /\
  bucket_loads 8 (fun _ => true) (c_slots ex_call) (nth 0 (c_layouts ex_call) (mkLayout 0 0 0 0 0 [])) 1 = [mkLoad 0 4 4 0].
Proof.
  split; [vm_compute; auto 6|]. split; [repeat constructor|]. split; [reflexivity|]. split; [vm_compute; reflexivity|]. split; vm_compute; reflexivity.
Qed.
Definition ex_items : list item := [IGetter 2 [[1; 2]; [3; 4]]; ICall ex_call [40; 41]].
Example C29_ex_kernel :
  kernel_ok ex_data true 64 8 ex_items /\
  let es := fst (upload ex_data 64 ex_items) in
  let m := aggregate (fun _ => 255) es in
  snd (upload ex_data 64 ex_items) = 128 /\
  number (read m (8 + 8 * 2) 4) = 40 /\ number (read m (8 + 8 * 2 + 4) 4) = 64 /\ read m (64 + 24) 1 = [12] /\
  number (read m (8 + 4) 4) = 92 /\ read m (92 + 6) 1 = [18] /\ read m (0 + 2 * 2) 2 = [3; 4].
Proof.
  split; [|vm_compute; auto 10].
  split; [vm_compute; auto 6|]. split.
  - constructor; [split; [cbn; auto|repeat constructor]|]. constructor; [|constructor].
    exists ex_insts, [2; 0]. split; [reflexivity|]. split; [repeat constructor|]. split; [reflexivity|]. split; [reflexivity|]. split; [reflexivity|].
    split; [repeat constructor; cbn; intuition discriminate|]. split; [repeat constructor|]. split; repeat constructor.
  - vm_compute. reflexivity.
Qed.
