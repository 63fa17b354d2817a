(** Specification of kernels: what each variable of a kernel means in each lane, and the
    conditions under which a kernel can be launched. Independent of registers,
    parameters and statements. *)
From Verif Require Import Base Asm_Model.
Local Open Scope N_scope.

(** The [n] bytes from address [a] hold the number [x] (little endian). *)
Definition holds (m : mem) (a n x : N) : Prop :=
  x < 256 ^ n /\ forall k, k < n -> m (a + k) = Some (x / 256 ^ k mod 256).

(** The truth value of a byte: bit 0 on the LLVM backend, different from 0 on GPUs. The
    same for the bytes 0 and 1. *)
Definition truth (b : backend) (x : N) : N :=
  match b with LLVM => x mod 2 | _ => if x =? 0 then 0 else 1 end.

Definition bits_of (t : N) : N := if t =? T_Bool then 1 else 8 * type_size t.

Definition deps_of (v : var) : list N :=
  match v_kind v with KMask c => [c] | KOp _ d _ => d | _ => [] end.

Section SPEC.
Variable sem : N -> N -> list N -> mem -> option N.
Variable b : backend.
Variable size : N.          (* of the kernel *)
Variable cb : N.            (* address of the data of virtual function calls *)
Variable g : list var.      (* the variables of the kernel, in order *)
Variable m0 : mem.          (* before the launch *)

(** [means i lane x]: variable [i] has the value [x] in lane [lane]. Variables of size 1
    have the same value in all lanes. *)
Inductive means : N -> N -> N -> Prop :=
| means_eval v data lane x :
    In v g -> v_kind v = KEval data ->
    holds m0 (data + (if v_size v =? 1 then 0 else lane) * type_size (v_type v))
          (type_size (v_type v)) x ->
    means (v_id v) lane (if v_type v =? T_Bool then truth b x else x)
| means_lit v bits lane : In v g -> v_kind v = KLit bits -> means (v_id v) lane bits
| means_counter v lane : In v g -> v_kind v = KCounter -> means (v_id v) lane lane
| means_mask v c lane : In v g -> v_kind v = KMask c ->
    means (v_id v) lane (if lane <? size then 1 else 0)
| means_op v op deps call lane xs r :
    In v g -> v_kind v = KOp op deps call -> length xs = length deps ->
    (forall k d x, nth_error deps k = Some d -> nth_error xs k = Some x -> means d lane x) ->
    sem op lane (xs ++ (if call then [cb] else [])) m0 = Some r ->
    means (v_id v) lane r.

(** The arguments of an operation in a lane *)
Definition args_of (deps : list N) (call : bool) (lane : N) (args : list N) : Prop :=
  exists xs, args = xs ++ (if call then [cb] else []) /\ length xs = length deps /\
    forall k d x, nth_error deps k = Some d -> nth_error xs k = Some x -> means d lane x.

(** A side effect [e] is the one of variable [v] in lane [lane]. *)
Definition effect_of (lane : N) (v : var) (e : event) : Prop :=
  exists op deps call args, v_kind v = KOp op deps call /\ e = (op, lane, args) /\
    args_of deps call lane args.

Definition is_output (v : var) : Prop :=
  v_out v = true /\ v_size v = size /\ is_eval v = false.

(** Well-formed kernels: unique variables; operands come first (C28); sizes; types;
    counters are 32-bit; only LLVM has default masks. *)
Record well_formed : Prop := {
  wf_size : 0 < size < 2 ^ 32;
  wf_few : N.of_nat (length g) + 8 < 2 ^ 28;
  wf_ids : NoDup (map v_id g);
  wf_deps : forall k v d, nth_error g k = Some v -> In d (deps_of v) ->
     exists j u, (j < k)%nat /\ nth_error g j = Some u /\ v_id u = d /\ v_type u <> T_Void;
  wf_sizes : forall v, In v g -> v_size v = 1 \/ v_size v = size;
  wf_void : forall v, In v g -> v_type v = T_Void ->
     v_out v = false /\ exists op d c, v_kind v = KOp op d c;
  wf_types : forall v, In v g -> v_type v <> T_Void -> type_size (v_type v) <> 0;
  wf_pointer : forall v, In v g -> v_type v = T_Pointer ->
     v_size v = 1 /\ v_out v = false /\ is_lit v = true;
  wf_counter : forall v, In v g -> v_kind v = KCounter -> v_type v = 8;
  wf_mask : forall v c, In v g -> v_kind v = KMask c ->
     b = LLVM /\ v_type v = T_Bool /\
     forall u, In u g -> v_id u = c -> v_kind u = KCounter;
  wf_side : forall v, In v g -> v_side v = true -> exists op d c, v_kind v = KOp op d c
}.

(** Buffers of the outputs: (variable, bytes requested, address); [w] is the vector
    width. *)
Variable w : N.
Variable bufs : list (N * N * N).

Definition inside (a : N) (e : N * N * N) : Prop :=
  let '(_, n, p) := e in p <= a < p + malloc_bytes b w n.

Definition in_output (a : N) : Prop := exists e, In e bufs /\ inside a e.

(** Number of lanes that are computed: LLVM always completes the last vector. *)
Definition lanes : N := match b with LLVM => (size + w - 1) / w * w | _ => size end.

(** The output buffers are accessible, do not overlap, and are aligned to 64 bytes
    (posix_memalign, src/malloc.cpp:60). *)
Record buffers_ok : Prop := {
  bo_access : forall e a, In e bufs -> inside a e -> m0 a <> None;
  bo_apart : forall i j e f a, nth_error bufs i = Some e -> nth_error bufs j = Some f ->
     i <> j -> inside a e -> inside a f -> False;
  bo_align : forall e, In e bufs -> snd e mod 64 = 0
}.

(** Memory that may differ from [m0] in the output buffers only *)
Definition same_elsewhere (m : mem) : Prop :=
  (forall a, m a = None <-> m0 a = None) /\ forall a, ~ in_output a -> m a = m0 a.

(** Nothing that the kernel reads is in an output buffer. *)
Record inputs_ok : Prop := {
  io_eval : forall v data lane k, In v g -> v_kind v = KEval data -> lane < lanes ->
     k < type_size (v_type v) ->
     ~ in_output (data + (if v_size v =? 1 then 0 else lane) * type_size (v_type v) + k);
  io_op : forall v op deps call lane args r m, In v g -> v_kind v = KOp op deps call ->
     lane < lanes -> args_of deps call lane args ->
     same_elsewhere m -> sem op lane args m0 = Some r -> sem op lane args m = Some r
}.

(** Every lane that is computed has a value of the right type. *)
Record defined : Prop := {
  de_some : forall v lane, In v g -> lane < lanes -> exists x, means (v_id v) lane x;
  de_typed : forall v lane x, In v g -> v_type v <> T_Void -> lane < lanes ->
     means (v_id v) lane x -> x < 2 ^ bits_of (v_type v)
}.

(** The flag [unaligned] of evaluated variables is the one of jit_var_mem_map, and the
    address of an aligned vector suffices for every vector of the kernel. *)
Record aligned_ok : Prop := {
  al_width : exists e, w = 2 ^ e /\ e <= 6;
  al_type : forall v, In v g -> type_size (v_type v) * w <= 64;
  al_eval : forall v data, In v g -> v_kind v = KEval data ->
     v_unal v = mapped_unaligned w (v_type v) data;
  al_out : forall v, In v g -> is_eval v = false -> v_unal v = false
}.

(** Work units of a launch (first lanes of the iterations, end): every lane is in
    exactly one iteration. *)
Record units_ok (units : list (list N * N)) : Prop := {
  un_once : NoDup (concat (map fst units));
  un_all : forall lane, lane < size ->
     exists p, In p (concat (map fst units)) /\ p <= lane < p + w;
  un_step : forall ps e p, In (ps, e) units -> In p ps ->
     p mod w = 0 /\ p + w <= lanes /\ (b = LLVM -> e < 2 ^ 32 /\ (p + w <= e <= size \/ e = size))
}.

(** The result of a launch: memory [m], side effects [log] *)
Record launched_ok (m : mem) (log : list event) : Prop := {
  lo_out : forall v, In v g -> is_output v ->
     exists n p, In (v_id v, n, p) bufs /\
     forall lane, lane < size -> exists x, means (v_id v) lane x /\
       holds m (p + lane * type_size (v_type v)) (type_size (v_type v)) x;
  lo_rest : forall a, ~ in_output a -> m a = m0 a;
  lo_effects : forall lane, lane < size ->
     Forall2 (effect_of lane) (filter v_side g)
             (filter (fun e : event => snd (fst e) =? lane) log)
}.
End SPEC.

(** Two kernels differ only in the data: same operations, literals (other than
    pointers), types and flags; other identifiers, addresses and sizes. *)
Definition same_shape (size1 size2 : N) (f : N -> N) (v1 v2 : var) : Prop :=
  v_id v2 = f (v_id v1) /\ v_type v2 = v_type v1 /\ v_out v2 = v_out v1 /\
  v_side v2 = v_side v1 /\ v_unal v2 = v_unal v1 /\
  (v_size v1 = 1 <-> v_size v2 = 1) /\ (v_size v1 = size1 <-> v_size v2 = size2) /\
  match v_kind v1, v_kind v2 with
  | KEval _, KEval _ => True
  | KLit x, KLit y => v_type v1 = T_Pointer \/ x = y
  | KCounter, KCounter => True
  | KMask c, KMask c' => c' = f c
  | KOp o d c, KOp o' d' c' => o' = o /\ d' = map f d /\ c' = c
  | _, _ => False
  end.
