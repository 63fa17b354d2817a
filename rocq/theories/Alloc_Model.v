(** Model of the caching allocator: src/malloc.h and src/malloc.cpp. *)
From Verif Require Import Base.
Local Open Scope N_scope.

(** ** Descriptors *)

(** include/drjit-core/jit.h:47-61 JitBackend as a number. *)
Definition B_None := 0. Definition B_CUDA := 1. Definition B_LLVM := 2. Definition B_Metal := 3.

(** src/malloc.h:21-27 alloc_info_encode; all shifts are on [uint64_t]. The
    [int device] is sign-extended by the C++ cast; device ids are nonnegative. *)
Definition info_encode (size backend : N) (shared : bool) (device : N) : N :=
  N.lor (N.lor (N.lor (u64 (N.shiftl size 11)) (N.shiftl (N.b2n shared) 10))
               (N.shiftl backend 8)) device.

(** src/malloc.h:29-35 alloc_info_decode. *)
Definition info_size (v : N) : N := N.shiftr v 11.
Definition info_backend (v : N) : N := N.land (N.shiftr v 8) 3.
Definition info_shared (v : N) : bool := negb (N.land (N.shiftr v 10) 1 =? 0).
Definition info_device (v : N) : N := N.land v 255.

(** ** Sizes *)

(** src/malloc.cpp:38-44 *)
Definition round_pow2 (x : N) : N :=
  let x := sub64 x 1 in
  let x := N.lor x (N.shiftr x 1) in
  let x := N.lor x (N.shiftr x 2) in
  let x := N.lor x (N.shiftr x 4) in
  let x := N.lor x (N.shiftr x 8) in
  let x := N.lor x (N.shiftr x 16) in
  let x := N.lor x (N.shiftr x 32) in
  u64 (x + 1).

Definition is_host (backend : N) : bool := (backend =? B_None) || (backend =? B_LLVM).

(** src/malloc.cpp:110-124; [vw] is jitc_llvm_vector_width. *)
Definition malloc_size (vw backend size : N) : N :=
  let size :=
    if negb (is_host backend) || (vw <? 16)
    then u64 (u64 (size + 63) / 64 * 64)
    else let ps := u64 (vw * 8) in
         u64 (sub64 (u64 (size + ps)) 1 / ps * ps) in
  round_pow2 size.

(** ** System allocation *)

Definition MAP_FAILED : N := 2 ^ 64 - 1.
Definition HUGE : N := 2097152.

(** src/malloc.cpp:55-84 aligned_malloc (Linux). [r1], [r2] are the answers of
    the operating system ([None] = failure): posix_memalign answers [r1] for
    small sizes; for large ones [r1] is the huge-page mmap, [r2] the plain mmap.
    0 is the null pointer. *)
Definition aligned_malloc (size : N) (r1 r2 : option N) : N :=
  if size <? HUGE then match r1 with Some p => p | None => 0 end
  else match r1 with
       | Some p => p
       | None => match r2 with Some p => p | None => MAP_FAILED end
       end.

(** The allocation call made by jitc_malloc (src/malloc.cpp:168-192): host
    memory through [aligned_malloc]; for the GPU backends the driver call
    either succeeds or the pointer is null ([r1]). *)
Definition sys_alloc (backend size : N) (r1 r2 : option N) : N :=
  if is_host backend then aligned_malloc size r1 r2
  else match r1 with Some p => p | None => 0 end.

(** Which deallocation routine applies (src/malloc.cpp:479-517): all host
    memory is released by [aligned_free] (0), GPU memory by a routine chosen
    from the descriptor's low bits. *)
Definition kind_of (info : N) : N :=
  if is_host (info_backend info) then 0 else 1 + info mod 2 ^ 11.

(** ** State *)

(** - [used]: state.alloc_used, pointer -> descriptor (robin_map);
    - [free]: state.alloc_free; the per-descriptor vectors are flattened into
      one list, newest entry first, "pop_back of the vector for [ai]" becomes
      "remove the first entry whose descriptor is [ai]";
    - [parked]: the free_later/free_next vectors of the thread states, tagged
      with the thread;
    - [batches]: batches handed to asynchronous completion handlers
      (take_deferred_free) which have not run yet;
    - [pending]: pointers obtained by a jitc_malloc that has released the main
      lock during the system call (src/malloc.cpp:167) and has not yet
      re-entered it: (descriptor, backend, size, pointer, requested bytes);
    - [releasing]: descriptor maps swapped out by jitc_flush_malloc_cache and
      not yet returned to the system;
    - [trimmed]: those already returned, whose statistics were not yet updated;
    - [usage], [allocated], [watermark]: the three statistics arrays;
    - [os]: ghost, memory the system considers owned by us: (pointer, size, kind);
    - [leaked], [failed]: ghost, descriptors dropped by src/malloc.cpp:286 and
      the (backend, size) of failed requests. *)
Record pend := mkPend { pd_info : N; pd_backend : N; pd_size : N; pd_ptr : N; pd_req : N }.

Record ast := mkA {
  used : list (N * N);
  free : list (N * N);
  parked : list (N * (N * N));
  batches : list (list (N * N));
  pending : list pend;
  releasing : list (list (N * N));
  trimmed : list (list (N * N));
  usage : N -> N; allocated : N -> N; watermark : N -> N;
  os : list (N * N * N);
  leaked : list (N * N);
  failed : list (N * N) }.

Definition a_init : ast :=
  mkA [] [] [] [] [] [] [] (fun _ => 0) (fun _ => 0) (fun _ => 0) [] [] [].

Definition fupd (f : N -> N) (b v : N) : N -> N := fun x => if x =? b then v else f x.

Fixpoint lookup (p : N) (l : list (N * N)) : option N :=
  match l with [] => None | (q, i) :: r => if q =? p then Some i else lookup p r end.

Fixpoint erase (p : N) (l : list (N * N)) : list (N * N) :=
  match l with [] => [] | (q, i) :: r => if q =? p then r else (q, i) :: erase p r end.

Definition emplace (p i : N) (l : list (N * N)) : list (N * N) :=
  match lookup p l with Some _ => l | None => (p, i) :: l end.

(** Pop the newest free entry with descriptor [i]. *)
Fixpoint pop_free (i : N) (l : list (N * N)) : option (N * list (N * N)) :=
  match l with
  | [] => None
  | (j, p) :: r => if j =? i then Some (p, r)
                   else let? x := pop_free i r in Some (fst x, (j, p) :: snd x)
  end.

Fixpoint extract {A} (n : nat) (l : list A) : option (A * list A) :=
  match l, n with
  | [], _ => None
  | x :: r, O => Some (x, r)
  | x :: r, S n' => let? y := extract n' r in Some (fst y, x :: snd y)
  end.

(** ** Events: atomic (lock-protected) sections and system calls. *)
Inductive aev :=
| EReuse (vw backend size : N) (shared : bool) (device : N)
| EOsAlloc (vw backend size : N) (shared : bool) (device : N) (r1 r2 : option N)
| ECommit (n : nat)
| EFree (ptr : N) (has_ts : bool) (tid : N)
| ETake (tid : N)
| ERelease (n : nat)
| EMove (ptr dst : N)
| EFlush
| EOsFree (n : nat)
| EFlushStats (n : nat)
| EClearStats.

Inductive aout := AUnit | APtr (p : N) | ARaise.
(** [NotEnabled]: the event can not happen in this state (or the operating
    system would violate its contract); [UB]: memory is released with the
    wrong routine/size or released twice. *)
Inductive ares := AOk (s : ast) (o : aout) | ANotEnabled | AUB.

(** The operating system's contract: a returned block is not null, fits the
    address space and does not overlap memory we own; size 0 still yields a unique address. *)
Definition os_fresh (p size : N) (os : list (N * N * N)) : bool :=
  (0 <? p) && (p + N.max 1 size <? 2 ^ 64) &&
  forallb (fun e => let '(q, sz, _) := e in
             (p + N.max 1 size <=? q) || (q + N.max 1 sz <=? p)) os.

Fixpoint os_remove (p size kind : N) (l : list (N * N * N)) : option (list (N * N * N)) :=
  match l with
  | [] => None
  | (q, sz, k) :: r =>
      if (q =? p) && (sz =? size) && (k =? kind) then Some r
      else let? r' := os_remove p size kind r in Some ((q, sz, k) :: r')
  end.

Fixpoint os_remove_all (es : list (N * N)) (l : list (N * N * N)) : option (list (N * N * N)) :=
  match es with
  | [] => Some l
  | (i, p) :: r => let? l' := os_remove p (info_size i) (kind_of i) l in os_remove_all r l'
  end.

(** Sum of the sizes of the descriptors with backend [b]. *)
Fixpoint sum_b (b : N) (l : list N) : N :=
  match l with [] => 0 | i :: r => (if info_backend i =? b then info_size i else 0) + sum_b b r end.

(** jitc_malloc: src/malloc.cpp:106-108 clears [shared] for host memory;
    142 computes the descriptor. *)
Definition malloc_info (vw backend size : N) (shared : bool) (device : N) : N :=
  let shared := if backend =? B_None then false else shared in
  info_encode (malloc_size vw backend size) backend shared device.

Definition a_step (s : ast) (e : aev) : ares :=
  match e with
  (* src/malloc.cpp:102-158, 219-233: request served from the free list *)
  | EReuse vw backend size shared device =>
      if size =? 0 then AOk s (APtr 0) else
      let ai := malloc_info vw backend size shared device in
      let sz := malloc_size vw backend size in
      match pop_free ai (free s) with
      | None => ANotEnabled
      | Some (p, fr) =>
          AOk (mkA (emplace p ai (used s)) fr (parked s) (batches s) (pending s)
                   (releasing s) (trimmed s)
                   (fupd (usage s) backend (u64 (usage s backend + sz)))
                   (allocated s) (watermark s) (os s) (leaked s) (failed s)) (APtr p)
      end
  (* src/malloc.cpp:165-198: the system call, made without the main lock. A
     failing first attempt followed by a flush is a flush event followed by
     this event. *)
  | EOsAlloc vw backend size shared device r1 r2 =>
      let ai := malloc_info vw backend size shared device in
      let sz := malloc_size vw backend size in
      let p := sys_alloc backend sz r1 r2 in
      let fromos := match r1, r2 with
                    | Some q, _ => Some q
                    | None, Some q => if is_host backend && negb (sz <? HUGE) then Some q else None
                    | _, _ => None end in
      match fromos with
      | Some q =>
          if os_fresh q sz (os s) then
            AOk (mkA (used s) (free s) (parked s) (batches s)
                     (mkPend ai backend sz p size :: pending s)
                     (releasing s) (trimmed s) (usage s) (allocated s) (watermark s)
                     ((q, sz, kind_of ai) :: os s) (leaked s) (failed s)) AUnit
          else ANotEnabled
      | None =>
            AOk (mkA (used s) (free s) (parked s) (batches s)
                     (mkPend ai backend sz p size :: pending s)
                     (releasing s) (trimmed s) (usage s) (allocated s) (watermark s)
                     (os s) (leaked s) (failed s)) AUnit
      end
  (* src/malloc.cpp:206-233: bookkeeping after re-acquiring the lock. *)
  | ECommit n =>
      match extract n (pending s) with
      | None => ANotEnabled
      | Some (d, pd) =>
          let b := pd_backend d in
          let al := u64 (allocated s b + pd_size d) in
          let wm := N.max al (watermark s b) in
          if pd_ptr d =? 0 then
            AOk (mkA (used s) (free s) (parked s) (batches s) pd (releasing s) (trimmed s)
                     (usage s) (fupd (allocated s) b al) (fupd (watermark s) b wm)
                     (os s) (leaked s) ((b, pd_size d) :: failed s)) ARaise
          else
            AOk (mkA (emplace (pd_ptr d) (pd_info d) (used s)) (free s) (parked s) (batches s) pd
                     (releasing s) (trimmed s)
                     (fupd (usage s) b (u64 (usage s b + pd_size d)))
                     (fupd (allocated s) b al) (fupd (watermark s) b wm)
                     (os s) (leaked s) (failed s)) (APtr (pd_ptr d))
      end
  (* src/malloc.cpp:252-306; [has_ts]: the calling thread has a thread state for
     the backend of the allocation. For backend None there is none (280). *)
  | EFree ptr has_ts tid =>
      if ptr =? 0 then AOk s AUnit else
      match lookup ptr (used s) with
      | None => AOk s ARaise
      | Some info =>
          let b := info_backend info in
          let sh := info_shared info in
          let ts := has_ts && negb (b =? B_None) in
          let us' := erase ptr (used s) in
          let usage' := fupd (usage s) b (sub64 (usage s b) (info_size info)) in
          if sh && negb ts then
            AOk (mkA us' (free s) (parked s) (batches s) (pending s) (releasing s) (trimmed s)
                     usage' (allocated s) (watermark s) (os s) ((info, ptr) :: leaked s) (failed s)) AUnit
          else
            let deferred := negb sh && (b =? B_Metal) && ts in
            if (b =? B_None) || (negb sh && negb deferred) then
              AOk (mkA us' ((info, ptr) :: free s) (parked s) (batches s) (pending s)
                       (releasing s) (trimmed s) usage' (allocated s) (watermark s)
                       (os s) (leaked s) (failed s)) AUnit
            else
              AOk (mkA us' (free s) ((tid, (info, ptr)) :: parked s) (batches s) (pending s)
                       (releasing s) (trimmed s) usage' (allocated s) (watermark s)
                       (os s) (leaked s) (failed s)) AUnit
      end
  (* src/init.cpp:880-887 take_deferred_free (and the release of free_next on
     submission): the parked entries of a thread become a batch. *)
  | ETake tid =>
      let mine := filter (fun e => fst e =? tid) (parked s) in
      let rest := filter (fun e => negb (fst e =? tid)) (parked s) in
      AOk (mkA (used s) (free s) rest (map snd mine :: batches s) (pending s)
               (releasing s) (trimmed s) (usage s) (allocated s) (watermark s)
               (os s) (leaked s) (failed s)) AUnit
  (* src/malloc.cpp:242-250 jitc_malloc_release_batch *)
  | ERelease n =>
      match extract n (batches s) with
      | None => ANotEnabled
      | Some (b, bs) =>
          AOk (mkA (used s) (rev b ++ free s) (parked s) bs (pending s)
                   (releasing s) (trimmed s) (usage s) (allocated s) (watermark s)
                   (os s) (leaked s) (failed s)) AUnit
      end
  (* src/malloc.cpp:314-342: jitc_malloc_migrate with move=1 between host and
     LLVM. All other cases of migrate are compositions of the malloc and free
     events above. *)
  | EMove ptr dst =>
      if ptr =? 0 then AOk s (APtr 0) else
      match lookup ptr (used s) with
      | None => AOk s ARaise
      | Some info =>
          let src := info_backend info in
          let sz := info_size info in
          if is_host src && is_host dst then
            let us1 := fupd (usage s) src (sub64 (usage s src) sz) in
            let us2 := fupd us1 dst (u64 (us1 dst + sz)) in
            let al1 := fupd (allocated s) src (sub64 (allocated s src) sz) in
            let al2 := fupd al1 dst (u64 (al1 dst + sz)) in
            AOk (mkA ((ptr, info_encode sz dst false 0) :: erase ptr (used s)) (free s) (parked s)
                     (batches s) (pending s) (releasing s) (trimmed s) us2 al2 (watermark s)
                     (os s) (leaked s) (failed s)) (APtr ptr)
          else ANotEnabled
      end
  (* src/malloc.cpp:461-464 *)
  | EFlush =>
      AOk (mkA (used s) [] (parked s) (batches s) (pending s) (free s :: releasing s) (trimmed s)
               (usage s) (allocated s) (watermark s) (os s) (leaked s) (failed s)) AUnit
  (* src/malloc.cpp:469-520, without the main lock *)
  | EOsFree n =>
      match extract n (releasing s) with
      | None => ANotEnabled
      | Some (l, rl) =>
          match os_remove_all l (os s) with
          | None => AUB
          | Some os' =>
              AOk (mkA (used s) (free s) (parked s) (batches s) (pending s) rl (l :: trimmed s)
                       (usage s) (allocated s) (watermark s) os' (leaked s) (failed s)) AUnit
          end
      end
  (* src/malloc.cpp:522-523; trim_size is summed per backend modulo 2^64 *)
  | EFlushStats n =>
      match extract n (trimmed s) with
      | None => ANotEnabled
      | Some (l, tl) =>
          AOk (mkA (used s) (free s) (parked s) (batches s) (pending s) (releasing s) tl
                   (usage s)
                   (fun b => if b <? 4 then sub64 (allocated s b) (u64 (sum_b b (map fst l)))
                             else allocated s b)
                   (watermark s) (os s) (leaked s) (failed s)) AUnit
      end
  (* src/malloc.cpp:308-311 *)
  | EClearStats =>
      AOk (mkA (used s) (free s) (parked s) (batches s) (pending s) (releasing s) (trimmed s)
               (usage s) (allocated s) (fun b => if b <? 4 then allocated s b else watermark s b)
               (os s) (leaked s) (failed s)) AUnit
  end.

Fixpoint a_run (s : ast) (es : list aev) : ares :=
  match es with
  | [] => AOk s AUnit
  | e :: r => match a_step s e with
              | AOk s' _ => a_run s' r
              | x => x
              end
  end.
