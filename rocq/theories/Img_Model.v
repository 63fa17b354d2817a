(** Machine code of LLVM kernels: src/llvm_memmgr.cpp:17-90 (memory manager),
    src/llvm_core.cpp:420-555 (jitc_llvm_compile: copy and relocation), src/llvm_orcv2.cpp:89-135
    and src/llvm_mcjit.cpp:111-140 (symbols), src/io.cpp:370-415, 465-487 (kernels on disk),
    src/llvm_eval.cpp:213, 1716, 1859 (access to the table of callables).

    Simplifications: LLVM is a sequence of requests for sections and of stores to them,
    followed by the addresses of its symbols, as positions in sections; its other effects and the
    compression and checks of cache files are left out.  jitc_fail terminates the process.
    [m_len], [m_live]: length of the block behind the pointer, and whether it is still allocated.
    Writes behind the end of a block are undefined behaviour, also in the last page of a mapping. *)
From Verif Require Import Base.
Local Open Scope N_scope.

Definition w64 (x : N) : N := x mod 2 ^ 64.
Definition w32 (x : N) : N := x mod 2 ^ 32.

Record mgr := {
  m_data : option N; m_mem : N -> N; m_len : N; m_live : bool;
  m_size : N; m_off : N; m_got : bool
}.
Definition initial : mgr :=
  {| m_data := None; m_mem := fun _ => 0; m_len := 0; m_live := false; m_size := 0; m_off := 0; m_got := false |}.

Inductive out (A : Type) := Done (a : A) | Raised (m : mgr) | Failed | UB.
Arguments Done {A}. Arguments Raised {A}. Arguments Failed {A}. Arguments UB {A}.

(** jitc_llvm_memmgr_prepare; [heap]: address and contents of new memory *)
Definition prepare (m : mgr) (n : N) (heap : option (N * (N -> N))) : out mgr :=
  let target := w64 (n * 10) in
  if m_size m <=? target then
    (* free(jitc_llvm_memmgr_data) *)
    if match m_data m with Some _ => negb (m_live m) | None => false end then UB else
    match heap with
    | None => Raised {| m_data := m_data m; m_mem := m_mem m; m_len := m_len m; m_live := false;
                        m_size := m_size m; m_off := m_off m; m_got := m_got m |}
    | Some (a, junk) => Done {| m_data := Some a; m_mem := junk; m_len := target; m_live := true;
                                m_size := target; m_off := 0; m_got := m_got m |}
    end
  else Done {| m_data := m_data m; m_mem := m_mem m; m_len := m_len m; m_live := m_live m;
               m_size := m_size m; m_off := 0; m_got := m_got m |}.

Definition set_mem (m : mgr) (f : N -> N) : mgr :=
  {| m_data := m_data m; m_mem := f; m_len := m_len m; m_live := m_live m;
     m_size := m_size m; m_off := m_off m; m_got := m_got m |}.

(** jitc_llvm_memmgr_allocate; [got]: the name starts with ".got".  Result: address, or
    [None] for a null pointer *)
Definition allocate (m : mgr) (size align : N) (got : bool) : out (mgr * option N) :=
  match m_data m with
  | None => UB
  | Some data =>
      let align := if align =? 0 then 16 else align in
      let offset_align := w64 (w64 (m_off m + (align - 1)) / align * align) in
      if offset_align <? m_off m then UB
      (* Zero-fill including padding region *)
      else if (m_off m <? offset_align) && (negb (m_live m) || (m_len m <? offset_align)) then UB
      else
        let mem := fun o => if (m_off m <=? o) && (o <? offset_align) then 0 else m_mem m o in
        let off := w64 (offset_align + size) in
        let m := {| m_data := m_data m; m_mem := mem; m_len := m_len m; m_live := m_live m;
                    m_size := m_size m; m_off := off; m_got := m_got m || got |} in
        if m_size m <? off then Done (m, None) else Done (m, Some (data + offset_align))
  end.

(** LLVM: sections and stores to them *)
Inductive ev :=
  | EAlloc (size align : N) (got : bool)
  | EStore (k : nat) (off b : N).
(** [told]: address and size of the sections so far *)
Fixpoint events (m : mgr) (told : list (N * N)) (l : list ev) : out (mgr * list (N * N)) :=
  match l with
  | [] => Done (m, told)
  | EAlloc size align got :: r =>
      match allocate m size align got with
      | Done (m, Some a) => events m (told ++ [(a, size)]) r
      | Done (_, None) => Failed                 (* LLVM gives up *)
      | Raised m => Raised m | Failed => Failed | UB => UB
      end
  | EStore k off b :: r =>
      match m_data m, nth_error told k with
      | Some data, Some (a, size) =>
          let p := a + off - data in
          if (off <? size) && m_live m && (p <? m_len m) then
            events (set_mem m (fun o => if o =? p then b else m_mem m o)) told r
          else UB
      | _, _ => UB
      end
  end.

(** A kernel: mapped memory, entry points, address of the array of entry points *)
Record kernel := {
  k_data : N; k_len : N; k_size : N; k_mem : N -> N; k_reloc : list N; k_table : N
}.
(** Pointers in memory *)
Definition put8 (f : N -> N) (p v : N) : N -> N :=
  fun o => if (p <=? o) && (o <? p + 8) then v / 256 ^ (o - p) mod 256 else f o.
Definition get8 (f : N -> N) (p : N) : N :=
  f p + 256 * (f (p + 1) + 256 * (f (p + 2) + 256 * (f (p + 3) + 256 * (f (p + 4) +
  256 * (f (p + 5) + 256 * (f (p + 6) + 256 * f (p + 7))))))).

Record request := { q_len : N; q_evs : list ev; q_syms : list (nat * N) }.
(** What the system returns: malloc, mmap, address of the array of entry points *)
Record env := { e_heap : option (N * (N -> N)); e_map : option N; e_table : N }.

Fixpoint resolve (told : list (N * N)) (l : list (nat * N)) : option (list N) :=
  match l with
  | [] => Some []
  | (k, off) :: r =>
      match nth_error told k, resolve told r with
      | Some (a, _), Some t => Some (a + off :: t)
      | _, _ => None
      end
  end.

(** Write address of @callables *)
Definition link (k : kernel) : out kernel :=
  match k_reloc k with
  | _ :: r1 :: _ =>
      let p := r1 - k_data k in
      if (k_data k <=? r1) && (p + 8 <=? k_len k) then
        Done {| k_data := k_data k; k_len := k_len k; k_size := k_size k;
                k_mem := put8 (k_mem k) p (k_table k + 8); k_reloc := k_reloc k; k_table := k_table k |}
      else UB
  | _ => Done k
  end.

Definition compile (m : mgr) (q : request) (e : env) : out (mgr * list (N * N) * kernel) :=
  match prepare m (q_len q) (e_heap e) with
  | Done m =>
      match events m [] (q_evs q) with
      | Done (m, told) =>
          match resolve told (q_syms q), m_data m with
          | Some reloc, Some data =>
              if m_got m then Failed else
              match e_map e with
              | None => Failed
              | Some ptr =>
                  if m_off m =? 0 then Failed                     (* mmap *)
                  else if negb (m_live m) || (m_len m <? m_off m) then UB
                  else match link {| k_data := ptr; k_len := m_off m; k_size := w32 (m_off m); k_mem := m_mem m;
                                     k_reloc := map (fun r => w64 (ptr + (r - data))) reloc; k_table := e_table e |} with
                       | Done k => Done (m, told, k)
                       | Raised m => Raised m | Failed => Failed | UB => UB
                       end
              end
          | _, _ => Failed
          end
      | Raised m => Raised m | Failed => Failed | UB => UB
      end
  | Raised m => Raised m | Failed => Failed | UB => UB
  end.

(** jitc_kernel_write, jitc_kernel_load *)
Record file := { f_size : N; f_mem : N -> N; f_reloc : list N }.
Definition kernel_write (k : kernel) : file :=
  {| f_size := k_size k; f_mem := k_mem k; f_reloc := map (fun r => w64 (r + 2 ^ 64 - k_data k)) (k_reloc k) |}.
Definition kernel_load (f : file) (ptr table : N) : out kernel :=
  if f_size f =? 0 then Failed else
  link {| k_data := ptr; k_len := f_size f; k_size := f_size f; k_mem := f_mem f;
          k_reloc := map (fun r => w64 (ptr + r)) (f_reloc f); k_table := table |}.

(** ** Execution *)
(** Byte at an address *)
Definition code (k : kernel) (a : N) : option N :=
  if (k_data k <=? a) && (a <? k_data k + k_len k) then Some (k_mem k (a - k_data k)) else None.
(** Callable [i]: load ptr @callables (at address [a]), then entry [i] of the array *)
Definition callee (k : kernel) (a : N) (i : nat) : option N :=
  if (k_data k <=? a) && (a + 8 <=? k_data k + k_len k) then
    let v := get8 (k_mem k) (a - k_data k) in
    if (k_table k <=? v) && ((v - k_table k) mod 8 =? 0)
    then nth_error (k_reloc k) (N.to_nat ((v - k_table k) / 8) + i) else None
  else None.
