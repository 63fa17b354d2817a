(** The kernel history: src/init.cpp:777-864 (KernelHistory::append/get/clear),
    src/api.cpp:1429-1438, src/llvm_ts.cpp:32-43, 194-198, src/cuda_ts.cpp:22-46, 55-60, 119-123,
    src/eval.cpp:691-712, 840-849 (entries); include/drjit-core/jit.h:2723-2729 (how clients free it).

    Simplifications: LLVM and CUDA; an entry is a number that stands for what it reports; a kernel
    has one reference to a task, or one pair of events ([held]); blocks of memory have numbers;
    no failures of CUDA functions except for times of kernels that still run. *)
From Verif Require Import Base.

Inductive backend := LLVM | CUDA.
Record entry := { e_be : backend; e_ir : option nat; e_work : nat; e_tag : nat; e_timed : bool }.
(** One element of the array: not initialized; zero (backend None); an entry *)
Inductive cell := Junk | Zero | Ent (e : entry).

Record state := {
  h_data : option nat; h_size : nat; h_cap : nat;          (* state.kernel_history *)
  arr : nat -> list cell; live : nat -> bool; next : nat;   (* memory *)
  held : nat -> bool; fin : nat -> bool; thr : nat -> nat; works : nat  (* tasks, events *)
}.
Definition initial : state :=
  {| h_data := None; h_size := 0; h_cap := 0; arr := fun _ => []; live := fun _ => false; next := 0;
     held := fun _ => false; fin := fun _ => false; thr := fun _ => 0; works := 0 |}.

Definition upd {A} (f : nat -> A) (i : nat) (x : A) : nat -> A := fun j => if Nat.eqb j i then x else f j.
Definition set_hist (s : state) (d : option nat) (n c : nat) : state :=
  {| h_data := d; h_size := n; h_cap := c; arr := arr s; live := live s; next := next s;
     held := held s; fin := fin s; thr := thr s; works := works s |}.
Definition set_arr (s : state) (b : nat) (l : list cell) : state :=
  {| h_data := h_data s; h_size := h_size s; h_cap := h_cap s; arr := upd (arr s) b l; live := live s; next := next s;
     held := held s; fin := fin s; thr := thr s; works := works s |}.
Definition set_work (s : state) (h f : nat -> bool) : state :=
  {| h_data := h_data s; h_size := h_size s; h_cap := h_cap s; arr := arr s; live := live s; next := next s;
     held := h; fin := f; thr := thr s; works := works s |}.
Definition malloc (s : state) (l : list cell) : state * nat :=
  ({| h_data := h_data s; h_size := h_size s; h_cap := h_cap s; arr := upd (arr s) (next s) l;
      live := upd (live s) (next s) true; next := S (next s);
      held := held s; fin := fin s; thr := thr s; works := works s |}, next s).
(** [None]: undefined behaviour (here, a double free) *)
Definition free (s : state) (p : option nat) : option state :=
  match p with
  | None => Some s
  | Some b => if live s b then
      Some {| h_data := h_data s; h_size := h_size s; h_cap := h_cap s; arr := arr s; live := upd (live s) b false; next := next s;
              held := held s; fin := fin s; thr := thr s; works := works s |} else None
  end.

(** Larger array, if there is no space for an entry and the end marker *)
Definition grow (s : state) : option state :=
  if Nat.ltb (h_cap s) (h_size s + 2) then
    let cap := (h_size s + 2) * 2 in
    let old := match h_data s with Some b => if live s b then arr s b else [] | None => [] end in
    if Nat.ltb (length old) (h_size s) then None else
    let '(s, tmp) := malloc s (firstn (h_size s) old ++ repeat Junk (cap - h_size s)) in
    let? s := free s (h_data s) in
    Some (set_hist s (Some tmp) (h_size s) cap)
  else Some s.
Definition append (s : state) (e : entry) : option state :=
  let? s := grow s in
  match h_data s with
  | None => None
  | Some b =>
      if live s b && Nat.ltb (h_size s + 1) (length (arr s b)) then
        let s' := set_arr s b (set_nth (h_size s + 1) Zero (set_nth (h_size s) (Ent e) (arr s b))) in
        Some (set_hist s' (Some b) (h_size s + 1) (h_cap s))
      else None
  end.

(** A launch while JitFlag::KernelHistory is set; [jit]: not a builtin kernel *)
Definition launch (s : state) (be : backend) (jit : bool) (th tag : nat) : option state :=
  let '(s, ir) := if jit then let '(s, b) := malloc s [] in (s, Some b) else (s, None) in
  let k := works s in
  let s := {| h_data := h_data s; h_size := h_size s; h_cap := h_cap s; arr := arr s; live := live s; next := next s;
              held := upd (held s) k true; fin := upd (fin s) k false; thr := upd (thr s) k th; works := S k |} in
  append s {| e_be := be; e_ir := ir; e_work := k; e_tag := tag; e_timed := false |}.

(** Waiting for the kernels of a thread *)
Definition sync (s : state) (th : nat) : state :=
  set_work s (held s) (fun k => fin s k || Nat.eqb (thr s k) th).

Fixpoint finalize (s : state) (l : list cell) : option (state * list cell) :=
  match l with
  | [] => Some (s, [])
  | Ent e :: r =>
      let k := e_work e in
      if negb (held s k) then None else
      let f := match e_be e with LLVM => upd (fin s) k true | CUDA => fin s end in   (* task_wait *)
      let e' := {| e_be := e_be e; e_ir := e_ir e; e_work := k; e_tag := e_tag e; e_timed := f k |} in
      let? (s, r) := finalize (set_work s (upd (held s) k false) f) r in
      Some (s, Ent e' :: r)
  | _ :: _ => None
  end.
Definition get (s : state) : option (state * option nat) :=
  match h_data s with
  | None => if Nat.eqb (h_size s) 0 then Some (set_hist s None 0 0, None) else None
  | Some b =>
      if negb (live s b) || Nat.ltb (length (arr s b)) (h_size s) then None else
      let rest := skipn (h_size s) (arr s b) in
      let? (s, l) := finalize s (firstn (h_size s) (arr s b)) in
      Some (set_hist (set_arr s b (l ++ rest)) None 0 0, Some b)
  end.

Fixpoint release (s : state) (l : list cell) : option state :=
  match l with
  | [] => Some s
  | Ent e :: r =>
      if negb (held s (e_work e)) then None else
      let? s := free (set_work s (upd (held s) (e_work e) false) (fin s)) (e_ir e) in
      release s r
  | _ :: _ => None
  end.
Definition clear (s : state) : option state :=
  if Nat.eqb (h_size s) 0 then Some s else
  match h_data s with
  | None => None
  | Some b =>
      if negb (live s b) || Nat.ltb (length (arr s b)) (h_size s) then None else
      let? s := release s (firstn (h_size s) (arr s b)) in
      let? s := free s (Some b) in
      Some (set_hist s None 0 0)
  end.

(** The client: free all strings up to the end marker, then the array *)
Fixpoint walk (s : state) (l : list cell) : option state :=
  match l with
  | Zero :: _ => Some s
  | Ent e :: r => let? s := free s (e_ir e) in walk s r
  | _ => None
  end.
Definition client_free (s : state) (b : nat) : option state :=
  if live s b then let? s := walk s (arr s b) in free s (Some b) else None.

(** The same applied to a result of jit_kernel_history as documented, without a test: a null
    pointer is dereferenced *)
Definition documented (s : state) (p : option nat) : option state :=
  match p with Some b => client_free s b | None => None end.

Inductive op :=
  | Launch (be : backend) (jit : bool) (th tag : nat)
  | Finish (k : nat)                                       (* a kernel ends *)
  | History (th : nat)
  | Clear
  | Free (b : nat).
Inductive res := RNone | RPtr (p : option nat).
Definition step (s : state) (o : op) : option (state * res) :=
  match o with
  | Launch be jit th tag => let? s := launch s be jit th tag in Some (s, RNone)
  | Finish k => Some (set_work s (held s) (upd (fin s) k true), RNone)
  | History th => let? (s, p) := get (sync s th) in Some (s, RPtr p)
  | Clear => let? s := clear s in Some (s, RNone)
  | Free b => let? s := client_free s b in Some (s, RNone)
  end.
Fixpoint run (s : state) (l : list op) : option (state * list res) :=
  match l with
  | [] => Some (s, [])
  | o :: r => let? (s, x) := step s o in let? (s, t) := run s r in Some (s, x :: t)
  end.
