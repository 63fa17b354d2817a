(** Migration of variables between kinds of memory: src/var.cpp:2056-2174 (jitc_var_migrate),
    src/malloc.cpp:314-431 (jitc_malloc_migrate with move=0), src/var.cpp:1714-1728 (jitc_var_eval).

    Simplifications: LLVM and CUDA; one device; one thread; a block of memory is a list of
    elements; blocks are not freed (nor reused); [queue] has the work submitted to the backend of
    the variable; work for another backend only concerns new blocks and is done at once. *)
From Verif Require Import Base.

Inductive backend := LLVM | GPU.
Inductive dest := DNone | DBe (b : backend).
(** Memory: of the host (backend None), of LLVM, of the GPU, of the GPU and accessible to the host *)
Inductive flavor := Host | Cpu | Gpu | Shared.
(** [b_own]: in state.alloc_used *)
Record block := { b_flavor : flavor; b_own : bool; b_data : list Z }.
Definition memory := nat -> option block.
Inductive action := ASet (b : nat) (l : list Z) | APut (b i : nat) (z : Z) | ACopy (d s : nat).
Record state := { mem : memory; next : nat; queue : list action }.

Inductive content := Lit (z : Z) | Undef | Expr (l : list Z) | Mem (b : nat) (puts : list (nat * Z)).
(** [puts]: pending scatters *)
Record var := { v_be : backend; v_len : nat; v_con : content }.

Definition be_eqb (a b : backend) : bool := match a, b with LLVM, LLVM | GPU, GPU => true | _, _ => false end.
Definition upd (m : memory) (b : nat) (x : block) : memory := fun i => if Nat.eqb i b then Some x else m i.
Definition put_data (m : memory) (b : nat) (x : block) (l : list Z) : memory :=
  upd m b {| b_flavor := b_flavor x; b_own := b_own x; b_data := l |}.
Definition host_ok (f : flavor) : bool := match f with Gpu => false | _ => true end.
Definition kernel_ok (be : backend) (f : flavor) : bool :=
  match be, f with LLVM, Gpu => false | GPU, (Host | Cpu) => false | _, _ => true end.
(** memcpy by the host or LLVM; cuMemcpyAsync accepts all kinds of memory *)
Definition copy_ok (be : backend) (f : flavor) : bool := match be with LLVM => host_ok f | GPU => true end.

(** [None]: invalid access *)
Definition exec (be : backend) (m : memory) (a : action) : option memory :=
  match a with
  | ASet b l => match m b with
                | Some x => if kernel_ok be (b_flavor x) then Some (put_data m b x l) else None
                | None => None
                end
  | APut b i z => match m b with
                  | Some x => if kernel_ok be (b_flavor x) then Some (put_data m b x (set_nth i z (b_data x))) else None
                  | None => None
                  end
  | ACopy d s => match m d, m s with
                 | Some x, Some y => if copy_ok be (b_flavor x) && copy_ok be (b_flavor y)
                                     then Some (put_data m d x (b_data y)) else None
                 | _, _ => None
                 end
  end.
Fixpoint run (be : backend) (m : memory) (l : list action) : option memory :=
  match l with
  | [] => Some m
  | a :: r => let? m := exec be m a in run be m r
  end.

Definition malloc (s : state) (f : flavor) (l : list Z) : state * nat :=
  ({| mem := upd (mem s) (next s) {| b_flavor := f; b_own := true; b_data := l |}; next := S (next s); queue := queue s |}, next s).
Definition flavor_of (d : dest) : flavor := match d with DNone => Host | DBe LLVM => Cpu | DBe GPU => Gpu end.
Definition backend_of (f : flavor) : dest := match f with Host => DNone | Cpu => DBe LLVM | Gpu | Shared => DBe GPU end.

(** Results: state and value, an exception, or an invalid access *)
Inductive result (A : Type) := Ok (s : state) (a : A) | Err | Bad.
Arguments Ok {A}. Arguments Err {A}. Arguments Bad {A}.

Section Backend.
Variable be : backend.    (* that of the variable *)

Definition submit (s : state) (b : backend) (a : action) : option state :=
  if be_eqb b be then Some {| mem := mem s; next := next s; queue := queue s ++ [a] |}
  else let? m := exec b (mem s) a in Some {| mem := m; next := next s; queue := queue s |}.
(** Copy by the calling thread *)
Definition memcpy (s : state) (d c : nat) : option state :=
  let? m := exec LLVM (mem s) (ACopy d c) in Some {| mem := m; next := next s; queue := queue s |}.
Definition lift {A} (r : option state) (a : A) : result A := match r with Some s => Ok s a | None => Bad end.

Definition malloc_migrate (s : state) (b : nat) (x : block) (dst : dest) (junk : list Z) : result nat :=
  match backend_of (b_flavor x), dst with
  | DBe LLVM, DBe GPU | DBe GPU, DBe LLVM => Err
  | DBe LLVM, (DNone | DBe LLVM) =>                  (* prefer LLVM to use async copies *)
      let '(s, n) := malloc s Cpu junk in lift (submit s LLVM (ACopy n b)) n
  | DNone, (DNone | DBe LLVM) =>                     (* synchronous memcpy *)
      let '(s, n) := malloc s (flavor_of dst) junk in lift (memcpy s n b) n
  | DNone, DBe GPU =>                                (* stage through a shared buffer *)
      let '(s, n) := malloc s Gpu junk in
      let '(s, t) := malloc s Shared junk in
      lift (let? s := memcpy s t b in submit s GPU (ACopy n t)) n
  | DBe GPU, DBe GPU => let '(s, n) := malloc s Gpu junk in lift (submit s GPU (ACopy n b)) n
  | DBe GPU, DNone => let '(s, n) := malloc s Shared junk in lift (submit s GPU (ACopy n b)) n
  end.

(** Evaluation of variables that are not in memory or have pending scatters *)
Definition eval (s : state) (v : var) (junk : list Z) : state * nat :=
  match v_con v with
  | Expr l => let '(s, n) := malloc s (flavor_of (DBe be)) junk in
              ({| mem := mem s; next := next s; queue := queue s ++ [ASet n l] |}, n)
  | Mem b puts => ({| mem := mem s; next := next s; queue := queue s ++ map (fun p => APut b (fst p) (snd p)) puts |}, b)
  | _ => (s, 0)
  end.

(** [junk]: what is in new memory.  Results have the backend of the source. *)
Definition var_migrate (s : state) (v : var) (dst : dest) (junk : list Z) : result var :=
  match v_con v with
  | Lit z =>
      let '(s, n) := malloc s (flavor_of dst) junk in
      let fill := ASet n (repeat z (v_len v)) in
      let r := {| v_be := be; v_len := v_len v; v_con := Mem n [] |} in
      match dst with
      | DNone => lift (let? m := exec LLVM (mem s) fill in Some {| mem := m; next := next s; queue := queue s |}) r
      | DBe d => lift (submit s d fill) r
      end
  | Undef =>
      let '(s, n) := malloc s (flavor_of dst) junk in
      Ok s {| v_be := be; v_len := v_len v; v_con := Mem n [] |}
  | _ =>
      let '(s, b) := eval s v junk in
      match mem s b with
      | None => Bad
      | Some x =>
          let r := if b_own x then malloc_migrate s b x dst junk
                   else let '(s, n) := malloc s (flavor_of dst) junk in lift (submit s be (ACopy n b)) n in
          match r with
          | Ok s n => Ok s {| v_be := be; v_len := v_len v; v_con := Mem n [] |}   (* n <> b *)
          | Err => Err
          | Bad => Bad
          end
      end
  end.
End Backend.
