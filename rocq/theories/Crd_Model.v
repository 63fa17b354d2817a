(** Model of jit_var_call_reduce and of the cache of its results: src/call.cpp:1247-1389,
    with the parts of src/var.cpp that decide about the lifetime of what it returns:
    362-480 (jitc_var_free), jitc_var_write, jitc_var_mem_map, and the registry
    (Registry_Model.v).

    Simplifications: all variables are evaluated arrays of 32-bit integers (other index
    variables are evaluated first); reference counters and the counter of buckets do not
    wrap; allocations have new addresses (C30) and do not fail; jitc_block_mkperm has the
    result of C21; std::sort is a parameter; a variable's slot is given up before instead
    of after its cached buckets are released (nothing is created in between). *)
From Verif Require Import Base Par_Model Mkperm_Spec Registry_Model.
Local Open Scope N_scope.

(** [x_data]: buffer and first element; [x_own] = !retain_data; [x_dep] = dep[3] *)
Record var := {
  x_buf : N; x_off : N; x_len : N; x_own : bool; x_dep : option nat; x_refs : N
}.

(** CallBucket, include/drjit-core/jit.h:2470-2479 *)
Record bucket := { b_ptr : N; b_index : nat; b_id : N }.

Record state := {
  vars : list (option var);                (* state.variables *)
  bufs : N -> option (list N);             (* memory of arrays, None: not allocated *)
  blocks : N -> option (list bucket);      (* memory of bucket lists *)
  next : N;                                (* next address *)
  cache : list (nat * N);                  (* call_reduce_cache: index, buckets *)
  registry : reg
}.

Definition init : state :=
  {| vars := []; bufs := fun _ => None; blocks := fun _ => None; next := 0; cache := [];
     registry := reg_init |}.

Inductive out (A : Type) :=
| Ret (a : A) | Raise | Abort | UB | Hang.
Arguments Ret {A}. Arguments Raise {A}. Arguments Abort {A}. Arguments UB {A}. Arguments Hang {A}.

Definition obind {A B} (x : out A) (f : A -> out B) : out B :=
  match x with Ret a => f a | Raise => Raise | Abort => Abort | UB => UB | Hang => Hang end.
Notation "'do' x <- e ; b" := (obind e (fun x => b)) (at level 200, x pattern, e at level 100, b at level 200).

Definition get (s : state) (i : nat) : option var :=
  match nth_error (vars s) i with Some (Some v) => Some v | _ => None end.

Definition set_vars (s : state) (l : list (option var)) : state :=
  {| vars := l; bufs := bufs s; blocks := blocks s; next := next s; cache := cache s; registry := registry s |}.
Definition set_bufs (s : state) (f : N -> option (list N)) : state :=
  {| vars := vars s; bufs := f; blocks := blocks s; next := next s; cache := cache s; registry := registry s |}.
Definition set_blocks (s : state) (f : N -> option (list bucket)) : state :=
  {| vars := vars s; bufs := bufs s; blocks := f; next := next s; cache := cache s; registry := registry s |}.
Definition set_cache (s : state) (l : list (nat * N)) : state :=
  {| vars := vars s; bufs := bufs s; blocks := blocks s; next := next s; cache := l; registry := registry s |}.
Definition set_registry (s : state) (r : reg) : state :=
  {| vars := vars s; bufs := bufs s; blocks := blocks s; next := next s; cache := cache s; registry := r |}.
Definition set_next (s : state) (n : N) : state :=
  {| vars := vars s; bufs := bufs s; blocks := blocks s; next := n; cache := cache s; registry := registry s |}.

Definition fupd {A} (f : N -> option A) (a : N) (x : option A) : N -> option A :=
  fun b => if b =? a then x else f b.

Definition set_refs (v : var) (n : N) : var :=
  {| x_buf := x_buf v; x_off := x_off v; x_len := x_len v; x_own := x_own v; x_dep := x_dep v; x_refs := n |}.

Definition inc (s : state) (i : nat) : out state :=
  match get s i with
  | None => Abort
  | Some v => Ret (set_vars s (set_nth i (Some (set_refs v (x_refs v + 1))) (vars s)))
  end.

(** jitc_var_new: the lowest unused index (C04) *)
Fixpoint first_free (l : list (option var)) : nat :=
  match l with
  | [] => 0
  | None :: _ => 0
  | Some _ :: r => S (first_free r)
  end.

Definition new_var (s : state) (v : var) : state * nat :=
  let i := first_free (vars s) in
  (set_vars s (if Nat.ltb i (length (vars s)) then set_nth i (Some v) (vars s) else vars s ++ [Some v]), i).

(** jitc_var_mem_map(.., free = 1) of newly allocated memory *)
Definition new_array (s : state) (xs : list N) : state * nat :=
  let a := next s in
  new_var (set_next (set_bufs s (fupd (bufs s) a (Some xs))) (a + 1))
          {| x_buf := a; x_off := 0; x_len := N.of_nat (length xs); x_own := true; x_dep := None; x_refs := 1 |}.

Definition sub {A} (off len : N) (l : list A) : list A := firstn (N.to_nat len) (skipn (N.to_nat off) l).

(** What jit_var_read sees; [None]: a dead variable or released memory *)
Definition data (s : state) (i : nat) : option (list N) :=
  let? v := get s i in let? l := bufs s (x_buf v) in Some (sub (x_off v) (x_len v) l).

(** src/call.cpp:1249-1259: the entry is replaced by the last one. *)
Fixpoint position (i : nat) (l : list (nat * N)) : option nat :=
  match l with
  | [] => None
  | e :: r => if Nat.eqb (fst e) i then Some 0%nat else option_map S (position i r)
  end.

Definition take_out (k : nat) (l : list (nat * N)) : list (nat * N) :=
  removelast (set_nth k (last l (0%nat, 0)) l).

Fixpoint fold_out {A} (f : state -> A -> out state) (s : state) (l : list A) : out state :=
  match l with [] => Ret s | x :: r => do s' <- f s x; fold_out f s' r end.

Definition release_buffer (s : state) (a : N) : out state :=
  match bufs s a with None => Abort | Some _ => Ret (set_bufs s (fupd (bufs s) a None)) end.

Definition release_block (s : state) (a : N) : out state :=
  match blocks s a with None => Abort | Some _ => Ret (set_blocks s (fupd (blocks s) a None)) end.

(** jitc_var_dec_ref and jitc_var_free: memory, cached buckets (src/call.cpp:1249-1266),
    then the variable that owns the memory. *)
Fixpoint dec (fuel : nat) (s : state) (i : nat) : out state :=
  match fuel with
  | O => Hang
  | S f =>
      match get s i with
      | None => Abort
      | Some v =>
          if x_refs v =? 0 then Abort
          else if negb (x_refs v =? 1) then
            Ret (set_vars s (set_nth i (Some (set_refs v (x_refs v - 1))) (vars s)))
          else
            do s1 <- (if x_own v then release_buffer s (x_buf v) else Ret s);
            let s2 := set_vars s1 (set_nth i None (vars s1)) in
            do s3 <- match position i (cache s2) with
                     | None => Ret s2
                     | Some k =>
                         let a := snd (nth k (cache s2) (0%nat, 0)) in
                         match blocks s2 a with
                         | None => UB
                         | Some bs =>
                             do s' <- fold_out (fun s b => dec f s (b_index b))
                                               (set_cache s2 (take_out k (cache s2))) bs;
                             release_block s' a
                         end
                     end;
            match x_dep v with None => Ret s3 | Some p => dec f s3 p end
      end
  end.

Definition dec_ref (s : state) (i : nat) : out state := dec (S (length (vars s))) s i.

(** jit_var_write: in place if there is no other reference, otherwise on a copy *)
Definition write (s : state) (i : nat) (off x : N) : out (state * nat) :=
  match get s i with
  | None => Abort
  | Some v =>
      if x_len v <=? off then Raise
      else if 1 <? x_refs v then
        match data s i with
        | None => UB
        | Some l => Ret (new_array s (set_nth (N.to_nat off) x l))
        end
      else
        match bufs s (x_buf v) with
        | None => UB
        | Some l =>
            do s' <- inc s i;
            Ret (set_bufs s' (fupd (bufs s') (x_buf v) (Some (set_nth (N.to_nat (x_off v + off)) x l))), i)
        end
  end.

(** InputBucket: id, offset, size *)
Definition ibucket := (N * N * N)%type.

Fixpoint quads (l : list N) : list ibucket :=
  match l with a :: b :: c :: _ :: r => (a, b, c) :: quads r | _ => [] end.

(** Registered instances of a domain, or a given largest value *)
Inductive target := Domain (k : key) | Upto (n : N).

Section REDUCE.
Variable sort : list ibucket -> list ibucket.   (* std::sort, src/call.cpp:1344-1350 *)

(** src/call.cpp:1352-1379: one variable per bucket *)
Fixpoint make_buckets (s : state) (t : target) (p : nat) (a : N) (l : list ibucket)
  : out (state * list bucket) :=
  match l with
  | [] => Ret (s, [])
  | (id, off, size) :: r =>
      do s1 <- inc s p;
      let '(s2, j) := new_var s1 {| x_buf := a; x_off := off; x_len := size; x_own := false;
                                    x_dep := Some p; x_refs := 1 |} in
      do q <- match t with
              | Upto _ => Ret 0
              | Domain k => match reg_ptr (registry s2) k id with
                            | Some (OPtr q) => Ret q
                            | Some _ => Raise
                            | None => UB
                            end
              end;
      do x <- make_buckets s2 t p a r;
      Ret (fst x, {| b_ptr := q; b_index := j; b_id := id |} :: snd x)
  end.

(** src/call.cpp:1268-1389. Result: address of the buckets, [None] for a null pointer. *)
Definition call_reduce (s : state) (t : target) (i : nat) : out (state * option N) :=
  match position i (cache s) with
  | Some k => Ret (s, Some (snd (nth k (cache s) (0%nat, 0))))
  | None =>
      do bound <- match t with
                  | Upto n => Ret n
                  | Domain k => match reg_bound (registry s) k with
                                | Some (OId n) => Ret n
                                | _ => UB
                                end
                  end;
      if bound =? 0 then Ret (s, None)
      else
        let B := u32 (bound + 1) in
        match data s i with
        | None => UB
        | Some xs =>
            if (B =? 0) || existsb (fun x => B <=? x) xs then UB
            else
              let n := N.of_nat (length xs) in
              let a := next s in
              let '(s1, p) := new_array s (bucket_sorted xs B 0 n) in
              do x <- make_buckets s1 t p a (sort (quads (bucket_table xs B 0 n)));
              let '(s2, bs) := x in
              do s3 <- dec_ref s2 p;
              let o := next s3 in
              Ret (set_cache (set_next (set_blocks s3 (fupd (blocks s3) o (Some bs))) (o + 1))
                             (cache s3 ++ [(i, o)]), Some o)
        end
  end.

Inductive op :=
| New (xs : list N) | Inc (i : nat) | Dec (i : nat) | Write (i : nat) (off x : N)
| Reduce (t : target) (i : nat) | Registry (o : rop).

(** Results: a variable, buckets (address), or the answer of the registry *)
Inductive answer := AVar (i : nat) | ABuckets (a : option N) | AReg (x : rout) | ANone.

Definition step (s : state) (o : op) : out (state * answer) :=
  match o with
  | New xs => let '(s', i) := new_array s xs in Ret (s', AVar i)
  | Inc i => do s' <- inc s i; Ret (s', ANone)
  | Dec i => do s' <- dec_ref s i; Ret (s', ANone)
  | Write i off x => do r <- write s i off x; Ret (fst r, AVar (snd r))
  | Reduce t i => do r <- call_reduce s t i; Ret (fst r, ABuckets (snd r))
  | Registry o => match reg_step (registry s) o with
                  | Some (_, OFail) => Abort
                  | Some (r, x) => Ret (set_registry s r, AReg x)
                  | None => UB
                  end
  end.
End REDUCE.
