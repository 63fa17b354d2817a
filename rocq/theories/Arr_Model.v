(** Variable arrays: how copies of arrays are elided when a kernel is built.

    Sources: /repo/src/array.cpp (create 17-44, init 46-87, read 98-196,
    buffer 198-223, write 225-383, process 385-441), /repo/src/eval.cpp
    456-466 (the state machine runs over the whole schedule first),
    /repo/src/llvm_eval.cpp 84-194 (arrays are rendered first, then every
    variable in schedule order, and an output is stored right after its
    variable) and /repo/src/llvm_array.cpp 19-26, 47-84, 86-201, 203-333,
    335-367.  The same scheme is used in cuda_array.cpp and metal_array.cpp.

    Simplifications, all named here:
    - one SIMD lane is followed.  A buffer is the list of its entries for that
      lane; the paths for uniform addresses are taken to act on the lane as
      the scatter/gather paths do;
    - types, sizes, backends and reference counts are left out, and so are the
      Debug bounds check and the dirty/evaluate steps;
    - symbolic loops and conditionals (LoopPhi, ArrayPhi, ArraySelect) are left
      out;
    - all non-array operations are [NScal]: any function of scalar operands;
    - a literal offset only changes in which field the storage is kept. *)

From Verif Require Import Base.

(** internal.h 221-235 *)
Inductive astate := Invalid | Clean | Modified | Conflicted.

Definition conflicted (s : astate) : bool :=
  match s with Conflicted => true | _ => false end.

(** The variables that take part.  Operands are indices into the table. *)
Inductive node :=
| NLit   (z : Z)
| NUndef
| NScal  (args : list nat) (f : list Z -> Z)
| NArray (len : nat) (pred : option nat)
| NEvald (data : list Z)
| NInit  (len target value : nat)
| NWrite (len target storage mask off value : nat)
| NRead  (source mask off : nat).

Definition table := list node.

(** ** The interface functions *)

(** Length of an array variable (0: not an array). *)
Definition alen (n : node) : nat :=
  match n with
  | NArray l _ => l
  | NEvald d => length d
  | NInit l _ _ => l
  | NWrite l _ _ _ _ _ => l
  | _ => O
  end.

Definition len_of (t : table) (i : nat) : nat :=
  match nth_error t i with Some n => alen n | None => O end.

(** The same for the indices that the interface hands out: the index of a
    storage array, which is created by a write only, stays inside of the
    library. *)
Definition user_len (t : table) (i : nat) : nat :=
  match nth_error t i with
  | Some (NArray _ (Some _)) => O
  | Some n => alen n
  | None => O
  end.

(** array.cpp:198-217 [jitc_array_buffer].  The C++ loop follows operands; here
    with fuel, an operand being an earlier variable.  The storage of a write
    is an [Array], where the loop stops at the next turn. *)
Fixpoint buffer_go (fuel : nat) (t : table) (i : nat) : option nat :=
  match fuel with
  | O => None
  | S fu =>
      match nth_error t i with
      | Some (NArray _ _) | Some (NEvald _) => Some i
      | Some (NInit _ a _) => buffer_go fu t a
      | Some (NWrite _ _ s _ _ _) => buffer_go fu t s
      | _ => None
      end
  end.

Definition array_buffer (t : table) (i : nat) : option nat :=
  buffer_go (S (length t)) t i.

(** What a program does with the interface. *)
Inductive call :=
| CLit    (z : Z)
| CScal   (args : list nat) (f : list Z -> Z)
| CCreate (len : nat)
| CInput  (data : list Z)                  (** an array evaluated earlier *)
| CInit   (target value : nat)
| CWrite  (target off value mask : nat)
| CRead   (symbolic : bool) (source off mask : nat)
| CEval   (i : nat) (data : list Z).       (** array [i] gets evaluated *)

Definition is_false (t : table) (m : nat) : bool :=
  match nth_error t m with Some (NLit z) => Z.eqb z 0 | _ => false end.

(** The variables that a call adds, the table afterwards and the index that it
    returns.  [None]: the call raises. *)
Definition api (t : table) (c : call) : option (table * nat) :=
  match c with
  | CLit z => Some (t ++ [NLit z], length t)
  | CScal args f =>
      if forallb (fun a => (a <? length t)%nat) args
      then Some (t ++ [NScal args f], length t) else None
  (** array.cpp:24-25: no variable is created for length 0 *)
  | CCreate len =>
      if (0 <? len)%nat then Some (t ++ [NArray len None], length t) else None
  | CInput d =>
      if (0 <? length d)%nat then Some (t ++ [NEvald d], length t) else None
  (** array.cpp:46-87 *)
  | CInit a v =>
      if ((0 <? user_len t a)%nat && (v <? length t)%nat && (len_of t v =? 0)%nat)%bool
      then Some (t ++ [NInit (len_of t a) a v], length t)
      else None
  (** array.cpp:225-383.  A literal 'false' mask returns the target (245-248).
      The storage is created last (360-361); here it comes before the write so
      that operands are earlier variables. *)
  | CWrite a o v m =>
      if ((0 <? user_len t a)%nat && (o <? length t)%nat && (v <? length t)%nat
          && (m <? length t)%nat && (len_of t v =? 0)%nat)%bool
      then if is_false t m then Some (t, a)
           else match array_buffer t a with
                | Some b =>
                    Some (t ++ [NArray (len_of t a) (Some b);
                                NWrite (len_of t a) a (length t) m o v],
                          S (length t))
                | None => None
                end
      else None
  (** array.cpp:98-196.  A literal 'false' mask gives a zero (124-128).  Outside
      of symbolic regions, reading an initialized array returns the initial
      value (160-163), reading a fresh array is undefined (164-167). *)
  | CRead sym a o m =>
      if ((0 <? user_len t a)%nat && (o <? length t)%nat && (m <? length t)%nat)%bool
      then if is_false t m then Some (t ++ [NLit 0], length t)
           else match sym, nth_error t a with
                | false, Some (NInit _ _ v) => Some (t, v)
                | false, Some (NArray _ _) => Some (t ++ [NUndef], length t)
                | _, _ => Some (t ++ [NRead a m o], length t)
                end
      else None
  (** eval.cpp:1170-1217: an evaluated variable loses its operands; the
      storage of a later write keeps the predecessor that it has. *)
  | CEval i d =>
      if ((0 <? user_len t i)%nat && (length d =? len_of t i)%nat)%bool
      then Some (set_nth i (NEvald d) t, i)
      else None
  end.

Fixpoint api_all (t : table) (l : list call) : option table :=
  match l with
  | [] => Some t
  | c :: l =>
      match api t c with
      | Some (t', _) => api_all t' l
      | None => None
      end
  end.

(** ** The state machine, array.cpp:385-441 *)

Definition states := nat -> astate.

Definition fupd {A} (i : nat) (x : A) (f : nat -> A) : nat -> A :=
  fun j => if (j =? i)%nat then x else f j.

(** array.cpp:408-419 *)
Definition on_write (out : bool) (s : astate) : astate :=
  let s' := match s with
            | Clean => Modified
            | Modified | Conflicted => Conflicted
            | Invalid => Invalid
            end in
  if out then Conflicted else s'.

(** array.cpp:420-426 *)
Definition on_read (s : astate) : astate :=
  match s with
  | Clean => Clean
  | Modified | Conflicted => Conflicted
  | Invalid => Invalid
  end.

(** array.cpp:431-440: store the state into the parent and, if the parent is a
    write, into its buffer.  [None]: raise. *)
Definition set_parent (t : table) (p : nat) (s : astate) (st : states) : option states :=
  match s with
  | Invalid => None
  | _ =>
      let st1 := fupd p s st in
      match nth_error t p with
      | Some (NWrite _ _ _ _ _ _) =>
          match array_buffer t p with
          | Some b => Some (fupd b s st1)
          | None => None
          end
      | _ => Some st1
      end
  end.

(** array.cpp:385-441 [jitc_process_array_op], called for array variables
    (eval.cpp:459-465; not for evaluated ones) *)
Definition process_op (t : table) (outs : nat -> bool) (i : nat) (st : states)
  : option states :=
  match nth_error t i with
  | Some (NArray _ _) => Some (fupd i Clean st)
  | Some (NInit _ a _) =>
      let st := fupd i Clean st in
      set_parent t a (on_write (outs i) (st a)) st
  | Some (NWrite _ a _ _ _ _) =>
      let st := fupd i Clean st in
      set_parent t a (on_write (outs i) (st a)) st
  | Some (NRead a _ _) =>
      set_parent t a (on_read (st a)) st
  | _ => Some st
  end.

Fixpoint process_all (t : table) (outs : nat -> bool) (order : list nat) (st : states)
  : option states :=
  match order with
  | [] => Some st
  | i :: l =>
      match process_op t outs i st with
      | Some st' => process_all t outs l st'
      | None => None
      end
  end.

(** ** Rendering *)

Definition is_arr (n : option node) : bool :=
  match n with Some (NArray _ _) | Some (NEvald _) => true | _ => false end.

(** llvm_array.cpp:19-26.  Registers are numbered like the variables. *)
Definition render_array (t : table) (st : states) (i : nat) (rg : nat -> nat) : nat -> nat :=
  match nth_error t i with
  | Some (NArray _ (Some p)) =>
      if negb (conflicted (st p)) then fupd i (rg p) rg else rg
  | _ => rg
  end.

(** llvm_eval.cpp:84-93: stops at the first variable of another kind *)
Fixpoint render_arrays (t : table) (st : states) (order : list nat) (rg : nat -> nat)
  : nat -> nat :=
  match order with
  | [] => rg
  | i :: l =>
      if is_arr (nth_error t i)
      then render_arrays t st l (render_array t st i rg)
      else rg
  end.

(** State of the kernel while one packet runs: registers, buffers, scalars and
    what was stored into output arrays and output variables. *)
Record kst := { k_reg : nat -> nat; k_mem : nat -> list Z; k_ev : nat -> Z;
                k_outa : list (nat * list Z); k_outs : list (nat * Z) }.

Definition set_ev (i : nat) (z : Z) (k : kst) : kst :=
  {| k_reg := k_reg k; k_mem := k_mem k; k_ev := fupd i z (k_ev k);
     k_outa := k_outa k; k_outs := k_outs k |}.

Definition set_mem (r : nat) (l : list Z) (k : kst) : kst :=
  {| k_reg := k_reg k; k_mem := fupd r l (k_mem k); k_ev := k_ev k;
     k_outa := k_outa k; k_outs := k_outs k |}.

Definition set_reg (i r : nat) (k : kst) : kst :=
  {| k_reg := fupd i r (k_reg k); k_mem := k_mem k; k_ev := k_ev k;
     k_outa := k_outa k; k_outs := k_outs k |}.

(** One variable.  [None]: an access outside of the buffer. *)
Definition render_op (t : table) (st : states) (i : nat) (k : kst) : option kst :=
  match nth_error t i with
  | Some (NLit z) => Some (set_ev i z k)
  | Some NUndef => Some (set_ev i 0 k)
  | Some (NScal args f) => Some (set_ev i (f (map (k_ev k) args)) k)
  | Some (NArray _ _) => Some k
  (** llvm_eval.cpp:121-123, llvm_array.cpp:335-347 *)
  | Some (NEvald d) => Some (set_mem (k_reg k i) d k)
  (** llvm_array.cpp:47-84 *)
  | Some (NInit len a v) =>
      let k := set_reg i (k_reg k a) k in
      Some (set_mem (k_reg k i) (repeat (k_ev k v) len) k)
  (** llvm_array.cpp:203-333 *)
  | Some (NWrite _ a s m o v) =>
      let copy := conflicted (st a) in
      let b := if copy then k_reg k s else k_reg k a in
      let k := if copy then set_mem b (k_mem k (k_reg k a)) k else k in
      let k := set_reg i b k in
      if Z.eqb (k_ev k m) 0 then Some k
      else let off := Z.to_nat (k_ev k o) in
           if ((0 <=? k_ev k o)%Z && (off <? length (k_mem k b))%nat)%bool
           then Some (set_mem b (set_nth off (k_ev k v) (k_mem k b)) k)
           else None
  (** llvm_array.cpp:86-201 *)
  | Some (NRead a m o) =>
      if Z.eqb (k_ev k m) 0 then Some (set_ev i 0 k)
      else let off := Z.to_nat (k_ev k o) in
           if (0 <=? k_ev k o)%Z
           then match nth_error (k_mem k (k_reg k a)) off with
                | Some z => Some (set_ev i z k)
                | None => None
                end
           else None
  | None => None
  end.

(** llvm_eval.cpp:177-194 *)
Definition store_out (t : table) (outs : nat -> bool) (i : nat) (k : kst) : kst :=
  if outs i
  then match nth_error t i with
       | Some n =>
           if (alen n =? 0)%nat
           then {| k_reg := k_reg k; k_mem := k_mem k; k_ev := k_ev k;
                   k_outa := k_outa k; k_outs := k_outs k ++ [(i, k_ev k i)] |}
           else {| k_reg := k_reg k; k_mem := k_mem k; k_ev := k_ev k;
                   k_outa := k_outa k ++ [(i, k_mem k (k_reg k i))];
                   k_outs := k_outs k |}
       | None => k
       end
  else k.

Fixpoint render_all (t : table) (st : states) (outs : nat -> bool) (order : list nat)
  (k : kst) : option kst :=
  match order with
  | [] => Some k
  | i :: l =>
      match render_op t st i k with
      | Some k' => render_all t st outs l (store_out t outs i k')
      | None => None
      end
  end.

(** The kernel for one schedule, run on one packet.  [st0]: the states left by
    earlier kernels; [mem0]: the buffers are not cleared. *)
Definition kernel (t : table) (outs : nat -> bool) (order : list nat)
  (st0 : states) (mem0 : nat -> list Z) (ev0 : nat -> Z) : option kst :=
  match process_all t outs order st0 with
  | Some st =>
      render_all t st outs order
        {| k_reg := render_arrays t st order (fun i => i); k_mem := mem0;
           k_ev := ev0; k_outa := []; k_outs := [] |}
  | None => None
  end.
