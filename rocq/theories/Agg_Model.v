(** Queries and rearrangements of whole arrays: src/var.cpp:2294-2414 (jitc_var_any,
    jitc_var_all, their asynchronous forms, jitc_var_compress), 2466-2604
    (jitc_var_block_reduce, jitc_var_tile, jitc_var_repeat), 2713-2755
    (jitc_var_reduce_dot), 3039-3053 (jitc_var_reverse), with the parts of
    src/util.cpp:153-214, src/init.cpp:919-942 and src/llvm_ts.cpp:479-513 below them.

    Values are numbers; masks are stored as one byte per entry.  A buffer is an
    allocation that starts at the data pointer of the variables that use it.
    Simplifications: no reference counts (variables live forever), no symbolic
    variables, one backend; the values of an unevaluated variable are a function of the
    lane that does not depend on memory; kernels are executed as soon as they are
    launched; parallel reductions are folds in increasing order. *)
From Verif Require Import Base.
Local Open Scope N_scope.

Inductive ty := TBool | TInt | TFlt.
Inductive rop := Add | Mul | Min | Max | And | Or.
Definition ty_eqb (a b : ty) : bool :=
  match a, b with TBool, TBool | TInt, TInt | TFlt, TFlt => true | _, _ => false end.

(** Arithmetic.  [red]: the binary operation of a reduction; [idn]: jitc_reduce_identity
    (var.cpp:2642-2652); [rep op t n x]: jitc_reduce_scalar_add / _mul (var.cpp:2430-2464)
    for these two, [x] for the others; [fma x y z] = x * y + z; [can]:
    jitc_can_scatter_reduce (op.cpp:2735-2790); [bytes]: type_size. *)
Record arith := {
  red : rop -> ty -> Z -> Z -> Z;
  idn : rop -> ty -> Z;
  rep : rop -> ty -> N -> Z -> Z;
  fma : Z -> Z -> Z -> Z;
  can : rop -> ty -> bool;
  bytes : ty -> N }.

(** ** State *)
(** [b_cap] entries of the element type belong to the allocation *)
Record buf := { b_cap : N; b_dat : N -> Z }.
(** internal.h VarKind: Literal, Undefined, DefaultMask, Evaluated, everything else *)
Inductive kind := KLit (x : Z) | KUndef | KMask | KNode (f : N -> Z) | KEval (b : nat).
Record var := { v_kind : kind; v_ty : ty; v_size : N; v_dirty : bool }.
(** A scatter that was recorded and not executed yet: lane [l] stores [q_val l] at
    [q_idx l], or combines it with what is there *)
Record pend := { q_buf : nat; q_n : N; q_idx : N -> N; q_val : N -> Z; q_op : option rop; q_ty : ty }.
Record st := { s_bufs : list buf; s_vars : list var; s_pend : list pend }.

Inductive res := RBool (b : bool) | RVar (i : nat) | REmpty | RErr.
(** [UB]: an access to memory outside the allocation, through a null pointer, or through
    a literal taken for a pointer, or a result that is read before it is written *)
Inductive out := Ok (s : st) (r : res) | UB.

Definition upto (n : N) : list N := map N.of_nat (seq 0 (N.to_nat n)).

Section Model.
Variable ar : arith.
(** pool_size() and jitc_llvm_block_size *)
Variables workers ideal : N.

Definition put (d : N -> Z) (k : N) (x : Z) : N -> Z := fun l => if l =? k then x else d l.
Definition lane (q : pend) (d : N -> Z) (l : N) : N -> Z :=
  let k := q_idx q l in
  put d k (match q_op q with None => q_val q l | Some o => red ar o (q_ty q) (d k) (q_val q l) end).
Definition apply (q : pend) (d : N -> Z) : N -> Z := fold_left (lane q) (upto (q_n q)) d.
Definition settle (p : list pend) (b : nat) (d : N -> Z) : N -> Z :=
  fold_left (fun d q => if Nat.eqb (q_buf q) b then apply q d else d) p d.

(** The values of a variable, once everything that was recorded is executed *)
Definition mem (s : st) (b : nat) : N -> Z :=
  match nth_error (s_bufs s) b with Some x => b_dat x | None => fun _ => 0%Z end.
Definition content (s : st) (v : var) (l : N) : Z :=
  match v_kind v with
  | KLit x => x
  | KUndef => 0%Z
  | KMask => 1%Z
  | KNode f => f l
  | KEval b => settle (s_pend s) b (mem s b) l
  end.

Fixpoint flush_bufs (p : list pend) (b : nat) (l : list buf) : list buf :=
  match l with
  | [] => []
  | x :: r => {| b_cap := b_cap x; b_dat := settle p b (b_dat x) |} :: flush_bufs p (S b) r
  end.
Definition clean (v : var) : var := {| v_kind := v_kind v; v_ty := v_ty v; v_size := v_size v; v_dirty := false |}.
(** jitc_eval (eval.cpp), as far as side effects are concerned *)
Definition flush (s : st) : st :=
  {| s_bufs := flush_bufs (s_pend s) 0 (s_bufs s); s_vars := map clean (s_vars s); s_pend := [] |}.

Definition with_kind (v : var) (k : kind) : var := {| v_kind := k; v_ty := v_ty v; v_size := v_size v; v_dirty := false |}.
Definition set_var (s : st) (i : nat) (v : var) : st :=
  {| s_bufs := s_bufs s; s_vars := set_nth i v (s_vars s); s_pend := s_pend s |}.
(** jitc_malloc (malloc.cpp) leaves room for up to three more bytes *)
Definition padded (n : N) : N := (n + 3) / 4 * 4.
Definition malloc (s : st) (n : N) (d : N -> Z) : st :=
  {| s_bufs := s_bufs s ++ [{| b_cap := padded n; b_dat := d |}]; s_vars := s_vars s; s_pend := s_pend s |}.
(** jitc_var_new; the result is the new index *)
Definition new (s : st) (k : kind) (t : ty) (n : N) (d : bool) : st * nat :=
  ({| s_bufs := s_bufs s; s_vars := s_vars s ++ [{| v_kind := k; v_ty := t; v_size := n; v_dirty := d |}]; s_pend := s_pend s |},
   length (s_vars s)).
Definition ret (x : st * nat) : out := Ok (fst x) (RVar (snd x)).
(** jitc_malloc, a kernel that computes [d], jitc_var_mem_map *)
Definition fresh (s : st) (t : ty) (n : N) (d : N -> Z) : st * nat :=
  new (malloc s n d) (KEval (length (s_bufs s))) t n false.

(** var.cpp:1714-1728 with 1657-1678: nodes are computed, pending scatters executed;
    literal and undefined variables stay what they are *)
Definition var_eval (s : st) (i : nat) : st :=
  match nth_error (s_vars s) i with
  | None => s
  | Some v =>
      match v_kind v with
      | KNode _ | KMask =>
          let s := flush s in
          set_var (malloc s (v_size v) (content s v)) i (with_kind v (KEval (length (s_bufs s))))
      | _ => if v_dirty v then flush s else s
      end
  end.

(** The pointer [v->data]; a literal shares its storage *)
Definition data (v : var) : option nat := match v_kind v with KEval b => Some b | _ => None end.

(** ** Masks *)
Definition byte (x : Z) : Z := (x mod 256)%Z.
(** Four bytes read as a 32-bit number *)
Definition word (d : N -> Z) (w : N) : Z :=
  (byte (d (4 * w)%N) + 256 * byte (d (4 * w + 1)%N) + 65536 * byte (d (4 * w + 2)%N) + 16777216 * byte (d (4 * w + 3)%N))%Z.
Definition bitop (o : rop) : Z -> Z -> Z := match o with Or => Z.lor | _ => Z.land end.
Definition ident (o : rop) (m : Z) : Z := match o with Or => 0%Z | _ => m end.
(** init.cpp:919-942 followed by block_reduce of 32-bit words (llvm_ts.cpp:265-278: nothing is
    written if there is no word).  [o] is [Or] or [And]. *)
Definition reduce_bool (s : st) (b : nat) (size : N) (o : rop) : option (st * Z) :=
  let size_4 := u32 (size + 4 - 1) / 4 in
  let trailing := sub32 (u32 (size_4 * 4)) size in
  match nth_error (s_bufs s) b with
  | None => None
  | Some x =>
      if b_cap x <? size + trailing then None else
      let filler := match o with Or => 0%Z | _ => 1%Z end in
      let d := fun l => if (size <=? l) && (l <? size + trailing) then filler else b_dat x l in
      let s := {| s_bufs := set_nth b {| b_cap := b_cap x; b_dat := d |} (s_bufs s); s_vars := s_vars s; s_pend := s_pend s |} in
      if size_4 =? 0 then None else
      if b_cap x <? size_4 * 4 then None else
      Some (s, fold_left (fun r w => bitop o r (word d w)) (upto size_4) (ident o 0xffffffff%Z))
  end.
(** Byte [k] of a word in memory *)
Definition byte_of (w : Z) (k : Z) : Z := byte (Z.shiftr w (8 * k)).
(** util.cpp:174-214: the four bytes are combined *)
Definition combine4 (o : rop) (w : Z) : Z :=
  bitop o (bitop o (bitop o (byte_of w 0) (byte_of w 1)) (byte_of w 2)) (byte_of w 3).
(** util.cpp:163-171: ... by a reduction of four 8-bit numbers *)
Definition combine4_async (o : rop) (w : Z) : Z :=
  fold_left (fun r k => bitop o r (byte_of w k)) [0; 1; 2; 3]%Z (ident o 255%Z).

Definition queried (v : var) (o : rop) : option bool :=
  match v_kind v, o with
  | KMask, Or => Some true
  | KLit x, _ => Some (negb (x =? 0)%Z)
  | _, _ => None
  end.
(** var.cpp:2294-2313 (Or), 2341-2357 (And) *)
Definition var_query (o : rop) (s : st) (i : nat) : out :=
  match nth_error (s_vars s) i with
  | None => UB
  | Some v =>
      if negb (ty_eqb (v_ty v) TBool) then Ok s RErr else
      match queried v o with
      | Some r => Ok s (RBool r)
      | None =>
          let s := var_eval s i in
          match nth_error (s_vars s) i with
          | None => UB
          | Some v =>
              match data v with
              | None => UB
              | Some b =>
                  match reduce_bool s b (v_size v) o with
                  | None => UB
                  | Some (s, w) => Ok s (RBool (negb (combine4 o w =? 0)%Z))
                  end
              end
          end
      end
  end.
(** var.cpp:2315-2339 (Or), 2359-2380 (And): the first byte of a new array *)
Definition var_query_async (o : rop) (s : st) (i : nat) : out :=
  match nth_error (s_vars s) i with
  | None => UB
  | Some v =>
      if negb (ty_eqb (v_ty v) TBool) then Ok s RErr else
      match queried v o with
      | Some r => ret (new s (KLit (if r then 1 else 0)%Z) TBool 1 false)
      | None =>
          let s := var_eval s i in
          match nth_error (s_vars s) i with
          | None => UB
          | Some v =>
              match data v with
              | None => UB
              | Some b =>
                  match reduce_bool s b (v_size v) o with
                  | None => UB
                  | Some (s, w) => ret (fresh s TBool 1 (fun _ => combine4_async o w))
                  end
              end
          end
      end
  end.

(** var.cpp:1052-1066 *)
Definition counter (s : st) (n : N) : st * nat :=
  if n =? 1 then new s (KLit 0) TInt 1 false else new s (KNode (fun l => Z.of_N l)) TInt n false.

(** llvm_ts.cpp:706-780 LLVMThreadState::compress (see Comp_Model): the number of blocks
    wraps for very large arrays *)
Definition compress (d : N -> Z) (size : N) : list N :=
  if (1 <? workers) && (u32 (size + ideal - 1) / ideal =? 0) then []
  else filter (fun l => negb (d l =? 0)%Z) (upto size).
(** var.cpp:2382-2414 *)
Definition var_compress (s : st) (i : nat) : out :=
  match nth_error (s_vars s) i with
  | None => UB
  | Some v =>
      if negb (ty_eqb (v_ty v) TBool) then Ok s RErr else
      match v_kind v with
      | KLit x => if (x =? 0)%Z then Ok s REmpty else ret (counter s (v_size v))
      | KUndef => Ok s REmpty
      | _ =>
          let s := var_eval s i in
          match nth_error (s_vars s) i with
          | None => UB
          | Some v =>
              match data v with
              | None => UB
              | Some b =>
                  match compress (mem s b) (v_size v) with
                  | [] => Ok s REmpty
                  | l => ret (fresh s TInt (N.of_nat (length l)) (fun k => Z.of_N (nth (N.to_nat k) l 0)))
                  end
              end
          end
      end
  end.

(** ** Reductions *)
(** llvm_ts.cpp:265-350: one block; a block of one entry is copied *)
Definition reduce_block (o : rop) (t : ty) (d : N -> Z) (l : list N) : Z :=
  match l with
  | [k] => d k
  | _ => fold_left (fun r k => red ar o t r (d k)) l (idn ar o t)
  end.
Definition between (a b : N) : list N := map (fun k => a + k) (upto (b - a)).
Definition block (size bs j : N) : list N := between (j * bs) (N.min ((j + 1) * bs) size).

(** var.cpp:2654-2711 on an existing variable *)
Definition var_reduce (o : rop) (s : st) (i : nat) : out :=
  match nth_error (s_vars s) i with
  | None => UB
  | Some v =>
      match v_kind v with
      | KLit x => ret (new s (KLit (if 1 <? v_size v then rep ar o (v_ty v) (v_size v) x else x)) (v_ty v) 1 false)
      | _ =>
          let s := var_eval s i in
          match nth_error (s_vars s) i with
          | None => UB
          | Some v =>
              match data v with
              | None => UB
              | Some b => ret (fresh s (v_ty v) 1 (fun _ => reduce_block o (v_ty v) (mem s b) (upto (v_size v))))
              end
          end
      end
  end.

(** var.cpp:2466-2515; [mode] is the parameter [symbolic] *)
Inductive mode := Auto | Symbolic | Evaluated.
Definition var_block_reduce (o : rop) (s : st) (i : nat) (bs : N) (m : mode) : out :=
  match nth_error (s_vars s) i with
  | None => UB
  | Some v =>
      if bs =? 0 then Ok s RErr else if bs =? 1 then Ok s (RVar i) else
      let size := v_size v in
      let t := v_ty v in
      let reduced := u32 (size + bs - 1) / bs in
      match v_kind v with
      | KLit x =>
          let trailer_size := sub32 size (u32 (sub32 reduced 1 * bs)) in
          let header := rep ar o t bs x in
          let trailer := rep ar o t trailer_size x in
          if reduced =? 0 then Ok s REmpty else
          ret (if negb (u32 (reduced * bs) =? size)
               then new s (KNode (fun l => if l <? sub32 reduced 1 then header else trailer)) t reduced false
               else new s (KLit header) t reduced false)
      | k =>
          let symbolic :=
            match m with
            | Auto =>
                if negb (can ar o t) then false
                else match k with KEval _ => false | _ => 1024 * 1024 * 1024 <=? u32 (size * bytes ar t) end
            | Symbolic => true
            | Evaluated => false
            end in
          if symbolic then
            if negb (can ar o t) || (reduced =? 0) then Ok s RErr else
            let s := if v_dirty v then flush s else s in
            let b := length (s_bufs s) in
            let s := malloc s reduced (fun _ => idn ar o t) in
            let q := {| q_buf := b; q_n := size; q_idx := fun l => l / bs; q_val := content s v; q_op := Some o; q_ty := t |} in
            ret (new {| s_bufs := s_bufs s; s_vars := s_vars s; s_pend := s_pend s ++ [q] |} (KEval b) t reduced true)
          else
            let s := var_eval s i in
            match nth_error (s_vars s) i with
            | None => UB
            | Some v =>
                match data v with
                | None => UB
                | Some b =>
                    if size <? bs then Ok s RErr else
                    ret (fresh s t reduced (fun j => reduce_block o t (mem s b) (block size bs j)))
                end
            end
      end
  end.

(** llvm_ts.cpp:479-513 with llvm_red.h:229-241; [None]: the loop of a work unit runs
    past the end of the arrays *)
Definition dot_unit (x y : N -> Z) (size bs k : N) : option Z :=
  let start := u32 (k * bs) in
  let stop := N.min (u32 ((k + 1) * bs)) size in
  if stop <? start then None
  else Some (fold_left (fun r l => fma ar (x l) (y l) r) (between start stop) 0%Z).
Fixpoint all_some {A} (l : list (option A)) : option (list A) :=
  match l with
  | [] => Some []
  | None :: _ => None
  | Some x :: r => match all_some r with Some t => Some (x :: t) | None => None end
  end.
Definition reduce_dot (x y : N -> Z) (size : N) : option Z :=
  let '(bs, blocks) := if 1 <? workers then (ideal, u32 (size + ideal - 1) / ideal) else (size, 1) in
  match all_some (map (dot_unit x y size bs) (upto (N.max 1 blocks))) with
  | None => None
  | Some l =>
      if 1 <? blocks then Some (reduce_block Add TFlt (fun k => nth (N.to_nat k) l 0%Z) (upto blocks))
      else Some (nth 0 l 0%Z)
  end.

Definition is_evaluated (v : var) : bool := match v_kind v with KEval _ => true | _ => false end.
(** Lane of an operand of size 1 or of the size of the operation *)
Definition pick (v : var) (l : N) : N := if v_size v =? 1 then 0 else l.
(** op.cpp jitc_var_mul: literals are folded; its other simplifications give the same
    values.  Dirty operands are executed first (var.cpp jitc_var_new). *)
Definition var_mul (s : st) (i j : nat) : option (st * nat) :=
  match nth_error (s_vars s) i, nth_error (s_vars s) j with
  | Some v, Some w =>
      let n := N.max (v_size v) (v_size w) in
      if (negb (v_size v =? n) && negb (v_size v =? 1)) || (negb (v_size w =? n) && negb (v_size w =? 1)) then None else
      match v_kind v, v_kind w with
      | KLit x, KLit y => Some (new s (KLit (red ar Mul (v_ty v) x y)) (v_ty v) n false)
      | _, _ =>
          let s := if v_dirty v || v_dirty w then flush s else s in
          let f := fun l => red ar Mul (v_ty v) (content s v (pick v l)) (content s w (pick w l)) in
          Some (new s (KNode f) (v_ty v) n false)
      end
  | _, _ => None
  end.
(** Ref::~Ref of the last variable but one: the last variable takes its place in our list *)
Definition release (s : st) (k : nat) : st :=
  {| s_bufs := s_bufs s; s_vars := firstn k (s_vars s) ++ skipn (S k) (s_vars s); s_pend := s_pend s |}.
(** var.cpp:2713-2755 *)
Definition var_reduce_dot (s : st) (i j : nat) : out :=
  match nth_error (s_vars s) i, nth_error (s_vars s) j with
  | Some v, Some w =>
      if negb (ty_eqb (v_ty v) (v_ty w)) then Ok s RErr else
      if ty_eqb (v_ty v) TFlt && (v_size v =? v_size w) && (is_evaluated v || is_evaluated w) then
        let s := var_eval (var_eval s i) j in
        match nth_error (s_vars s) i, nth_error (s_vars s) j with
        | Some v, Some w =>
            match data v, data w with
            | Some b, Some c =>
                match reduce_dot (mem s b) (mem s c) (v_size v) with
                | None => UB
                | Some x => ret (fresh s TFlt 1 (fun _ => x))
                end
            | _, _ => UB
            end
        | _, _ => UB
        end
      else
        match var_mul s i j with
        | None => Ok s RErr
        | Some (s, k) =>
            match var_reduce Add s k with
            | Ok s (RVar r) => Ok (release s k) (RVar (r - 1))
            | r => r
            end
        end
  | _, _ => UB
  end.

(** ** Rearrangements *)
(** op.cpp:2113-2247 jitc_var_gather with a mask that is always true (see Gat_Model): a copy
    of literal, undefined and default-mask sources, an expression otherwise *)
Definition gather (s : st) (i : nat) (f : N -> N) (n : N) : out :=
  match nth_error (s_vars s) i with
  | None => UB
  | Some v =>
      let s := if v_dirty v then flush s else s in
      match v_kind v with
      | KLit _ | KUndef | KMask => ret (new s (v_kind v) (v_ty v) n false)
      | _ => ret (new s (KNode (fun l => content s v (pick v (f l)))) (v_ty v) n false)
      end
  end.
Definition size_ok (n : N) : bool := n <? 2 ^ 32.
(** var.cpp:2561-2583; a counter without entries makes the operations on it fail
    (op.cpp:173-185) *)
Definition var_tile (s : st) (i : nat) (count : N) : out :=
  match nth_error (s_vars s) i with
  | None => UB
  | Some v =>
      let n := u64 (v_size v * count) in
      if negb (size_ok n) || (n =? 0) then Ok s RErr
      else gather s i (fun l => l mod v_size v) n
  end.
(** var.cpp:2585-2609 *)
Definition var_repeat (s : st) (i : nat) (count max_size : N) : out :=
  match nth_error (s_vars s) i with
  | None => UB
  | Some v =>
      let n := u64 (v_size v * count) in
      let n := if (0 <? max_size) && (max_size <? n) then max_size else n in
      if negb (size_ok n) || (n =? 0) then Ok s RErr
      else gather s i (fun l => l / count) n
  end.
(** var.cpp:3039-3053 *)
Definition var_reverse (s : st) (i : nat) : out :=
  match nth_error (s_vars s) i with
  | None => UB
  | Some v => gather s i (fun l => sub32 (sub32 (v_size v) 1) l) (v_size v)
  end.
(** var.cpp:1966-1997; an undefined variable leaves a dangling pointer (C05) *)
Definition var_shrink (s : st) (i : nat) (n : N) : out :=
  match nth_error (s_vars s) i with
  | None => UB
  | Some v =>
      if n =? 0 then Ok s REmpty else if v_size v =? n then Ok s (RVar i) else
      if v_size v <? n then Ok s RErr else
      match v_kind v with
      | KLit x => ret (new s (KLit x) (v_ty v) n false)
      | KUndef => UB
      | _ =>
          let s := if is_evaluated v then s else var_eval s i in
          match nth_error (s_vars s) i with
          | None => UB
          | Some w => match data w with Some b => ret (new s (KEval b) (v_ty v) n false) | None => UB end
          end
      end
  end.

(** ** Other calls, which create arrays in the various states *)
Definition users (s : st) (b : nat) : nat :=
  length (filter (fun v => match v_kind v with KEval c => Nat.eqb c b | _ => false end) (s_vars s)).
(** op.cpp:2900-3080 jitc_var_scatter (see Sct_Model): the target gets a buffer of its own
    unless it has one; the stores wait until the next evaluation *)
Definition var_scatter (s : st) (i : nat) (n : N) (f : N -> N) (g : N -> Z) : out :=
  match nth_error (s_vars s) i with
  | None => UB
  | Some v =>
      let own := match v_kind v with KEval b => Nat.eqb (users s b) 1 | _ => false end in
      let s := if own then s else
                 let s := flush s in
                 set_var (malloc s (v_size v) (content s v)) i (with_kind v (KEval (length (s_bufs s)))) in
      match nth_error (s_vars s) i with
      | None => UB
      | Some v =>
          match data v with
          | None => UB
          | Some b =>
              let q := {| q_buf := b; q_n := n; q_idx := f; q_val := g; q_op := None; q_ty := v_ty v |} in
              Ok {| s_bufs := s_bufs s;
                    s_vars := set_nth i {| v_kind := v_kind v; v_ty := v_ty v; v_size := v_size v; v_dirty := true |} (s_vars s);
                    s_pend := s_pend s ++ [q] |} (RVar i)
          end
      end
  end.
(** jitc_var_mem_map (var.cpp:1786-1817) of memory with exactly [n] entries *)
Definition mem_map (s : st) (t : ty) (n : N) (d : N -> Z) : out :=
  ret (new {| s_bufs := s_bufs s ++ [{| b_cap := n; b_dat := d |}]; s_vars := s_vars s; s_pend := s_pend s |}
           (KEval (length (s_bufs s))) t n false).

Inductive call :=
  | CLit (t : ty) (x : Z) (n : N)
  | CUndef (t : ty) (n : N)
  | CMask (n : N)
  | CExpr (t : ty) (f : N -> Z) (n : N)
  | CMap (t : ty) (n : N) (d : N -> Z)
  | CEval (i : nat)
  | CScatter (i : nat) (n : N) (f : N -> N) (g : N -> Z)
  | CShrink (i : nat) (n : N)
  | CQuery (o : rop) (i : nat)
  | CQueryAsync (o : rop) (i : nat)
  | CCompress (i : nat)
  | CReduce (o : rop) (i : nat)
  | CBlockReduce (o : rop) (i : nat) (bs : N) (m : mode)
  | CDot (i j : nat)
  | CTile (i : nat) (count : N)
  | CRepeat (i : nat) (count max_size : N)
  | CReverse (i : nat).
Definition step (s : st) (c : call) : out :=
  match c with
  | CLit t x n => ret (new s (KLit x) t n false)
  | CUndef t n => ret (new s KUndef t n false)
  | CMask n => ret (new s KMask TBool n false)
  | CExpr t f n => ret (new s (KNode f) t n false)
  | CMap t n d => mem_map s t n d
  | CEval i => Ok (var_eval s i) REmpty
  | CScatter i n f g => var_scatter s i n f g
  | CShrink i n => var_shrink s i n
  | CQuery o i => var_query o s i
  | CQueryAsync o i => var_query_async o s i
  | CCompress i => var_compress s i
  | CReduce o i => var_reduce o s i
  | CBlockReduce o i bs m => var_block_reduce o s i bs m
  | CDot i j => var_reduce_dot s i j
  | CTile i k => var_tile s i k
  | CRepeat i k m => var_repeat s i k m
  | CReverse i => var_reverse s i
  end.
Fixpoint run (s : st) (l : list call) : option (st * list res) :=
  match l with
  | [] => Some (s, [])
  | c :: r =>
      match step s c with
      | UB => None
      | Ok s x => match run s r with Some (s, t) => Some (s, x :: t) | None => None end
      end
  end.
End Model.
Definition empty : st := {| s_bufs := []; s_vars := []; s_pend := [] |}.
