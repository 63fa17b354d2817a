(** Cooperative vectors: src/coop_vec.cpp (tracing), src/llvm_coop_vec.cpp and
    src/metal_coop_vec.cpp (generated code), src/llvm_ts.cpp:1108-1160 (matrix packing),
    src/var.cpp:1999-2053 (jitc_var_resize).

    Simplifications: one backend per program; variables are not released; equal nodes are not
    merged; ordinary variables have fixed contents, except for effects that are pending already;
    no mask stack while values are traced (its effect in a callable is the predicate [act]);
    the arithmetic on elements is a parameter; on Metal, only the scalar code for matrix-vector
    products (Metal < 4), and effects only on 32-bit targets; effects are those of kernels, not
    of callables; OptiX is not modelled. *)
From Verif Require Import Base.
Local Open Scope N_scope.

Inductive bk := LLVM | Metal.
Inductive op := Add | Sub | Mul | Min | Max | Step | OtherOp.
Inductive uop := Exp2 | Log2 | Tanh | OtherUop.
(** Conversion instructions of LLVM *)
Inductive cvt := FpExt | FpTrunc | SExt | ZExt | Trunc | FpToSi | FpToUi | SiToFp | UiToFp.

(** jit.h:597-611, var.cpp:117-119 *)
Definition Float16 : N := 13. Definition Float32 : N := 14. Definition Float64 : N := 15.
Definition tsz (vt : N) : N := nth (N.to_nat vt) [0; 1; 0; 1; 1; 2; 2; 4; 4; 8; 8; 8; 0; 2; 4; 8] 0.
Definition is_float (t : N) : bool := (t =? Float16) || (t =? Float32) || (t =? Float64).

(** Arithmetic on the elements of type [t] *)
Record arith (R : Type) := {
  of_bits : N -> N -> R;
  arith2 : op -> N -> R -> R -> R;           (* Add, Sub, Mul, Min, Max *)
  less : N -> R -> R -> bool;
  fused : N -> R -> R -> R -> R;
  arith1 : uop -> N -> R -> R;
  conv : N -> N -> R -> R;                   (* C conversion *)
  instr : cvt -> N -> N -> R -> R            (* LLVM instruction *)
}.
Arguments of_bits {R}. Arguments arith2 {R}. Arguments less {R}. Arguments fused {R}.
Arguments arith1 {R}. Arguments conv {R}. Arguments instr {R}.

(** jit.h:3161-3169 *)
Record descr := { d_ty : N; d_rows : N; d_cols : N; d_off : N; d_stride : N; d_size : N }.

(** Ordinary variables: a literal or an array; [a_new]: contents after pending effects (dirty) *)
Record arr (R : Type) := { a_ty : N; a_size : N; a_lit : option N; a_data : list R; a_new : option (list R) }.
Arguments a_ty {R}. Arguments a_size {R}. Arguments a_lit {R}. Arguments a_data {R}. Arguments a_new {R}.
Definition store (R : Type) : Type := N -> option (arr R).

(** Nodes of the trace *)
Inductive kind :=
| KPack (l : list N) | KLit (bits : N) | KLoad (buf off : N) | KUnary (u : uop) (a : N) | KCast (a : N)
| KBin (o : op) (a b : N) | KFma (a b c : N) | KResize (a : N)
| KMat (A : N) (d : descr) (x : N) (b : option (N * descr)) (tr : bool).
Record node := { n_kind : kind; n_ty : N; n_size : N; n_len : N; n_rc : N }.
Definition heap := list node.

Definition at_ (h : heap) (a : N) : option node := nth_error h (N.to_nat a).
Definition with_rc (v : node) (c : N) : node := {| n_kind := n_kind v; n_ty := n_ty v; n_size := n_size v; n_len := n_len v; n_rc := c |}.
Definition with_size (v : node) (s : N) : node := {| n_kind := n_kind v; n_ty := n_ty v; n_size := s; n_len := n_len v; n_rc := n_rc v |}.
Definition on (h : heap) (a : N) (f : node -> node) : heap := match at_ h a with Some v => set_nth (N.to_nat a) (f v) h | None => h end.
Definition inc (h : heap) (a : N) : heap := on h a (fun v => with_rc v (n_rc v + 1)).
Definition dec (h : heap) (a : N) : heap := on h a (fun v => with_rc v (n_rc v - 1)).
Definition new (h : heap) (k : kind) (ty size len : N) : heap * N :=
  (h ++ [{| n_kind := k; n_ty := ty; n_size := size; n_len := len; n_rc := 1 |}], N.of_nat (length h)).

(** internal.h:1476-1503 *)
Definition zero_bits (t bits : N) : bool :=
  (bits =? 0) || ((t =? Float16) && (bits =? 0x8000)) || ((t =? Float32) && (bits =? 0x80000000)) || ((t =? Float64) && (bits =? 0x8000000000000000)).
Definition one_bits (t : N) : N :=
  if t =? Float16 then 0x3c00 else if t =? Float32 then 0x3f800000 else if t =? Float64 then 0x3ff0000000000000 else 1.
Definition is_zero (v : node) : bool := match n_kind v with KLit b => zero_bits (n_ty v) b | _ => false end.
Definition is_one (v : node) : bool := match n_kind v with KLit b => b =? one_bits (n_ty v) | _ => false end.

Section Trace.
Context {R : Type}.
Variable st : store R.

(** var.cpp:1999-2053, on a cooperative vector (its literals are not [is_literal()]) *)
Definition resize (h : heap) (a size : N) : option (heap * N) :=
  let? v := at_ h a in
  if n_size v =? size then Some (inc h a, a)
  else if negb (n_size v =? 1) then None
  else if n_rc v =? 1 then Some (inc (on h a (fun v => with_size v size)) a, a)
  else Some (new (inc h a) (KResize a) (n_ty v) size (n_len v)).

(** coop_vec.cpp:142-162 *)
Definition literal (h : heap) (ty bits size len : N) : option (heap * N) :=
  if size =? 0 then None else Some (new h (KLit bits) ty size (u16 len)).
(** coop_vec.cpp:83-98 *)
Fixpoint inputs (ty : N) (l : list N) (size : N) : option N :=
  match l with
  | [] => Some size
  | i :: r => let? v := st i in if negb (a_ty v =? ty) then None else inputs ty r (N.max size (a_size v))
  end.
Definition all_lit (bits : N) (l : list N) : bool :=
  forallb (fun i => match st i with Some v => match a_lit v with Some b => b =? bits | None => false end | None => false end) l.
(** coop_vec.cpp:55-105 *)
Definition pack (h : heap) (l : list N) : option (heap * N) :=
  match l with
  | [] => None
  | i :: _ =>
      if 0xFFFF <? N.of_nat (length l) then None
      else
        let? v := st i in
        let? size := inputs (a_ty v) l (a_size v) in
        match a_lit v with
        | Some b => if all_lit b l then literal h (a_ty v) b size (N.of_nat (length l))
                    else Some (new h (KPack l) (a_ty v) size (u16 (N.of_nat (length l))))
        | None => Some (new h (KPack l) (a_ty v) size (u16 (N.of_nat (length l))))
        end
  end.
(** coop_vec.cpp:164-197 *)
Definition load (h : heap) (buf off len : N) : option (heap * N) :=
  let? v := st buf in Some (new h (KLoad buf off) (a_ty v) 1 (u16 len)).
(** coop_vec.cpp:199-215 *)
Definition unary (h : heap) (u : uop) (a : N) : option (heap * N) :=
  let? v := at_ h a in Some (new (inc h a) (KUnary u a) (n_ty v) (n_size v) (n_len v)).
(** coop_vec.cpp:217-260 *)
Definition cast (h : heap) (a ty : N) : option (heap * N) :=
  let? v := at_ h a in
  if n_ty v =? ty then Some (inc h a, a)
  else Some (new (inc h a) (KCast a) ty (n_size v) (n_len v)).
(** coop_vec.cpp:262-317 *)
Definition binary (h : heap) (o : op) (a b : N) : option (heap * N) :=
  let? x := at_ h a in
  let? y := at_ h b in
  if negb (n_len x =? n_len y) then None
  else if negb (n_ty x =? n_ty y) then None
  else if negb ((n_size x =? n_size y) || (n_size y =? 1) || (n_size x =? 1)) then None
  else
    let size := N.max (n_size x) (n_size y) in
    let node := Some (new (inc (inc h a) b) (KBin o a b) (n_ty x) size (n_len x)) in
    match o with
    | Add => if is_zero x then resize h b size else if is_zero y then resize h a size else node
    | Mul => if is_one x then resize h b size else if is_one y then resize h a size else node
    | _ => node
    end.
Definition resized (r : option (heap * N)) (size : N) : option (heap * N) :=
  let? x := r in
  let? y := resize (fst x) (snd x) size in
  Some (dec (fst y) (snd x), snd y).
(** coop_vec.cpp:319-378 (Fma; there is no code for other operations) *)
Definition ternary (h : heap) (a b c : N) : option (heap * N) :=
  let? x := at_ h a in
  let? y := at_ h b in
  let? z := at_ h c in
  let size := N.max (N.max (n_size x) (n_size y)) (n_size z) in
  if negb (n_len x =? n_len y) || negb (n_len x =? n_len z) then None
  else if negb (n_ty x =? n_ty y) || negb (n_ty x =? n_ty z) then None
  else if negb ((n_size x =? size) || (n_size x =? 1)) || negb ((n_size y =? size) || (n_size y =? 1))
          || negb ((n_size z =? size) || (n_size z =? 1)) then None
  else if is_one x then resized (binary h Add b c) size
  else if is_one y then resized (binary h Add a c) size
  else if is_zero z then resized (binary h Mul a b) size
  else Some (new (inc (inc (inc h a) b) c) (KFma a b c) (n_ty x) size (n_len x)).
(** coop_vec.cpp:463-578 *)
Definition matvec (h : heap) (A : N) (d : descr) (x : N) (b : option (N * descr)) (tr : bool) : option (heap * N) :=
  let n_in := if tr then d_rows d else d_cols d in
  let n_out := if tr then d_cols d else d_rows d in
  let? v := at_ h x in
  if negb (n_len v =? n_in) then None
  else
    let? va := st A in
    let? tb := match b with
               | None => Some None
               | Some (i, e) =>
                   let? vb := st i in
                   if negb (d_rows e =? n_out) || negb (d_cols e =? 1) then None
                   else if negb (d_stride e =? 1) then None
                   else Some (Some (a_ty vb))
               end in
    let all (t : N) := (a_ty va =? t) && (n_ty v =? t) && match tb with None => true | Some t' => t' =? t end in
    if negb (all Float16 || all Float32) then None
    else Some (new (inc h x) (KMat A d x b tr) (n_ty v) (n_size v) (u16 n_out)).

(** ** Programs: the operands are results of earlier calls *)
Inductive call :=
| CPack (l : list N) | CLit (ty bits size len : N) | CLoad (buf off len : N) | CUnary (u : uop) (a : nat)
| CCast (a : nat) (ty : N) | CBin (o : op) (a b : nat) | CFma (a b c : nat)
| CMat (A : N) (d : descr) (x : nat) (b : option (N * descr)) (tr : bool).
Definition exec (h : heap) (regs : list N) (c : call) : option (heap * N) :=
  let r (i : nat) := nth_error regs i in
  match c with
  | CPack l => pack h l
  | CLit ty bits size len => literal h ty bits size len
  | CLoad buf off len => load h buf off len
  | CUnary u a => let? a := r a in unary h u a
  | CCast a ty => let? a := r a in cast h a ty
  | CBin o a b => let? a := r a in let? b := r b in binary h o a b
  | CFma a b c => let? a := r a in let? b := r b in let? c := r c in ternary h a b c
  | CMat A d x b tr => let? x := r x in matvec h A d x b tr
  end.
(** [None]: a call raised an exception *)
Fixpoint run (h : heap) (regs : list N) (p : list call) : option (heap * list N) :=
  match p with
  | [] => Some (h, regs)
  | c :: p => let? x := exec h regs c in run (fst x) (regs ++ [snd x]) p
  end.
End Trace.

(** ** Generated code *)
(** [Bad]: code that is rejected, or jitc_fail; [Oob]: access outside of an array *)
Inductive out (X : Type) := Val (x : X) | Bad | Oob.
Arguments Val {X}. Arguments Bad {X}. Arguments Oob {X}.
Definition obind {X Y} (o : out X) (f : X -> out Y) : out Y := match o with Val x => f x | Bad => Bad | Oob => Oob end.
Fixpoint each {X Y} (f : X -> out Y) (l : list X) : out (list Y) :=
  match l with [] => Val [] | x :: l => obind (f x) (fun y => obind (each f l) (fun r => Val (y :: r))) end.
Fixpoint zip {X Y Z} (f : X -> Y -> Z) (l : list X) (m : list Y) : list Z :=
  match l, m with x :: l, y :: m => f x y :: zip f l m | _, _ => [] end.
Fixpoint zip3 {X Y Z W} (f : X -> Y -> Z -> W) (l : list X) (m : list Y) (n : list Z) : list W :=
  match l, m, n with x :: l, y :: m, z :: n => f x y z :: zip3 f l m n | _, _, _ => [] end.
Definition upto (n : N) : list N := map N.of_nat (seq 0 (N.to_nat n)).
(** An i32 operand of getelementptr *)
Definition s32 (x : N) : Z := if x <? 2 ^ 31 then Z.of_N x else (Z.of_N x - 2 ^ 32)%Z.
Definition get {R} (l : list R) (i : Z) : out R :=
  if (i <? 0)%Z then Oob else match nth_error l (Z.to_nat i) with Some x => Val x | None => Oob end.

Section Eval.
Context {R : Type}.
Variables (b : bk) (ar : arith R) (st : store R).
(** [late i]: pending effects on variable [i] are executed after the code below *)
Variable late : N -> bool.
(** The code is part of a callable; lanes that execute it *)
Variables (callable : bool) (act : N -> bool).

Definition contents (i : N) (v : arr R) : list R :=
  match a_lit v with
  | Some x => repeat (of_bits ar (a_ty v) x) (N.to_nat (a_size v))
  | None => match a_new v with Some l => if late i then a_data v else l | None => a_data v end
  end.
(** Register of variable [i] in lane [l] *)
Definition reg (l i : N) : out R :=
  match st i with
  | None => Bad
  | Some v => match a_lit v with
              | Some x => Val (of_bits ar (a_ty v) x)
              | None => get (contents i v) (if a_size v =? 1 then 0%Z else Z.of_N l)
              end
  end.
(** Element of an array, from an address common to all lanes.  In a callable, LLVM uses a masked
    gather: llvm_coop_vec.cpp:310-321, 349-358, 424-436 *)
Definition elem (l ty i : N) (k : Z) : out R :=
  match st i with
  | None => Bad
  | Some v => match b with
              | LLVM => if callable && negb (act l) then Val (of_bits ar ty 0) else get (contents i v) k
              | Metal => get (contents i v) k
              end
  end.

(** llvm_coop_vec.cpp:284-298; [None]: invalid *)
Definition llvm_cast (src dst : N) : option cvt :=
  let bigger := tsz src <? tsz dst in
  let dst_float := is_float dst in
  let src_signed := is_float src in
  let dst_signed := is_float dst in
  let src_float := is_float src in
  if src_float && dst_float then if bigger then Some FpExt else if tsz src =? tsz dst then None else Some FpTrunc
  else if negb src_float && negb dst_float then
    if bigger then Some (if src_signed then SExt else ZExt) else if tsz src =? tsz dst then None else Some Trunc
  else if src_float && negb dst_float then Some (if dst_signed then FpToSi else FpToUi)
  else Some (if src_signed then SiToFp else UiToFp).

(** llvm_coop_vec.cpp:219-222 *)
Definition step (t : N) (x y : R) : R := if less ar t x y then of_bits ar t 0 else of_bits ar t (one_bits t).
(** llvm_coop_vec.cpp:193-252, metal_coop_vec.cpp:101-146; [None]: invalid or unsupported *)
Definition code2 (o : op) (t : N) : option (R -> R -> R) :=
  match o with
  | Add | Sub | Mul => Some (arith2 ar o t)
  | Min | Max => match b with LLVM => if is_float t then Some (arith2 ar o t) else None | Metal => Some (arith2 ar o t) end
  | Step => match b with LLVM => if is_float t then Some (step t) else None | Metal => Some (step t) end
  | OtherOp => None
  end.

(** llvm_coop_vec.cpp:327-466: the arrays [xs] and [ys] are the two parts of the buffer *)
Definition mat_inner (l t A : N) (d : descr) (tr : bool) (j : N) (x : R) (o : out (list R)) (i : N) : out (list R) :=
  obind o (fun ys =>
  let n := if tr then d_rows d else d_cols d in
  let m := if tr then d_cols d else d_rows d in
  let row := if tr then j else i in
  let col := if tr then i else j in
  obind (elem l t A (s32 (d_off d) + s32 row * Z.of_N (if tr then m else n) + s32 col)%Z) (fun a =>
  obind (get ys (s32 i)) (fun y => Val (set_nth (N.to_nat i) (fused ar t a x y) ys)))).
Definition llvm_mat (l t A : N) (d : descr) (xs : list R) (bias : option (N * descr)) (tr : bool) : out (list R) :=
  let n := if tr then d_rows d else d_cols d in
  let m := if tr then d_cols d else d_rows d in
  obind (match bias with
         | Some (i, e) => each (fun k => elem l t i (s32 (d_off e) + s32 k)%Z) (upto m)
         | None => Val (repeat (of_bits ar t 0) (N.to_nat m))
         end) (fun ys =>
  fold_left (fun o j => obind o (fun ys => obind (get xs (s32 j)) (fun x => fold_left (mat_inner l t A d tr j x) (upto m) (Val ys)))) (upto n) (Val ys)).
(** metal_coop_vec.cpp:243-288 *)
Definition metal_mat (l t A : N) (d : descr) (m : N) (xs : list R) (bias : option (N * descr)) (tr : bool) : out (list R) :=
  each (fun i =>
    obind (match bias with
           | Some (k, e) => obind (elem l t k (Z.of_N (u32 (d_off e + i)))) (fun y => Val (conv ar t Float32 y))
           | None => Val (of_bits ar Float32 0)
           end) (fun acc =>
    obind (fold_left (fun o j =>
             obind o (fun acc =>
             let row := if tr then j else i in
             let col := if tr then i else j in
             obind (elem l t A (Z.of_N (u32 (d_off d + row * d_stride d + col)))) (fun a =>
             obind (get xs (Z.of_N j)) (fun x => Val (fused ar Float32 (conv ar t Float32 a) (conv ar t Float32 x) acc)))))
             (upto (N.of_nat (length xs))) (Val acc)) (fun acc => Val (conv ar Float32 t acc)))) (upto m).

Definition dep (env : list (N * out (list R))) (a : N) : out (list R) :=
  match nth_error env (N.to_nat a) with Some x => snd x | None => Bad end.
Definition dep_ty (env : list (N * out (list R))) (a : N) : N :=
  match nth_error env (N.to_nat a) with Some x => fst x | None => 0 end.
(** Elements of a node in lane [l]; [env]: types and elements of the previous nodes *)
Definition render (l : N) (env : list (N * out (list R))) (v : node) : out (list R) :=
  let t := n_ty v in
  match n_kind v with
  | KPack is => each (reg l) is
  | KLit bits => Val (repeat (of_bits ar t bits) (N.to_nat (n_len v)))
  | KLoad buf off =>
      each (fun i => elem l t buf (match b with LLVM => s32 (u32 (off + i)) | Metal => Z.of_N (u32 (off + i)) end)) (upto (n_len v))
  | KUnary u a =>
      match b, u with
      | LLVM, _ | _, OtherUop => Bad
      | Metal, _ => obind (dep env a) (fun x => Val (map (arith1 ar u t) x))
      end
  | KCast a =>
      obind (dep env a) (fun x =>
      match b with
      | LLVM => match llvm_cast (dep_ty env a) t with Some i => Val (map (instr ar i (dep_ty env a) t) x) | None => Bad end
      | Metal => Val (map (conv ar (dep_ty env a) t) x)
      end)
  | KBin o a c =>
      obind (dep env a) (fun x => obind (dep env c) (fun y =>
      match code2 o t with Some f => Val (zip f x y) | None => Bad end))
  | KFma a c d =>
      obind (dep env a) (fun x => obind (dep env c) (fun y => obind (dep env d) (fun z =>
      if is_float t then Val (zip3 (fused ar t) x y z) else Bad)))
  | KResize a =>
      (* llvm_coop_vec.cpp:278-281: the format string does not match the arguments *)
      match b with LLVM => Bad | Metal => dep env a end
  | KMat A d x bias tr =>
      obind (dep env x) (fun xs =>
      match b with
      | LLVM => obind (llvm_mat l t A d xs bias tr) (fun ys => Val (firstn (N.to_nat (n_len v)) ys))
      | Metal => metal_mat l t A d (n_len v) xs bias tr
      end)
  end.
Fixpoint render_all (l : N) (env : list (N * out (list R))) (h : heap) : list (N * out (list R)) :=
  match h with [] => env | v :: h => render_all l (env ++ [(n_ty v, render l env v)]) h end.
(** Elements of node [a] in lane [l] *)
Definition value (h : heap) (l a : N) : out (list R) := dep (render_all l [] h) a.

(** ** Effects *)
(** Accumulation of a vector ([EAdd]: offset, vector) or of an outer product ([EOuter]: matrix,
    two vectors); size of the effect; its mask *)
Inductive effect :=
| EAdd (off a : N) (size : N) (mask : N -> bool)
| EOuter (d : descr) (a c : N) (size : N) (mask : N -> bool).
Variable w : N. (* vector width *)
Definition sum (t : N) (l : list R) : R := fold_left (arith2 ar Add t) l (of_bits ar t 0).
(** select, then vector.reduce.fadd: llvm_coop_vec.cpp:42-48, 154-161 *)
Definition packet_sum (t size : N) (mask : N -> bool) (f : N -> out R) (p : N) : out R :=
  obind (each (fun q => let l := p * w + q in if (l <? size) && mask l then f l else Val (of_bits ar t 0)) (upto w))
        (fun xs => Val (sum t xs)).
Definition comp (h : heap) (a i l : N) : out R := obind (value h l a) (fun xs => get xs (Z.of_N i)).
Definition mulo (t : N) (x y : out R) : out R := obind x (fun x => obind y (fun y => Val (arith2 ar Mul t x y))).
(** fadd, fmul; metal_coop_vec.cpp:310, 336 *)
Definition float_ok (t : N) : bool := match b with LLVM => is_float t | Metal => t =? Float32 end.
(** Atomic additions of an effect: address and amount.
    llvm_coop_vec.cpp:23-53, 55-176; metal_coop_vec.cpp:302-365 *)
Definition atomics (h : heap) (e : effect) : out (list (Z * R)) :=
  match e with
  | EAdd off a size mask =>
      match at_ h a with
      | None => Bad
      | Some v =>
          if negb (float_ok (n_ty v)) then Bad else
          match b with
          | LLVM =>
              each (fun pi => obind (packet_sum (n_ty v) size mask (comp h a (snd pi)) (fst pi)) (fun x => Val (s32 (u32 (off + snd pi)), x)))
                   (list_prod (upto ((size + w - 1) / w)) (upto (n_len v)))
          | Metal =>
              each (fun li => obind (comp h a (snd li) (fst li)) (fun x => Val (Z.of_N (u32 (off + snd li)), x)))
                   (list_prod (filter mask (upto size)) (upto (n_len v)))
          end
      end
  | EOuter d a c size mask =>
      match at_ h a, at_ h c with
      | Some v, Some v' =>
          if negb (float_ok (n_ty v)) then Bad else
          match b with
          | LLVM =>
              each (fun pij => let '(p, (i, j)) := pij in
                      obind (packet_sum (n_ty v) size mask (fun l => mulo (n_ty v) (comp h a i l) (comp h c j l)) p)
                            (fun x => Val ((s32 (u32 (d_off d * tsz (n_ty v))) / Z.of_N (tsz (n_ty v)) + s32 i * Z.of_N (d_stride d) + s32 j)%Z, x)))
                   (list_prod (upto ((size + w - 1) / w)) (list_prod (upto (n_len v)) (upto (n_len v'))))
          | Metal =>
              each (fun lij => let '(l, (i, j)) := lij in
                      obind (mulo (n_ty v) (comp h a i l) (comp h c j l)) (fun x => Val (Z.of_N (u32 (d_off d + i * d_stride d + j)), x)))
                   (list_prod (filter mask (upto size)) (list_prod (upto (n_len v)) (upto (n_len v'))))
          end
      | _, _ => Bad
      end
  end.
Definition atomic_add (t : N) (o : out (list R)) (e : Z * R) : out (list R) :=
  obind o (fun m => obind (get m (fst e)) (fun x => Val (set_nth (Z.to_nat (fst e)) (arith2 ar Add t x (snd e)) m))).
(** Contents of a buffer after the additions [evs], in the order in which they take place *)
Definition perform (t : N) (evs : list (Z * R)) (m : list R) : out (list R) := fold_left (atomic_add t) evs (Val m).
End Eval.

(** ** Matrices *)
(** coop_vec.cpp:380-440, without OptiX *)
Definition compute_layout (d : descr) (off : N) : descr :=
  {| d_ty := d_ty d; d_rows := d_rows d; d_cols := d_cols d; d_off := off; d_stride := d_cols d;
     d_size := u32 (u32 (d_rows d + 2 ^ 32 - 1) * d_cols d + d_cols d) |}.
Section Matrices.
Context {R : Type}.
Definition mem : Type := N -> R.
(** memcpy of [n] elements *)
Definition copy (inp : mem) (src dst n : N) (m : mem) : mem := fun k => if (dst <=? k) && (k <? dst + n) then inp (src + (k - dst)) else m k.
(** Element at a byte offset, in 32 bit *)
Definition byte_elem (x t : N) : N := u32 (x * t) / t.
(** llvm_ts.cpp:1116-1134; byte counts are 32-bit numbers *)
Definition pack_one (inp : mem) (io : descr * descr) (m : mem) : mem :=
  let '(d, e) := io in
  let t := tsz (d_ty d) in
  if (d_stride d =? d_cols d) && (d_stride e =? d_cols e) then
    copy inp (byte_elem (d_off d) t) (byte_elem (d_off e) t) (byte_elem (d_size d) t) m
  else
    fold_left (fun m j => copy inp (byte_elem (u32 (d_off d + j * d_stride d)) t) (byte_elem (u32 (d_off e + j * d_stride e)) t) (byte_elem (d_cols d) t) m)
              (upto (d_rows d)) m.
(** llvm_ts.cpp:1145-1156: the matrices, in the order in which they are packed *)
Definition pack_matrices (inp : mem) (l : list (descr * descr)) (m : mem) : mem := fold_left (fun m io => pack_one inp io m) l m.
End Matrices.
Arguments mem R : clear implicits.
