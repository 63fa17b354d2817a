(** Gathers: op.cpp:1901-2256 and 2258-2380, with the parts of var.cpp they use.
    CPU backend, outside of symbolic recording (no symbolic variables, empty mask
    stack), no pending side effects, debug mode off.

    Simplifications: value numbering never merges nodes (jitc_var_new always creates
    a variable); the caller keeps its references, so that jitc_var_resize never works
    in place (op.cpp:2170, 2193 hold references for that purpose); lane-wise
    operations, other than those gathers create, are an uninterpreted family [K]. *)
From Verif Require Import Base Op_Model.
Local Open Scope N_scope.

Inductive gdesc (K : Type) :=
| GLit (x : N)                      (* constant *)
| GCtr                              (* VarKind::Counter *)
| GDef                              (* VarKind::DefaultMask *)
| GMem (data : list N)              (* evaluated *)
| GPtr (src : nat)                  (* pointer literal, dep[3] = src *)
| GOp (k : K) (deps : list nat)     (* lane-wise operation *)
| GAnd (a m : nat)                  (* VarKind::And with a boolean second operand *)
| GCopy (a : nat)                   (* VarKind::Bitcast, used for resizing *)
| GCast (t0 : ty) (a : nat)         (* VarKind::Cast/Bitcast between integers *)
| GGather (p i m : nat)             (* VarKind::Gather *)
| GPacket (n : N) (p i m : nat)     (* VarKind::PacketGather *)
| GExtract (j : N) (a : nat)        (* VarKind::Extract *)
| GInc (p i m : nat)                (* VarKind::ScatterInc *)
| GSpecial (f : N -> option N).     (* variables with a callback *)
Arguments GLit {K}. Arguments GCtr {K}. Arguments GDef {K}. Arguments GMem {K}. Arguments GPtr {K}.
Arguments GOp {K}. Arguments GAnd {K}. Arguments GCopy {K}. Arguments GCast {K}. Arguments GGather {K}.
Arguments GPacket {K}. Arguments GExtract {K}. Arguments GInc {K}. Arguments GSpecial {K}.

Record gvar (K : Type) := mkG { g_ty : ty; g_size : N; g_desc : gdesc K }.
Arguments mkG {K}. Arguments g_ty {K}. Arguments g_size {K}. Arguments g_desc {K}.

Inductive gout (A : Type) := GOk (x : A) | GRaise | GFault.
Arguments GOk {A}. Arguments GRaise {A}. Arguments GFault {A}.
Definition gbind {A B} (x : gout A) (f : A -> gout B) : gout B :=
  match x with GOk x => f x | GRaise => GRaise | GFault => GFault end.
Notation "'let*' x := e 'in' b" := (gbind e (fun x => b)) (at level 200, x pattern, b at level 200).

Section Gather.
Context {K : Type}.
(** Result of a lane-wise operation; [None]: undefined (e.g. division by zero traps) *)
Variable sem : K -> list N -> option N.
(** Contents of memory behind the end of an array (buffers are padded) *)
Variable junk : N -> N.
(** Old values that atomic increments return: node, lane *)
Variable old : nat -> N -> N.
Notation gvar := (gvar K).
Notation store := (list gvar).

Definition gget (st : store) (h : nat) : option gvar := match h with O => None | S i => nth_error st i end.

(** ** Execution of a kernel with [n] lanes *)

(** Values of the operands *)
Fixpoint args (r : nat -> N -> option N) (hs : list nat) (l : N) : option (list N) :=
  match hs with
  | [] => Some []
  | h :: hs => let? x := r h l in let? xs := args r hs l in Some (x :: xs)
  end.
(** Memory access through a pointer; GEP indices are signed.  [None]: out of bounds. *)
Definition load (st : store) (p : nat) (a : Z) : option N :=
  match gget st p with
  | Some (mkG _ _ (GPtr s)) =>
      match gget st s with
      | Some (mkG _ _ (GMem d)) => if (a <? 0)%Z then None else nth_error d (Z.to_nat a)
      | _ => None
      end
  | _ => None
  end.
Definition gty (st : store) (h : nat) : ty := match gget st h with Some v => g_ty v | None => U32 end.
Definition packet_ok (st : store) (n : N) (p : nat) (a : Z) : bool :=
  forallb (fun j => match load st p (a * Z.of_N n + Z.of_nat j) with Some _ => true | None => false end)
          (seq 0 (N.to_nat n)).
(** llvm_eval.cpp:1003-1107; every node of a kernel is executed in every lane,
    including the lanes behind the end (padding). *)
Definition run (n : N) (st : store) (r : nat -> N -> option N) (h : nat) (v : gvar) (l : N) : option N :=
  match g_desc v with
  | GLit x => Some x
  | GCtr => Some (l mod 2 ^ 32)
  | GDef => Some (if l <? n then 1 else 0)
  | GMem d => Some (if g_size v =? 1 then nth 0 d 0
                    else if l <? g_size v then nth (N.to_nat l) d 0 else junk l)
  | GPtr _ => Some 0
  | GOp k deps => let? xs := args r deps l in sem k xs
  | GAnd a m => let? x := r a l in let? y := r m l in Some (if y =? 1 then x else 0)
  | GCopy a => r a l
  | GCast t0 a => let? x := r a l in Some (zwrap (g_ty v) (num t0 x))
  | GGather p i m =>
      let? a := r i l in let? y := r m l in
      if y =? 1 then load st p (sbits (width (gty st i)) a) else Some 0
  | GPacket c p i m =>
      let? a := r i l in let? y := r m l in
      if y =? 1 then (if packet_ok st c p (sbits (width (gty st i)) a) then Some 0 else None) else Some 0
  | GExtract j a =>
      let? _ := r a l in
      match gget st a with
      | Some (mkG _ _ (GPacket c p i m)) =>
          let? a := r i l in let? y := r m l in
          if y =? 1 then load st p (sbits (width (gty st i)) a * Z.of_N c + Z.of_N j) else Some 0
      | _ => None
      end
  | GInc p i m => let? _ := r i l in let? y := r m l in Some (if y =? 1 then old h l else 0)
  | GSpecial f => f l
  end.
Fixpoint run_to (fuel : nat) (n : N) (st : store) (h : nat) (l : N) : option N :=
  match fuel with
  | O => None
  | S fuel => match gget st h with Some v => run n st (run_to fuel n st) h v l | None => None end
  end.
(** Lane [l] of variable [h] in a kernel with [n] lanes.  Operands are always created
    before the operations that use them. *)
Definition lane (n : N) (st : store) (h : nat) (l : N) : option N := run_to (S h) n st h l.

(** ** Construction *)

Definition gpush (st : store) (v : gvar) : gout (store * nat) := GOk (st ++ [v], S (length st)).
Definition g_lit (v : gvar) : bool := match g_desc v with GLit _ | GPtr _ => true | _ => false end.
Definition g_is (v : gvar) (x : N) : bool := match g_desc v with GLit y => y =? x | _ => false end.

(** var.cpp:1999-2053 *)
Definition gresize (st : store) (h : nat) (n : N) : gout (store * nat) :=
  match gget st h with
  | None => GFault
  | Some v =>
      if g_size v =? n then GOk (st, h)
      else if negb (g_size v =? 1) && negb (g_lit v) then GRaise
      else match g_desc v with
           | GLit x => gpush st (mkG (g_ty v) n (GLit x))
           | _ => gpush st (mkG (g_ty v) n (GCopy h))
           end
  end.
(** jitc_var_check for two operands *)
Definition gcheck (a b : gvar) : gout N :=
  let n := N.max (g_size a) (g_size b) in
  if ((g_size a =? n) || (g_size a =? 1)) && ((g_size b =? n) || (g_size b =? 1)) then GOk n else GRaise.

Variable cp : bool. (* JitFlag::ConstantPropagation *)
(** op.cpp:1460-1485; the second operand is a boolean *)
Definition gand (st : store) (a m : nat) : gout (store * nat) :=
  match gget st a, gget st m with
  | Some va, Some vm =>
      let* n := gcheck va vm in
      if negb (is_bool (g_ty vm)) then GRaise
      else if (g_lit va || g_lit vm || Nat.eqb a m) && cp then
        if g_lit va && g_lit vm && is_bool (g_ty va) then
          gpush st (mkG Bool n (GLit (if g_is va 1 && g_is vm 1 then 1 else 0)))
        else if g_is va 0 || g_is vm 0 then gpush st (mkG (g_ty va) n (GLit 0))
        else if g_is vm 1 || Nat.eqb a m then gresize st a n
        else if g_is va 1 && is_bool (g_ty va) then gresize st m n
        else gpush st (mkG (g_ty va) n (GAnd a m))
      else gpush st (mkG (g_ty va) n (GAnd a m))
  | _, _ => GFault
  end.
(** var.cpp:2176-2190 *)
Definition mask_default (st : store) (n : N) : gout (store * nat) := gpush st (mkG Bool n GDef).
(** var.cpp:2231-2270 with an empty mask stack *)
Definition mask_apply (st : store) (m : nat) (n : N) : gout (store * nat) :=
  match gget st m with
  | None => GFault
  | Some v =>
      if negb (is_bool (g_ty v)) then GRaise
      else let* (st, d) := mask_default st n in gand st d m
  end.
(** op.cpp:1823-1896 between integers *)
Definition gcast (st : store) (a : nat) (t : ty) : gout (store * nat) :=
  match gget st a with
  | None => GFault
  | Some v =>
      if ty_eqb (g_ty v) t then GOk (st, a)
      else match g_desc v with
           | GLit x => if cp then gpush st (mkG t (g_size v) (GLit (zwrap t (num (g_ty v) x))))
                       else gpush st (mkG t (g_size v) (GCast (g_ty v) a))
           | _ => gpush st (mkG t (g_size v) (GCast (g_ty v) a))
           end
  end.
(** op.cpp:1901-1917 *)
Definition gather_index (st : store) (src i : nat) : gout (store * nat) :=
  match gget st src, gget st i with
  | Some vs, Some vi =>
      if negb (is_int (g_ty vi)) then GRaise
      else gcast st i (if 0x7fffffff <? g_size vs then U64 else U32)
  | _, _ => GFault
  end.

(** op.cpp:1920-2002 jitc_var_reindex.  [None]: give up. *)
Definition memo := list (nat * nat).
Fixpoint mfind (m : memo) (h : nat) : option nat :=
  match m with [] => None | (a, b) :: m => if Nat.eqb a h then Some b else mfind m h end.
Definition deps_of (d : gdesc K) : list nat :=
  match d with
  | GOp _ deps => deps
  | GAnd a m => [a; m]
  | GCopy a | GCast _ a | GExtract _ a => [a]
  | GGather p i m | GPacket _ p i m | GInc p i m => [p; i; m]
  | _ => []
  end.
Definition with_deps (d : gdesc K) (hs : list nat) : gdesc K :=
  match d, hs with
  | GOp k _, _ => GOp k hs
  | GAnd _ _, [a; m] => GAnd a m
  | GCopy _, [a] => GCopy a
  | GCast t _, [a] => GCast t a
  | GExtract j _, [a] => GExtract j a
  | GGather _ _ _, [p; i; m] => GGather p i m
  | GPacket c _ _ _, [p; i; m] => GPacket c p i m
  | GInc _ _ _, [p; i; m] => GInc p i m
  | d, _ => d
  end.
Section Reindex.
Variables (newi mask : nat) (size : N).
(** The loop over the operands (op.cpp:1957-1976); [pos] is the operand number. *)
Fixpoint reindex_deps (self : store -> memo -> nat -> gout (store * memo * option nat))
    (gather : bool) (pos : nat) (st : store) (m : memo) (hs : list nat) : gout (store * memo * option (list nat)) :=
  match hs with
  | [] => GOk (st, m, Some [])
  | h :: hs =>
      let* (st, m, r) := self st m h in
      match r with
      | None => GOk (st, m, None)
      | Some d =>
          let* (st, d) := (if gather && Nat.eqb pos 2 then gand st d mask else GOk (st, d)) in
          let* (st, m, rs) := reindex_deps self gather (S pos) st m hs in
          GOk (st, m, match rs with Some ds => Some (d :: ds) | None => None end)
      end
  end.
Definition list_eqb (a b : list nat) : bool := if list_eq_dec Nat.eq_dec a b then true else false.
Fixpoint reindex (fuel : nat) (st : store) (m : memo) (h : nat) : gout (store * memo * option nat) :=
  match fuel with
  | O => GFault
  | S fuel =>
      match mfind m h with
      | Some b => GOk (st, m, Some b)
      | None =>
          match gget st h with
          | None => GFault
          | Some v =>
              if Nat.ltb 200 (length m) then GOk (st, m, None) else
              let rebuild := negb (g_size v =? size) && negb (g_size v =? 1) in
              let fin st m rebuild d :=
                let* (st, r) := (if (rebuild : bool) then gpush st (mkG (g_ty v) size d) else GOk (st, h)) in
                GOk (st, (h, r) :: m, Some r) in
              match g_desc v with
              | GMem _ | GSpecial _ => GOk (st, m, None)
              | GDef =>
                  if rebuild then let* (st, r) := mask_default st size in GOk (st, m, Some r)
                  else GOk (st, (h, h) :: m, Some h)
              | GLit _ | GPtr _ => fin st m rebuild (g_desc v)
              | GCtr => GOk (st, (h, newi) :: m, Some newi)
              | d =>
                  let gather := match d with GGather _ _ _ => true | _ => false end in
                  let* (st, m, rs) := reindex_deps (reindex fuel) gather O st m (deps_of d) in
                  match rs with
                  | None => GOk (st, m, None)
                  | Some ds => fin st m (rebuild || negb (list_eqb ds (deps_of d))) (with_deps d ds)
                  end
              end
          end
      end
  end.
End Reindex.

(** var.cpp:1714-1728: evaluation replaces the expression by its values *)
Fixpoint collect (f : N -> option N) (l : N) (n : nat) : option (list N) :=
  match n with
  | O => Some []
  | S n => let? x := f l in let? xs := collect f (l + 1) n in Some (x :: xs)
  end.
Definition geval (st : store) (h : nat) : gout store :=
  match gget st h with
  | None => GFault
  | Some v =>
      match g_desc v with
      | GMem _ => GOk st
      | _ => match collect (lane (g_size v) st h) 0 (N.to_nat (g_size v)) with
             | Some d => GOk (set_nth (h - 1) (mkG (g_ty v) (g_size v) (GMem d)) st)
             | None => GFault
             end
      end
  end.

(** op.cpp:2113-2256 *)
Definition gather (st : store) (src idx mask : nat) : gout (store * nat) :=
  if Nat.eqb idx 0 then GOk (st, O)
  else if Nat.eqb src 0 || Nat.eqb mask 0 then GRaise
  else match gget st src, gget st idx, gget st mask with
  | Some vs, Some vi, Some vm =>
      let* n := gcheck vi vm in
      if g_is vm 0 then gpush st (mkG (g_ty vs) n (GLit 0))
      else if g_size vs =? 1 then let* (st, t) := gresize st src n in gand st t mask
      else if match g_desc vi with GCtr => g_size vi =? g_size vs | _ => false end then gand st src mask
      else
        let* (st, i2) := gcast st idx U32 in
        let* (st, m2) := mask_apply st mask n in
        let* (st, _, r) := reindex i2 m2 n (S src) st [] src in
        match r with
        | Some r => let* (st, t) := gresize st r n in gand st t m2
        | None =>
            let* st := geval st src in
            if (n =? 1) && g_lit vi && g_lit vm then
              match gget st src, g_desc vi with
              | Some (mkG t _ (GMem d)), GLit pos =>
                  if g_size vs <=? pos then GRaise
                  else gpush st (mkG t 1 (GMem [nth (N.to_nat pos) d 0]))
              | _, _ => GFault
              end
            else
              let* (st, m2) := mask_apply st mask n in
              let* (st, p) := gpush st (mkG U64 1 (GPtr src)) in
              let* (st, i2) := gather_index st src idx in
              gpush st (mkG (g_ty vs) n (GGather p i2 m2))
        end
  | _, _, _ => GFault
  end.

(** ** Packets: op.cpp:2258-2380 *)

(** Unsigned 32 bit arithmetic: jitc_var_mul, jitc_var_add, jitc_var_fma, see Op_Model *)
Variables (umul uadd : store -> nat -> nat -> gout (store * nat)).
Variable ufma : store -> nat -> nat -> nat -> gout (store * nat).
(** JitFlag::PacketOps, jitc_llvm_vector_width, and which arrays are not aligned *)
Variables (packet_ops : bool) (vector_width : N) (unaligned : nat -> bool).

Definition glit32 (st : store) (x : N) : gout (store * nat) := gpush st (mkG U32 1 (GLit x)).
(** op.cpp:2297-2302: one gather per component, starting with component [i] *)
Fixpoint separate (st : store) (scale src idx mask : nat) (i : N) (c : nat) : gout (store * list nat) :=
  match c with
  | O => GOk (st, [])
  | S c =>
      let* (st, i2) := glit32 st i in
      let* (st, i3) := ufma st idx scale i2 in
      let* (st, r) := gather st src i3 mask in
      let* (st, rs) := separate st scale src idx mask (i + 1) c in
      GOk (st, r :: rs)
  end.
(** op.cpp:2326-2328 *)
Fixpoint halve (fuel : nat) (n ps : N) : N :=
  match fuel with
  | O => ps
  | S fuel => if N.land n (ps - 1) =? 0 then ps else halve fuel n (ps / 2)
  end.
(** op.cpp:2334-2337 *)
Fixpoint pieces (self : store -> nat -> gout (store * list nat)) (st : store) (idx step : nat) (c : nat) : gout (store * list nat) :=
  match c with
  | O => GOk (st, [])
  | S c =>
      let* (st, rs) := self st idx in
      let* (st, idx) := uadd st idx step in
      let* (st, rest) := pieces self st idx step c in
      GOk (st, rs ++ rest)
  end.
(** op.cpp:2371-2374 *)
Fixpoint extracts (st : store) (t : ty) (n : N) (op : nat) (i : N) (c : nat) : gout (store * list nat) :=
  match c with
  | O => GOk (st, [])
  | S c =>
      let* (st, r) := gpush st (mkG t n (GExtract i op)) in
      let* (st, rs) := extracts st t n op (i + 1) c in
      GOk (st, r :: rs)
  end.
Fixpoint gather_packet (fuel : nat) (n : N) (st : store) (src idx mask : nat) : gout (store * list nat) :=
  if Nat.eqb idx 0 then GOk (st, repeat O (N.to_nat n))
  else if Nat.eqb src 0 || Nat.eqb mask 0 then GRaise
  else
    let* (st, scale) := glit32 st n in
    match gget st src, gget st idx, gget st mask with
    | Some vs, Some vi, Some vm =>
        let* size := gcheck vi vm in
        if n =? 1 then GRaise
        else if n =? 0 then GFault
        else if negb (g_size vs mod n =? 0) && negb (g_size vs =? 1) then GRaise
        else if negb packet_ops || (n mod 2 =? 1) || g_is vm 0 || (g_size vs =? 1) || unaligned src || g_lit vs then
          separate st scale src idx mask 0 (N.to_nat n)
        else if negb (N.land n (n - 1) =? 0) || (N.min 8 vector_width <? n) then
          match fuel with
          | O => GFault
          | S fuel =>
              if N.min 8 vector_width =? 0 then GRaise
              else
                let ps := halve 4 n (N.min 8 vector_width) in
                let* (st, step) := glit32 st 1 in
                let* (st, scale2) := glit32 st (n / ps) in
                let* (st, idx2) := umul st idx scale2 in
                pieces (fun st idx => gather_packet fuel ps st src idx mask) st idx2 step (N.to_nat (n / ps))
          end
        else
          let* st := geval st src in
          let* (st, m2) := mask_apply st mask size in
          let* (st, p) := gpush st (mkG U64 1 (GPtr src)) in
          let* (st, i2) := gather_index st src idx in
          let* (st, op) := gpush st (mkG (g_ty vs) size (GPacket n p i2 m2)) in
          extracts st (g_ty vs) size op 0 (N.to_nat n)
    | _, _, _ => GFault
    end.
End Gather.
