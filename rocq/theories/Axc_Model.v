(** Atomic exchange and compare-and-swap: op.cpp:2477-2584, 2586-2727 (construction) and
    llvm_scatter.cpp:581-651, 653-748 (generated code). *)
From Verif Require Import Base.
Local Open Scope N_scope.

(** ** Generated code *)
(** Basic blocks %l<n>_... *)
Inductive label := Prelude | Cond | CheckMask | Body | End_ | Exit.
Definition label_eqb (a b : label) : bool :=
  match a, b with
  | Prelude, Prelude | Cond, Cond | CheckMask, CheckMask | Body, Body | End_, End_ | Exit, Exit => true
  | _, _ => false
  end.
(** A block: its label, the blocks its phi instructions name, the targets of its branch *)
Record bblock := { bl_label : label; bl_phi : list label; bl_succ : list label }.
(** llvm_scatter.cpp:588-650 and 662-747 emit the same blocks.  [unmasked]: the mask is
    the literal 1.  The code after the label %l<n>_exit is not part of the operation. *)
Definition emit (unmasked : bool) : list bblock :=
  [ {| bl_label := Prelude; bl_phi := []; bl_succ := [Cond] |} ] ++
  (if unmasked then [ {| bl_label := Cond; bl_phi := [Prelude; End_]; bl_succ := [Body] |} ]
   else [ {| bl_label := Cond; bl_phi := [Prelude; End_]; bl_succ := [CheckMask; Exit] |};
          {| bl_label := CheckMask; bl_phi := []; bl_succ := [Body; End_] |} ]) ++
  [ {| bl_label := Body; bl_phi := []; bl_succ := [End_] |};
    {| bl_label := End_; bl_phi := [CheckMask; Body]; bl_succ := [Cond] |};
    {| bl_label := Exit; bl_phi := []; bl_succ := [] |} ].
(** What LLVM requires: branches and phi instructions name blocks that exist, and a phi
    instruction has an entry for each predecessor and no others *)
Definition has (l : label) (ls : list label) : bool := existsb (label_eqb l) ls.
Definition preds (code : list bblock) (l : label) : list label := map bl_label (filter (fun b => has l (bl_succ b)) code).
Definition same (a b : list label) : bool := forallb (fun l => has l b) a && forallb (fun l => has l a) b.
Definition valid (code : list bblock) : bool :=
  forallb (fun b => forallb (fun l => has l (map bl_label code)) (bl_succ b) &&
                    (match bl_phi b with [] => true | p => same p (preds code (bl_label b)) end)) code.

(** Execution.  The atomic operations are recorded by lane, in order; a lane's result is the
    value that operation number [j] returned, or zero *)
Record cstate := { s_at : label; s_i : N; s_ret : option nat; s_ops : list N; s_out : N -> option nat }.
Inductive cresult := CDone (ops : list N) (out : N -> option nat) | CUndefined | CRunning.
Section Code.
Variable w : N.
Variable unmasked : bool.
Variable mask : N -> bool.
Definition goto (s : cstate) (l : label) : cstate := {| s_at := l; s_i := s_i s; s_ret := s_ret s; s_ops := s_ops s; s_out := s_out s |}.
(** "icmp slt" *)
Definition slt (a b : N) : bool := if a <? 2 ^ 31 then (a <? b) else true.
Definition cstep1 (s : cstate) : cstate + cresult :=
  match s_at s with
  | Prelude => inl (goto {| s_at := Cond; s_i := 0; s_ret := None; s_ops := s_ops s; s_out := fun _ => None |} Cond)
  | Cond => if unmasked then inl (goto s Body) else if slt (s_i s) w then inl (goto s CheckMask) else inl (goto s Exit)
  | CheckMask => if mask (s_i s) then inl (goto s Body) else inl {| s_at := End_; s_i := s_i s; s_ret := None; s_ops := s_ops s; s_out := s_out s |}
  | Body =>
      (* extractelement behind the end of a vector gives poison, which is then used as address *)
      if s_i s <? w then inl {| s_at := End_; s_i := s_i s; s_ret := Some (length (s_ops s)); s_ops := s_ops s ++ [s_i s]; s_out := s_out s |}
      else inr CUndefined
  | End_ => inl {| s_at := Cond; s_i := u32 (s_i s + 1); s_ret := s_ret s; s_ops := s_ops s; s_out := fun k => if k =? s_i s then s_ret s else s_out s k |}
  | Exit => inr (CDone (s_ops s) (s_out s))
  end.
Fixpoint crun1 (fuel : nat) (s : cstate) : cresult :=
  match fuel with
  | O => CRunning
  | S fuel => match cstep1 s with inl s => crun1 fuel s | inr r => r end
  end.
Definition code (fuel : nat) : cresult := crun1 fuel {| s_at := Prelude; s_i := 0; s_ret := None; s_ops := []; s_out := fun _ => None |}.
End Code.

(** ** Memory operations of all threads *)
Inductive aop := AExch (v : N) | ACas (c v : N).
(** atomicrmw xchg; cmpxchg: new contents *)
Definition stores (o : aop) (old : N) : option N :=
  match o with AExch v => Some v | ACas c v => if old =? c then Some v else None end.
(** The value returned as "success" *)
Definition success (o : aop) (old : N) : bool := match o with AExch _ => true | ACas c _ => old =? c end.
Record athread := { at_todo : list (N * aop); at_done : list (N * aop * N) }.
Definition astep (t : athread) (m : N -> N) : athread * (N -> N) :=
  match at_todo t with
  | [] => (t, m)
  | (a, o) :: rest =>
      ({| at_todo := rest; at_done := at_done t ++ [(a, o, m a)] |},
       match stores o (m a) with Some v => fun b => if b =? a then v else m b | None => m end)
  end.
Fixpoint arun (sched : list nat) (ts : list athread) (m : N -> N) : list athread * (N -> N) :=
  match sched with
  | [] => (ts, m)
  | i :: sched =>
      match nth_error ts i with
      | None => arun sched ts m
      | Some t => let '(t', m') := astep t m in arun sched (set_nth i t' ts) m'
      end
  end.
Definition astart (todo : list (N * aop)) : athread := {| at_todo := todo; at_done := [] |}.

(** A vector of lanes *)
Record avec := { v_addr : N -> N; v_op : N -> aop; v_mask : N -> bool }.
Section Threads.
Variable w : N.
Variable fuel : nat.
Definition vec_ops (v : avec) : option (list (N * aop) * (N -> option nat)) :=
  match code w false (v_mask v) fuel with CDone ops out => Some (map (fun k => (v_addr v k, v_op v k)) ops, out) | _ => None end.
Fixpoint thread_ops (vs : list avec) : option (list (N * aop)) :=
  match vs with
  | [] => Some []
  | v :: vs => let? r := vec_ops v in let? rs := thread_ops vs in Some (fst r ++ rs)
  end.
Fixpoint all_ops (work : list (list avec)) : option (list (list (N * aop))) :=
  match work with
  | [] => Some []
  | vs :: work => let? r := thread_ops vs in let? rs := all_ops work in Some (r :: rs)
  end.
(** Value returned to a lane; [done]: operations performed from this vector on *)
Definition lane_old (out : N -> option nat) (done : list (N * aop * N)) (k : N) : N :=
  match out k with None => 0 | Some j => match nth_error done j with Some (_, _, old) => old | None => 0 end end.
(** What the active lanes observe: address, operation, returned value *)
Fixpoint thread_results (vs : list avec) (done : list (N * aop * N)) : option (list (N * aop * N)) :=
  match vs with
  | [] => Some []
  | v :: vs =>
      let? r := vec_ops v in
      let? rs := thread_results vs (skipn (length (fst r)) done) in
      Some (map (fun k => (v_addr v k, v_op v k, lane_old (snd r) done k)) (filter (v_mask v) (map N.of_nat (seq 0 (N.to_nat w)))) ++ rs)
  end.
Fixpoint all_results (work : list (list avec)) (ts : list athread) : option (list (N * aop * N)) :=
  match work, ts with
  | vs :: work, t :: ts => let? r := thread_results vs (at_done t) in let? rs := all_results work ts in Some (r ++ rs)
  | _, _ => Some []
  end.
End Threads.

(** ** Construction *)
(** An operand: size, type, literal value if any, symbolic *)
Record operand := { o_size : N; o_ty : N; o_lit : option N; o_sym : bool }.
Inductive bresult (A : Type) := BOk (x : A) | BRaise | BFault.
Arguments BOk {A}. Arguments BRaise {A}. Arguments BFault {A}.
(** op.cpp:77-224; [None]: handle 0.  Size of the operation *)
Definition bsize (o : option operand) : N := match o with Some o => o_size o | None => 0 end.
Definition bcheck (os : list (option operand)) : bresult N :=
  let n := fold_left N.max (map bsize os) 0 in
  if (0 <? n) && negb (forallb (fun o => (bsize o =? n) || (bsize o =? 1)) os) then BRaise else BOk n.
(** What the caller gets: a new variable with [n] entries, or a reference to the target *)
Inductive returned := RNew (n : N) | RTarget.
Definition is_lit (o : operand) (x : N) : bool := match o_lit o with Some y => y =? x | None => false end.
Definition same_lit (a b : operand) : bool := match o_lit a, o_lit b with Some x, Some y => x =? y | _, _ => false end.
(** VarType::Bool, VarType::UInt32 *)
Definition Bool_ty : N := 1.
Definition U32_ty : N := 8.
(** var.cpp:2231-2270 on LLVM, size of the result.  [top]: size of the entry on top of the
    mask stack *)
Definition mask_size (top : option N) (m n : N) : bresult N :=
  let s := match top with Some s => if (n =? 1) || (s =? 1) || (s =? n) then s else n | None => n end in
  bcheck [Some {| o_size := s; o_ty := 0; o_lit := None; o_sym := false |}; Some {| o_size := m; o_ty := 0; o_lit := None; o_sym := false |}].
(** Common part; [None]: shortcut taken *)
Definition build (recording : bool) (top : option N) (target : option operand) (args : list (option operand)) (values : list (option operand))
    (value index mask : option operand) : bresult (option N) :=
  match target with
  | None => BRaise
  | Some t =>
      match bcheck args with
      | BOk n =>
          if o_sym t then BRaise else
          match value, index, mask with
          | Some v, Some i, Some m =>
              if negb (forallb (fun o => match o with Some o => o_ty o =? o_ty t | None => false end) values) then BRaise
              else if negb (o_ty i =? U32_ty) then BRaise
              else if existsb (fun o => match o with Some o => o_sym o | None => false end) args && negb recording then BRaise
              else if same_lit t v then BOk None
              else if is_lit m 0 then BOk None
              else if negb (o_ty m =? Bool_ty) then BRaise
              else match mask_size top (o_size m) n with
                   | BOk s => BOk (Some (N.max n s))
                   | BRaise => BRaise | BFault => BFault
                   end
          | _, _, _ => BFault
          end
      | BRaise => BRaise | BFault => BFault
      end
  end.
(** op.cpp:2477-2584: the returned variable.  Copies of the target, the pointer and the
    side effect are not modelled. *)
Definition scatter_exch (recording : bool) (top : option N) (target value index mask : option operand) : bresult returned :=
  match build recording top target [value; index; mask] [value] value index mask with
  | BOk (Some n) => BOk (RNew n)
  | BOk None => BOk RTarget
  | BRaise => BRaise | BFault => BFault
  end.
(** op.cpp:2586-2727: what is stored to "old" and "success" ([None]: they are left as they
    were before the call) *)
Definition scatter_cas (recording : bool) (top : option N) (target compare value index mask : option operand) : bresult (option (N * N)) :=
  match build recording top target [compare; value; index; mask] [compare; value] value index mask with
  | BOk (Some n) => BOk (Some (n, n))
  | BOk None => BOk None
  | BRaise => BRaise | BFault => BFault
  end.
