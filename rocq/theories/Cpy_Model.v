(** The copies at the end of a loop iteration on CUDA (cuda_eval.cpp:489-495 jitc_cuda_mov,
    504-574 jitc_cuda_render_loop_end) and on Metal (metal_eval.cpp:815-866).

    A variable is a number; variables have registers of their own.  [live]: the variable has
    a register (v->reg_index != 0).  [b8]: type with 8 bits.  Such copies go through the 16
    bit register of the same number (%w) on CUDA; [via16] says whether the backend does so.
    Simplification: no arrays in the loop state. *)
From Verif Require Import Base.
Local Open Scope N_scope.

Section Copy.
Variables (live b8 : N -> bool) (via16 : bool).

Inductive instr :=
  | ITmp (o : N)      (* mov.$b $v_tmp, $v / cvt.u16.u8 %w, $v *)
  | IMovTmp (i o : N) (* mov.$b $v, $v_tmp / cvt.u8.u16 $v, %w *)
  | IMov (i o : N).   (* mov.$b $v, $v *)
(** 519, 534, 552 *)
Definition skip (p : N * N) : bool := let '(i, o) := p in (i =? o) || negb (live i) || negb (live o).
Definition mem (x : N) (l : list N) : bool := existsb (N.eqb x) l.
(** 515-523: variables with scratch = 1 *)
Definition marked (pairs : list (N * N)) : list N := map fst (filter (fun p => negb (skip p)) pairs).
(** 529-546; [tmps]: variables with scratch = 2 *)
Fixpoint temps (marks : list N) (pairs : list (N * N)) (tmps : list N) : list instr * list N :=
  match pairs with
  | [] => ([], tmps)
  | (i, o) :: pairs =>
      if skip (i, o) || negb (mem o marks && negb (mem o tmps)) then temps marks pairs tmps
      else let '(is, tmps) := temps marks pairs (o :: tmps) in (ITmp o :: is, tmps)
  end.
(** 548-563 *)
Fixpoint moves (tmps : list N) (pairs : list (N * N)) : list instr :=
  match pairs with
  | [] => []
  | (i, o) :: pairs =>
      if skip (i, o) then moves tmps pairs
      else (if mem o tmps then IMovTmp i o else IMov i o) :: moves tmps pairs
  end.
(** [pairs]: inner_in[i], inner_out[i] *)
Definition render (pairs : list (N * N)) : list instr :=
  let '(is, tmps) := temps (marked pairs) pairs [] in is ++ moves tmps pairs.

(** Machine: registers of the variables; temporaries / 16 bit registers (they differ:
    [true] selects the latter), [None] before the first write *)
Definition mach : Type := (N -> N) * (bool -> N -> option N).
Definition set {A} (f : N -> A) (x : N) (v : A) : N -> A := fun y => if y =? x then v else f y.
Definition file (x : N) : bool := via16 && b8 x.
Definition set2 (t : bool -> N -> option N) (b : bool) (x v : N) : bool -> N -> option N :=
  fun c y => if Bool.eqb c b && (y =? x) then Some v else t c y.
(** [None]: reads a temporary that was never written *)
Definition istep (m : mach) (i : instr) : option mach :=
  let '(r, t) := m in
  match i with
  | ITmp o => Some (r, set2 t (file o) o (r o))
  | IMovTmp i o => let? x := t (file i) o in Some (set r i x, t)
  | IMov i o => Some (set r i (r o), if file i then set2 t true o (r o) else t)
  end.
Fixpoint irun (m : mach) (is : list instr) : option mach :=
  match is with [] => Some m | i :: is => let? m := istep m i in irun m is end.
End Copy.
