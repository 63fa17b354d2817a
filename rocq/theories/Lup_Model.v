(** Symbolic loops: loop.cpp:8-374 (jitc_var_loop_start, jitc_var_loop_cond,
    jitc_var_loop_end) and the code generated for them: llvm_eval.cpp:1155-1206,
    cuda_eval.cpp:1372-1412, metal_eval.cpp:793-884; state that nobody needs:
    eval.cpp:185-208.

    Simplifications: no arrays and no variables with pending side effects in the loop state
    (v->is_array(), v->is_dirty()), no side effects in the body, no types, no
    jitc_var_loop_update_inner_in.  The function that records the body is arbitrary; it is
    called a second time when state is eliminated. *)
From Verif Require Import Base Cpy_Model.
Local Open Scope N_scope.

(** What a variable computes: a constant, loop state variable [i] (VarKind::LoopPhi), a
    variable [j] from outside of the loop, an operation *)
Inductive expr (K : Type) := ELit (x : N) | EPhi (i : nat) | EOut (j : nat) | EOp (k : K) (args : list (expr K)).
Arguments ELit {K}. Arguments EPhi {K}. Arguments EOut {K}. Arguments EOp {K}.
Section Loop.
Context {K : Type}.
Variable expr_eq : forall a b : expr K, {a = b} + {a <> b}. (* equality of handles *)
(** Results of operations per lane; values of the variables from outside per lane *)
Variable sem : N -> K -> list N -> N.
Variable outv : N -> nat -> N.
Notation expr := (expr K).
Fixpoint eval (k : N) (s : list N) (e : expr) {struct e} : N :=
  match e with
  | ELit x => x
  | EPhi i => nth i s 0
  | EOut j => outv k j
  | EOp o args => sem k o (map (eval k s) args)
  end.

(** A variable: what it computes, its size *)
Record var := { v_expr : expr; v_size : N }.
Definition recorder := list var -> var * list var. (* condition, new state *)
Definition lit_of (v : var) : option N := match v_expr v with ELit x => Some x | _ => None end.
Definition same_lit (a b : var) : bool := match lit_of a, lit_of b with Some x, Some y => x =? y | _, _ => false end.
(** Equality of the indices of two variables *)
Definition same (a b : var) : bool := (if expr_eq (v_expr a) (v_expr b) then true else false) && (v_size a =? v_size b).
(** 72-88: one LoopPhi per state variable *)
Fixpoint phis (i : nat) (outer : list var) : list var :=
  match outer with [] => [] | v :: outer => {| v_expr := EPhi i; v_size := v_size v |} :: phis (S i) outer end.

(** 165-179.  [size]: of the condition node, max(1, size of the condition), 134 *)
Fixpoint loop_size (size : N) (outer inner outs : list var) : N :=
  match outer, inner, outs with
  | v1 :: outer, p :: inner, v2 :: outs =>
      loop_size (if same v2 p then size else N.max size (N.max (v_size v1) (v_size v2))) outer inner outs
  | _, _, _ => size
  end.
(** 194-216 *)
Definition eliminate (optimize : bool) (size : N) (v1 p v2 : var) : bool :=
  if same v2 p then optimize || negb (v_size v2 =? size) else optimize && same_lit v1 v2.
Fixpoint eliminations (optimize : bool) (size : N) (outer inner outs : list var) : list bool :=
  match outer, inner, outs with
  | v1 :: outer, p :: inner, v2 :: outs => eliminate optimize size v1 p v2 :: eliminations optimize size outer inner outs
  | _, _, _ => []
  end.
(** 218-225: ld->inner_in[i] = ld->outer_in[i] *)
Fixpoint replace (el : list bool) (outer inner : list var) : list var :=
  match el, outer, inner with
  | b :: el, v1 :: outer, p :: inner => (if b then v1 else p) :: replace el outer inner
  | _, _, _ => []
  end.
(** Size check of jitc_var_select(active, v, p), op.cpp:160-182 *)
Definition select_ok (active v p : var) : bool :=
  let m := N.max (v_size active) (N.max (v_size v) (v_size p)) in
  forallb (fun x => (v_size x =? m) || (v_size x =? 1)) [active; v; p].
(** 254-301.  State after an iteration: [None] for eliminated variables.  Result [None]:
    raises.  Only the LLVM backend builds a select, whose operands are checked. *)
Fixpoint finish (llvm : bool) (active : var) (el : list bool) (size : N) (outer inner outs : list var) : option (N * list (option var)) :=
  match el, outer, inner, outs with
  | b :: el, v1 :: outer, p :: inner, v2 :: outs =>
      if negb b then
        if negb (v_size v2 =? size) && negb (size =? 1) && negb (v_size v2 =? 1) then None
        else if llvm && negb (select_ok active v2 p) then None
        else let? r := finish llvm active el (N.max (v_size v2) size) outer inner outs in Some (fst r, Some v2 :: snd r)
      else if negb (same v2 p) && negb (same_lit v2 p) then None
      else let? r := finish llvm active el size outer inner outs in Some (fst r, None :: snd r)
  | [], [], [], [] => Some (size, [])
  | _, _, _, _ => None
  end.
(** The recorded loop: state variables at the beginning of an iteration, condition, new
    values, size *)
Record loop := { l_inner : list var; l_cond : var; l_new : list (option var); l_size : N }.
Definition record_loop (llvm optimize : bool) (body : recorder) (outer : list var) : option loop :=
  let inner := phis 0 outer in
  let '(cond, outs) := body inner in
  let size := loop_size (N.max 1 (v_size cond)) outer inner outs in
  let el := eliminations optimize size outer inner outs in
  if negb (existsb (fun b => b) el) then
    let? r := finish llvm cond el size outer inner outs in
    Some {| l_inner := inner; l_cond := cond; l_new := snd r; l_size := fst r |}
  else
    let inner := replace el outer inner in
    let '(cond, outs) := body inner in
    let size := loop_size (N.max 1 (v_size cond)) outer inner outs in
    let? r := finish llvm cond el size outer inner outs in
    Some {| l_inner := inner; l_cond := cond; l_new := snd r; l_size := fst r |}.

(** Whether a kernel for the loop can be assembled: the process is aborted when a needed
    variable is neither scalar nor of the kernel's size, eval.cpp:422 *)
Definition fits (size : N) (v : var) : bool := (v_size v =? 1) || (v_size v =? size).
Definition assembles (outer : list var) (l : loop) : bool :=
  fits (l_size l) (l_cond l) &&
  forallb (fun p => match snd p with Some v => fits (l_size l) (fst p) && fits (l_size l) v | None => true end) (combine outer (l_new l)).

(** ** Code of the LLVM backend.  [w] lanes; [s k]: values of the state variables (phi
    instructions) in lane [k] *)
Definition active (l : loop) (k : N) (s : list N) : bool := negb (eval k s (v_expr (l_cond l)) =? 0).
(** select(active, new, old), loop.cpp:283; the phi of an eliminated variable, if there is
    one, is [phi outer, outer] *)
Fixpoint news (l : loop) (k : N) (s0 s : list N) (new : list (option var)) : list N :=
  match new, s with
  | Some v :: new, x :: s => (if active l k s0 then eval k s0 (v_expr v) else x) :: news l k s0 s new
  | None :: new, x :: s => x :: news l k s0 s new
  | _, _ => []
  end.
(** Outputs, 329-369: the phi, or the variable from outside if it was eliminated *)
Fixpoint outs_of (k : N) (s : list N) (outer : list var) (new : list (option var)) : list N :=
  match outer, new, s with
  | v1 :: outer, n :: new, x :: s => (match n with Some _ => x | None => eval k [] (v_expr v1) end) :: outs_of k s outer new
  | _, _, _ => []
  end.
Definition start (outer : list var) (k : N) : list N := map (fun v => eval k [] (v_expr v)) outer.
Variable w : N.
Definition lanes : list N := map N.of_nat (seq 0 (N.to_nat w)).
Fixpoint run_loop (fuel : nat) (l : loop) (s : N -> list N) : option (N -> list N) :=
  match fuel with
  | O => None
  | S fuel =>
      if existsb (fun k => active l k (s k)) lanes (* @llvm.vector.reduce.or *)
      then run_loop fuel l (fun k => news l k (s k) (s k) (l_new l))
      else Some s
  end.
Definition exec (fuel : nat) (l : loop) (outer : list var) : option (N -> list N) :=
  let? s := run_loop fuel l (start outer) in
  Some (fun k => outs_of k (s k) outer (l_new l)).

(** ** Code of the CUDA and Metal backends: a thread per lane.  Registers: [2 i] of state
    variable [i], [2 i + 1] of its new value, unless that is a state variable itself *)
Definition phi_reg (i : nat) : N := 2 * N.of_nat i.
Definition out_reg (i : nat) (n : option var) : N :=
  match n with
  | None => phi_reg i (* inner_out[i] == inner_in[i] *)
  | Some v => match v_expr v with EPhi j => phi_reg j | _ => 2 * N.of_nat i + 1 end
  end.
Fixpoint pairs (i : nat) (new : list (option var)) : list (N * N) :=
  match new with [] => [] | n :: new => (phi_reg i, out_reg i n) :: pairs (S i) new end.
(** The body computes the new values *)
Definition body_regs (k : N) (l : loop) (s : list N) : N -> N := fun x =>
  let i := N.to_nat (x / 2) in
  if N.even x then nth i s 0
  else match nth_error (l_new l) i with Some (Some v) => eval k s (v_expr v) | _ => 0 end.
Fixpoint run_thread (via16 : bool) (b8 : N -> bool) (fuel : nat) (l : loop) (k : N) (s : list N) : option (list N) :=
  match fuel with
  | O => None
  | S fuel =>
      if active l k s then
        let? m := irun b8 via16 (body_regs k l s, fun _ _ => None) (render (fun _ => true) (pairs 0 (l_new l))) in
        run_thread via16 b8 fuel l k (map (fun i => fst m (phi_reg i)) (seq 0 (length s)))
      else Some s
  end.
Definition exec_thread (via16 : bool) (b8 : N -> bool) (fuel : nat) (l : loop) (outer : list var) (k : N) : option (list N) :=
  let? s := run_thread via16 b8 fuel l k (start outer k) in Some (outs_of k s outer (l_new l)).

(** ** State that nobody needs is not computed (eval.cpp:185-208) *)
Fixpoint phis_of (e : expr) : list nat :=
  match e with EPhi i => [i] | EOp _ args => flat_map phis_of args | _ => [] end.
(** Visiting state variable [i] visits inner_out[i], a select on LLVM *)
Definition deps (l : loop) (i : nat) : list nat :=
  match nth_error (l_new l) i with
  | Some (Some v) => i :: phis_of (v_expr (l_cond l)) ++ phis_of (v_expr v)
  | _ => []
  end.
Definition seen_in (i : nat) (seen : list nat) : bool := existsb (Nat.eqb i) seen.
Fixpoint visit (fuel : nat) (l : loop) (work seen : list nat) : option (list nat) :=
  match fuel with
  | O => None
  | S fuel =>
      match work with
      | [] => Some seen
      | i :: work => if seen_in i seen then visit fuel l work seen else visit fuel l (deps l i ++ work) (i :: seen)
      end
  end.
(** The outputs [os] are needed; these refer to the loop's end, and that to its condition *)
Definition needed (fuel : nat) (l : loop) (os : list nat) : option (list nat) :=
  visit fuel l (os ++ phis_of (v_expr (l_cond l))) [].
(** State that was not visited does not exist: something else is in its place *)
Definition forget (seen : list nat) (junk : nat -> N) (s : list N) : list N :=
  map (fun i => if seen_in i seen then nth i s 0 else junk i) (seq 0 (length s)).
Fixpoint run_needed (seen : list nat) (junk : nat -> N -> nat -> N) (fuel : nat) (l : loop) (s : N -> list N) : option (N -> list N) :=
  match fuel with
  | O => None
  | S fuel =>
      let s := fun k => forget seen (junk fuel k) (s k) in
      if existsb (fun k => active l k (s k)) lanes
      then run_needed seen junk fuel l (fun k => news l k (s k) (s k) (l_new l))
      else Some s
  end.
End Loop.
Arguments recorder : clear implicits.
Arguments var : clear implicits.
Arguments loop : clear implicits.
