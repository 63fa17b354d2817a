(** Symbolic conditional statements: cond.cpp:7-226 and the code generated for them,
    llvm_eval.cpp:1211-1290, cuda_eval.cpp:1414-1452, metal_eval.cpp:895-935.

    Simplifications: no arrays among the return values; reference counts only where they
    matter (rv_out, side effects); the code of a branch is a black box that computes the
    values of its variables in all lanes when it runs.  Scopes (which place the code of the
    branches between the three nodes) are the subject of C07, C26 and C28. *)
From Verif Require Import Base.
Local Open Scope N_scope.

(** A variable: type, size, literal, pending side effects, value per lane (in a kernel) *)
Record cvar := { c_ty : N; c_size : N; c_lit : option N; c_dirty : bool; c_val : N -> N }.
(** Handle 0: no variable *)
Definition cget (st : list cvar) (h : nat) : option cvar := match h with O => None | S i => nth_error st i end.

(** A returned variable: one of the given handles, or a new CondOutput *)
Inductive ret := RSame (h : nat) | ROut (ty size : N) (t f : nat).
(** [CRaise held]: an exception, [held] are entries of rv_out that were not released;
    [CFault]: a handle without variable is used *)
Inductive cend := CEnd (outs : list ret) | CRaise (held : list ret) | CFault.
Definition same_lit (a b : cvar) : bool := match c_lit a, c_lit b with Some x, Some y => x =? y | _, _ => false end.
(** cond.cpp:119-190.  [size]: of the condition; [acc]: rv_out so far *)
Fixpoint cond_outs (st : list cvar) (size : N) (rv : list (nat * nat)) (acc : list ret) : cend :=
  match rv with
  | [] => CEnd acc
  | (t, f) :: rv =>
      if Nat.eqb t 0 || Nat.eqb f 0 then CRaise acc
      else match cget st t, cget st f with
      | Some vt, Some vf =>
          if Nat.eqb t f || c_dirty vf || same_lit vf vt then cond_outs st size rv (acc ++ [RSame f])
          else
            let lm := N.max (N.max size (c_size vt)) (c_size vf) in
            if (negb (size =? lm) && negb (size =? 1)) || (negb (c_size vt =? lm) && negb (c_size vt =? 1)) ||
               (negb (c_size vf =? lm) && negb (c_size vf =? 1))
            then CRaise []
            else cond_outs st size rv (acc ++ [ROut (c_ty vt) size t f])
      | _, _ => CFault
      end
  end.
(** cond.cpp:54-96 (number of return values), 98-190 *)
Definition cond_end (st : list cvar) (size : N) (ts fs : list nat) : cend :=
  if negb (Nat.eqb (length ts) (length fs)) then CRaise [] else cond_outs st size (combine ts fs) [].

(** cond.cpp:192-215: [l]: side effects and their sizes.  Result: those handed over to new
    variables, whether an exception was raised *)
Fixpoint traverse_se (size : N) (l : list (nat * N)) : list nat * bool :=
  match l with
  | [] => ([], false)
  | (i, n) :: l =>
      if negb (size =? n) && negb (n =? 1) && negb (size =? 1) then ([], true)
      else let '(given, raised) := traverse_se size l in (i :: given, raised)
  end.
(** References given to new variables, references left in CondData (released by its
    destructor, cond.h:11-20), exception *)
Definition cond_effects (size : N) (se_t se_f : list (nat * N)) : list nat * list nat * bool :=
  let '(given, raised) := traverse_se size se_t in
  if raised then (given, map fst se_t ++ map fst se_f, true)
  else
    let '(given_f, raised) := traverse_se size se_f in
    if raised then (given ++ given_f, map fst se_f, true) else (given ++ given_f, [], false).

(** Whether a kernel for a returned variable alone can be assembled; the process is aborted
    when a needed variable is neither scalar nor of the kernel's size, eval.cpp:422 *)
Definition fits (size : N) (v : option cvar) : bool :=
  match v with Some v => (c_size v =? 1) || (c_size v =? size) | None => false end.
Definition assembles (st : list cvar) (r : ret) : bool :=
  match r with RSame _ => true | ROut _ size t f => fits size (cget st t) && fits size (cget st f) end.

(** ** LLVM: blocks %l_<n>_... *)
Inductive label := LBefore | LStart | LT | LTTrailer | LNext | LF | LFTrailer | LEnd.
Definition label_eqb (a b : label) : bool :=
  match a, b with
  | LBefore, LBefore | LStart, LStart | LT, LT | LTTrailer, LTTrailer | LNext, LNext | LF, LF | LFTrailer, LFTrailer | LEnd, LEnd => true
  | _, _ => false
  end.
(** Label, blocks that phi instructions name, targets of the branch *)
Record block := { b_label : label; b_phi : list label; b_succ : list label }.
Definition emit : list block :=
  [ {| b_label := LBefore; b_phi := []; b_succ := [LStart] |};
    {| b_label := LStart; b_phi := []; b_succ := [LT; LNext] |};
    {| b_label := LT; b_phi := []; b_succ := [LTTrailer] |};
    {| b_label := LTTrailer; b_phi := []; b_succ := [LNext] |};
    {| b_label := LNext; b_phi := [LTTrailer; LStart]; b_succ := [LF; LEnd] |};
    {| b_label := LF; b_phi := []; b_succ := [LFTrailer] |};
    {| b_label := LFTrailer; b_phi := []; b_succ := [LEnd] |};
    {| b_label := LEnd; b_phi := [LFTrailer; LNext]; b_succ := [] |} ].
Definition has (l : label) (ls : list label) : bool := existsb (label_eqb l) ls.
Definition preds (code : list block) (l : label) : list label := map b_label (filter (fun b => has l (b_succ b)) code).
Definition valid (code : list block) : bool :=
  forallb (fun b => forallb (fun l => has l (map b_label code)) (b_succ b) &&
                    match b_phi b with [] => true | p => forallb (fun l => has l (preds code (b_label b))) p && forallb (fun l => has l p) (preds code (b_label b)) end) code.
(** Types: the phi instructions have those of the branches' variables, "select" that of the
    output for both of its operands (llvm_eval.cpp:1245, 1276, 1284) *)
Definition typed (ty_t ty_f ty_o : N) : bool := (ty_t =? ty_o) && (ty_f =? ty_o).

Section Run.
Variable w : N.
Variables (ct cf : N -> bool).   (* conditions per lane *)
Definition lanes : list N := map N.of_nat (seq 0 (N.to_nat w)).
Variables (tval fval : nat -> N -> N). (* return value, lane: what the code of the branches computes *)
Record bstate := { s_at : label; s_prev : label; s_ran : list bool; (* branches that ran *)
                   s_t : nat -> N -> option N; s_f : nat -> N -> option N }. (* results of the phi instructions; None: undef *)
Definition goto (s : bstate) (l : label) : bstate := {| s_at := l; s_prev := s_at s; s_ran := s_ran s; s_t := s_t s; s_f := s_f s |}.
(** An output per lane: select *)
Definition selected (s : bstate) (i : nat) (k : N) : option N := if ct k then s_t s i k else s_f s i k.
Definition step (s : bstate) : bstate + (list bool * (nat -> N -> option N)) :=
  match s_at s with
  | LBefore => inl (goto s LStart)
  | LStart => inl (goto s (if existsb ct lanes then LT else LNext)) (* vector.reduce.or *)
  | LT => inl (goto {| s_at := LT; s_prev := s_prev s; s_ran := s_ran s ++ [true]; s_t := s_t s; s_f := s_f s |} LTTrailer)
  | LTTrailer => inl (goto s LNext)
  | LNext =>
      let phi i k := if label_eqb (s_prev s) LTTrailer then Some (tval i k) else None in
      inl (goto {| s_at := LNext; s_prev := s_prev s; s_ran := s_ran s; s_t := phi; s_f := s_f s |} (if existsb cf lanes then LF else LEnd))
  | LF => inl (goto {| s_at := LF; s_prev := s_prev s; s_ran := s_ran s ++ [false]; s_t := s_t s; s_f := s_f s |} LFTrailer)
  | LFTrailer => inl (goto s LEnd)
  | LEnd =>
      let phi i k := if label_eqb (s_prev s) LFTrailer then Some (fval i k) else None in
      let s := {| s_at := LEnd; s_prev := s_prev s; s_ran := s_ran s; s_t := s_t s; s_f := phi |} in
      inr (s_ran s, selected s)
  end.
Fixpoint run (fuel : nat) (s : bstate) : option (list bool * (nat -> N -> option N)) :=
  match fuel with
  | O => None
  | S fuel => match step s with inl s => run fuel s | inr r => Some r end
  end.
Definition llvm (fuel : nat) : option (list bool * (nat -> N -> option N)) :=
  run fuel {| s_at := LBefore; s_prev := LBefore; s_ran := []; s_t := fun _ _ => None; s_f := fun _ _ => None |}.
(** Lanes in which a side effect of a branch takes place.  Its mask is the condition of the
    branch (the client puts it onto the mask stack). *)
Definition effect_lanes (ran : list bool) (branch : bool) : list N :=
  if existsb (Bool.eqb branch) ran then filter (if branch then ct else cf) lanes else [].

(** ** CUDA, Metal: a thread per lane.  Registers: a variable of a branch, an output *)
Inductive creg := CT (i : nat) | CF (i : nat) | COut (i : nat).
Definition creg_eqb (a b : creg) : bool :=
  match a, b with CT i, CT j | CF i, CF j | COut i, COut j => Nat.eqb i j | _, _ => false end.
Definition mov (d s : creg) (r : creg -> option N) : creg -> option N := fun x => if creg_eqb x d then r s else r x.
(** [act]: outputs that still exist (jitc_cond_output_active), out of [n] *)
Definition moves (branch : bool) (act : nat -> bool) (n : nat) (r : creg -> option N) : creg -> option N :=
  fold_left (fun r i => if act i then mov (COut i) (if branch then CT i else CF i) r else r) (seq 0 n) r.
Definition thread (act : nat -> bool) (n : nat) (k : N) : bool * (creg -> option N) :=
  if ct k then (true, moves true act n (fun x => match x with CT i => Some (tval i k) | _ => None end))
  else (false, moves false act n (fun x => match x with CF i => Some (fval i k) | _ => None end)).
End Run.

(** ** Values of the returned variables in a kernel.  [None]: undefined *)
Section Values.
Variable st : list cvar.
Variable outs : list ret.
Definition val (h : nat) (k : N) : N := match cget st h with Some v => c_val v k | None => 0 end.
Definition tval_of (i : nat) (k : N) : N := match nth_error outs i with Some (ROut _ _ t _) => val t k | _ => 0 end.
Definition fval_of (i : nat) (k : N) : N := match nth_error outs i with Some (ROut _ _ _ f) => val f k | _ => 0 end.
Definition value_llvm (w : N) (ct cf : N -> bool) (i : nat) (k : N) : option N :=
  match nth_error outs i with
  | Some (RSame h) => match cget st h with Some v => Some (c_val v k) | None => None end
  | Some (ROut _ _ _ _) => let? r := llvm w ct cf tval_of fval_of 8 in snd r i k
  | None => None
  end.
Definition value_thread (ct : N -> bool) (act : nat -> bool) (i : nat) (k : N) : option N :=
  match nth_error outs i with
  | Some (RSame h) => match cget st h with Some v => Some (c_val v k) | None => None end
  | Some (ROut _ _ _ _) => snd (thread ct tval_of fval_of act (length outs) k) (COut i)
  | None => None
  end.
Definition ret_size (r : ret) : N := match r with RSame h => match cget st h with Some v => c_size v | None => 0 end | ROut _ n _ _ => n end.
Definition ret_type (r : ret) : N := match r with RSame h => match cget st h with Some v => c_ty v | None => 0 end | ROut t _ _ _ => t end.
End Values.
