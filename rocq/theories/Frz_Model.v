(** Frozen functions: launch sizes.  record_ts.cpp:672-872 (record_launch), 875-990
    (replay_launch), 183-213 (size of a slot).

    A slot is a buffer; [env] gives its size in bytes.  Parameters without side conditions
    on sizes (resources, captured variables, the OptiX table) and the launch itself are
    not modelled; inputs of a recorded kernel have slots, and a variable occupies its
    slot entirely. *)
From Verif Require Import Base.
Local Open Scope N_scope.

Definition env := nat -> N.
(** A kernel parameter: slot, size of the elements (for a pointer: of the array it points
    to), output, pointer *)
Record param := { p_slot : nat; p_tsize : N; p_out : bool; p_ptr : bool }.
(** AccessInfo *)
Record access := { a_param : param; a_psize : bool (* pointer_input_size *) }.
(** Operation *)
Record op := { op_size : N; op_input : N; op_deps : list access }.

(** Number of elements of the variable behind a parameter *)
Definition vsize (e : env) (p : param) : N := e (p_slot p) / p_tsize p.
(** 672-872.  [n]: launch size *)
Definition related (n v : N) : bool := (v mod n =? 0) || (n mod v =? 0).
Definition record (e : env) (n : N) (ps : list param) : op :=
  let input_size := fold_left (fun s p => if negb (p_out p) && negb (p_ptr p) then N.max s (vsize e p) else s) ps 0 in
  let ptr_size := fold_left (fun s p => if p_ptr p && related n (vsize e p) then N.max s (vsize e p) else s) ps 0 in
  let deps := map (fun p => {| a_param := p; a_psize := (input_size =? 0) && p_ptr p && (ptr_size =? vsize e p) |}) ps in
  let i := if input_size =? 0 then ptr_size else input_size in
  let i := if (0 <? i) && ((i <? n) && negb (n mod i =? 0) || (n <? i) && negb (i mod n =? 0)) then 0 else i in
  {| op_size := n; op_input := i; op_deps := deps |}.

(** 183-213; [None]: raises *)
Definition slot_size (e : env) (p : param) : option N :=
  if p_tsize p =? 0 then None
  else let s := e (p_slot p) / p_tsize p in
       if s =? 0 then None else if negb (s * p_tsize p =? e (p_slot p)) then None else Some (u32 s).
(** 905-927: largest direct input, largest array behind pointers that count *)
Fixpoint infer (e : env) (deps : list access) (input_size ptr_size : N) : option (N * N) :=
  match deps with
  | [] => Some (input_size, ptr_size)
  | a :: deps =>
      if p_out (a_param a) then infer e deps input_size ptr_size
      else
        let? s := slot_size e (a_param a) in
        if negb (p_ptr (a_param a)) then infer e deps (N.max input_size s) ptr_size
        else if a_psize a then infer e deps input_size (N.max ptr_size s)
        else infer e deps input_size ptr_size
  end.
(** 936-961 *)
Definition launch_size (o : op) (input_size ptr_size : N) : N :=
  let l :=
    if 0 <? op_input o then
      let l := if negb (input_size =? 0) then input_size else ptr_size in
      if (op_input o <? op_size o) && (op_size o mod op_input o =? 0) then u32 (l * u32 (op_size o / op_input o))
      else if op_input o mod op_size o =? 0 then l / u32 (op_input o / op_size o)
      else l
    else 0 in
  if l =? 0 then u32 (op_size o) else l.
Definition set_env (e : env) (s : nat) (n : N) : env := fun t => if Nat.eqb t s then n else e t.
(** 966-990: outputs are allocated *)
Definition outputs (e : env) (n : N) (ps : list param) : env :=
  fold_left (fun e p => if p_out p then set_env e (p_slot p) (n * p_tsize p) else e) ps e.
Definition replay1 (e : env) (o : op) : option (env * N) :=
  let? r := infer e (op_deps o) 0 0 in
  let n := launch_size o (fst r) (snd r) in
  Some (outputs e n (map a_param (op_deps o)), n).

(** A function: kernels and their launch sizes *)
Fixpoint record_all (e : env) (ks : list (N * list param)) : list op * env :=
  match ks with
  | [] => ([], e)
  | (n, ps) :: ks => let o := record e n ps in let '(os, e') := record_all (outputs e n ps) ks in (o :: os, e')
  end.
Fixpoint replay_all (e : env) (os : list op) : option (list N * env) :=
  match os with
  | [] => Some ([], e)
  | o :: os => let? r := replay1 e o in let? rs := replay_all (fst r) os in Some (snd r :: fst rs, snd rs)
  end.
