(** The instance variable of recorded calls: src/var.cpp:2609-2639 (jitc_var_set_self,
    jitc_var_self), src/api.cpp:829-839 (jit_var_class), 1394-1402.

    Simplifications: one backend and thread; equal literals are not merged; the allocator of
    indices may choose any unused index; reference counts do not wrap around; variables have no
    operands.  Recording of frozen functions (copies of the thread state) is not modelled. *)
From Verif Require Import Base.

(** Contents: anything; a literal instance ID; VarKind::CallSelf *)
Inductive what := Data (z : Z) | Lit (n : N) | CallSelf.
(** [v_id], [ctr]: ghost state that tells variables apart, not used by any decision *)
Record var := { v_id : nat; v_rc : N; v_what : what }.
(** [value], [index]: call_self_value, call_self_index (src/internal.h:794-797); [refs]: references of the client *)
Record state := { vars : nat -> option var; ctr : nat; value : N; index : option nat; refs : list (option nat) }.
Definition initial : state := {| vars := fun _ => None; ctr := 0; value := 0; index := None; refs := [] |}.

Definition upd (f : nat -> option var) (i : nat) (x : option var) : nat -> option var := fun j => if Nat.eqb j i then x else f j.
Definition set_var (s : state) (i : nat) (x : option var) : state :=
  {| vars := upd (vars s) i x; ctr := ctr s; value := value s; index := index s; refs := refs s |}.
Definition set_refs (s : state) (l : list (option nat)) : state :=
  {| vars := vars s; ctr := ctr s; value := value s; index := index s; refs := l |}.
Definition set_value (s : state) (n : N) : state :=
  {| vars := vars s; ctr := ctr s; value := n; index := index s; refs := refs s |}.
Definition set_index (s : state) (x : option nat) : state :=
  {| vars := vars s; ctr := ctr s; value := value s; index := x; refs := refs s |}.
Definition with_rc (v : var) (n : N) : var := {| v_id := v_id v; v_rc := n; v_what := v_what v |}.

(** jitc_var_new (src/var.cpp:725) *)
Definition var_new (s : state) (i : nat) (w : what) : state :=
  {| vars := upd (vars s) i (Some {| v_id := ctr s; v_rc := 1; v_what := w |});
     ctr := S (ctr s); value := value s; index := index s; refs := refs s |}.
(** src/var.cpp:514-518, 553-556, 572-591; [None]: jitc_var (489-498) terminates the process *)
Definition inc_ref (s : state) (i : nat) : option state :=
  match vars s i with Some v => Some (set_var s i (Some (with_rc v (v_rc v + 1)))) | None => None end.
Definition dec_ref (s : state) (i : nat) : option state :=
  match vars s i with
  | Some v => Some (set_var s i (if N.eqb (v_rc v - 1) 0 then None else Some (with_rc v (v_rc v - 1))))
  | None => None
  end.

(** src/var.cpp:2612-2615 *)
Definition release (s : state) : option state :=
  match index s with
  | Some k => let? s := dec_ref s k in Some (set_index s None)
  | None => Some s
  end.
(** jitc_var_set_self (src/var.cpp:2609-2633); [x]: parameter [index]; [i]: index of a new variable *)
Definition set_self (s : state) (v : N) (x : option nat) (i : nat) : option state :=
  let? s := release s in
  let s := set_value s v in
  if N.eqb v 0 then Some s
  else match x with
       | Some k => let? s := inc_ref s k in Some (set_index s (Some k))
       | None => Some (set_index (var_new s i CallSelf) (Some i))
       end.
(** jitc_var_self (src/var.cpp:2635-2639) *)
Definition self (s : state) : N * option nat := (value s, index s).
(** jit_var_class (src/api.cpp:829-839); [v]: instance ID (0: null pointer) *)
Definition class (s : state) (v : N) (i : nat) : option (state * option nat) :=
  if negb (N.eqb v 0) && N.eqb (value s) v
  then match index s with
       | Some k => let? s := inc_ref s k in Some (s, Some k)
       | None => Some (s, None)
       end
  else Some (var_new s i (Lit v), Some i).

(** Clients: [SetSelf v r i]: with no variable or that of reference [r]; [Save]: jit_var_self, then
    jit_var_inc_ref (scoped_set_self in tests/vcall.cpp:50-61) *)
Inductive op :=
  | New (i : nat) (z : Z)
  | Copy (r : nat)
  | Drop (r : nat)
  | SetSelf (v : N) (r : option nat) (i : nat)
  | Save
  | Class (v : N) (i : nat).
Definition ref (s : state) (r : nat) : option nat := match nth_error (refs s) r with Some x => x | None => None end.
Definition push (s : state) (x : option nat) : state := set_refs s (refs s ++ [x]).
Definition step (s : state) (o : op) : option state :=
  match o with
  | New i z => Some (push (var_new s i (Data z)) (Some i))
  | Copy r => let? k := ref s r in let? s := inc_ref s k in Some (push s (Some k))
  | Drop r => let? k := ref s r in let? s := dec_ref s k in Some (set_refs s (set_nth r None (refs s)))
  | SetSelf v None i => set_self s v None i
  | SetSelf v (Some r) i => let? k := ref s r in set_self s v (Some k) i
  | Save => match snd (self s) with
            | Some k => let? s := inc_ref s k in Some (push s (Some k))
            | None => Some (push s None)
            end
  | Class v i => let? (s, x) := class s v i in Some (push s x)
  end.
Fixpoint run (s : state) (l : list op) : option state :=
  match l with [] => Some s | o :: r => let? s := step s o in run s r end.
