(** What an evaluation may do to reference counts. *)
From Verif Require Import Base Rb_Model.
Local Open Scope Z_scope.

Definition count (i : nat) (l : list nat) : Z := Z.of_nat (count_occ Nat.eq_dec l i).
(** References owned by the queue of side effects. *)
Definition queued (s : st) : list nat := map fst (effects s).
(** Between evaluations. *)
Definition idle (s : st) : Prop :=
  bases s = [] /\ caps s = [] /\ calls s = [] /\ getters s = [] /\ NoDup (bufs s) /\ Forall (fun b => (b < next s)%nat) (bufs s).
(** Calls have at least one target (jitc_var_call raises otherwise). *)
Fixpoint callable (c : code) : Prop :=
  match c with
  | CallTo _ _ insts => insts <> [] /\
      (fix each (l : list (list nat * list code)) : Prop :=
         match l with
         | [] => True
         | f :: r => (fix all (l : list code) : Prop := match l with [] => True | c :: r => callable c /\ all r end) (snd f) /\ each r
         end) insts
  | _ => True
  end.
Definition callable_job (j : job) : Prop := Forall (fun k => Forall callable (k_code k)) (j_kernels j).
(** No reference is held on behalf of an evaluation. *)
Definition clear (s : st) : Prop :=
  effects s = [] /\ roots s = [] /\ tasks s = [] /\ sched s = [] /\ bases s = [] /\ caps s = [] /\ calls s = [] /\ getters s = [].
(** Effects that are to be computed. *)
Definition kept (s : st) : list nat := map fst (filter (fun x => negb (snd x)) (effects s)).
(** Operands released because the variable was computed. *)
Definition operands (v : vars) (i : nat) : list nat := if v_out v i || v_effect v i then v_dep v i else [].
(** Something is left to do. *)
Definition pending (j : job) (s : st) : Prop := exists x, In (x, false) (j_scheduled j) \/ In (x, false) (effects s).
(** Buffers are requested for outputs only. *)
Definition outputs_only (sort : list entry -> list entry) (j : job) (v : vars) : Prop :=
  forall n i, nth_error (concat (map k_outputs (j_kernels j))) n = Some true ->
    nth_error (map e_var (sort (map (fun i => mkEntry i None) (j_visited j)))) n = Some i -> v_out v i = true.
