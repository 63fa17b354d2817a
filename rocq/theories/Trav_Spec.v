(** What an evaluation needs, and in which order.  A point is a variable at a nesting depth
    (0: the kernel itself, more: the body of a call). *)
From Verif Require Import Base Sched_Model Trav_Model.
Local Open Scope nat_scope.

Section G.
Variable g : list node.
Definition has (i : nat) (v : node) : Prop := nth_error g i = Some v.
Definition point := (nat * nat)%type.

Definition live (v : node) : Prop := n_kind v <> Scatter true.

(** [operand p q]: [p] is computed from [q]. *)
Inductive operand : point -> point -> Prop :=
| op_dep i d v j : has i v -> live v -> n_kind v <> CallInput -> In j (n_dep v) -> operand (i, d) (j, d)
| op_array i d v b : has i v -> n_kind v = ArrayWrite b -> operand (i, d) (b, d)
| op_phi i d v o n : has i v -> n_kind v = LoopPhi (Some (o, n)) -> operand (i, d) (o, d)
| op_out i d v io oi ii j : has i v -> n_kind v = LoopOutput (Some (io, oi, ii)) -> In j [io; oi; ii] -> operand (i, d) (j, d)
| op_input i d v j r : has i v -> n_kind v = CallInput -> n_dep v = j :: r -> operand (i, S d) (j, d)
| op_call_in i d v a b c j : has i v -> n_kind v = Call false a b c -> In j a -> operand (i, d) (j, d)
| op_call_body i d v a b c j : has i v -> n_kind v = Call false a b c -> In j b -> operand (i, d) (j, S d)
| op_call_effect i d v o a b c j : has i v -> n_kind v = Call o a b c -> In j c -> operand (i, d) (j, S d)
| op_call_out i d v l j : has i v -> n_kind v = CallOutput l -> In j l -> operand (i, d) (j, S d)
| op_list i d v l j : has i v -> n_kind v = Listed l -> In j l -> operand (i, d) (j, d).
(** the value a loop variable takes in the next iteration *)
Inductive feedback : point -> point -> Prop :=
| fb_phi i d v o n : has i v -> n_kind v = LoopPhi (Some (o, n)) -> feedback (i, d) (n, d).

(** Needed by the variables [roots]. *)
Inductive needed (roots : list nat) : point -> Prop :=
| need_root i : In i roots -> needed roots (i, 0)
| need_op p q : needed roots p -> operand p q -> needed roots q
| need_fb p q : needed roots p -> feedback p q -> needed roots q.

(** Operands are nodes; wrapped inputs of calls wrap something. *)
Definition closed : Prop :=
  (forall p q, operand p q \/ feedback p q -> fst q < length g) /\
  (forall i v, has i v -> n_kind v = CallInput -> n_dep v <> []).
(** Without going around a loop, nothing depends on itself. *)
Definition acyclic : Prop := exists rank : nat -> nat, forall p q, operand p q -> rank (fst q) < rank (fst p).
(** Only variables without operands occur at several depths. *)
Definition leaf (i : nat) : Prop := forall d q, ~ operand (i, d) q /\ ~ feedback (i, d) q.
Definition levelled (roots : list nat) : Prop :=
  forall i d e, needed roots (i, d) -> needed roots (i, e) -> d <> e -> leaf i.

(** Cannot be compiled: the data was consumed, or the loop variable was optimized away. *)
Definition stuck (i : nat) : Prop := exists v, has i v /\ live v /\ n_kind v <> CallInput /\
  (n_consumed v = true \/ n_kind v = LoopPhi None \/ n_kind v = LoopOutput None).

(** [i] stands before [j] *)
Definition before (l : list nat) (i j : nat) : Prop := exists a b c, l = a ++ i :: b ++ j :: c.
End G.

(** Variables scheduled for kernels of a size. *)
Definition of_size (size : N) (l : list sv) : list sv := filter (fun x => (sv_size x =? size)%N) l.
Definition vars (l : list sv) : list nat := map (fun x => N.to_nat (sv_index x)) l.
Definition roots_of (size : N) (l : list task) : list nat :=
  map t_index (filter (fun t => (t_size t =? size)%N) l).
(** The schedule [l] of the kernel computing [roots]: each variable once; exactly the needed
    ones; operands first. *)
Definition exact_schedule (g : list node) (roots : list nat) (l : list sv) : Prop :=
  NoDup (vars l) /\
  (forall i, In i (vars l) <-> needed g roots (i, 0) /\ forall v, has g i v -> live v).
Definition operands_first (g : list node) (l : list sv) : Prop :=
  forall i k, In i (vars l) -> operand g (i, 0) (k, 0) -> (forall v, has g k v -> live v) -> before (vars l) k i.
(** Operands within the scope of their user come first. *)
Definition scoped_operands_first (g : list node) (l : list sv) : Prop :=
  forall i k v w, In i (vars l) -> has g i v -> has g k w -> live w -> operand g (i, 0) (k, 0) -> (n_scope w <= n_scope v)%N ->
  before (vars l) k i.
Definition dependencies_first (g : list node) (l : list sv) : Prop :=
  forall i k v w, In i (vars l) -> has g i v -> n_kind v <> CallInput -> In k (n_dep v) -> has g k w -> live w ->
  before (vars l) k i.
(** Stamps of earlier generations. *)
Definition stale (gen : N) (f : nat -> N) : Prop := forall i, (f i < 2 * (gen + 1))%N.
