(** What a conditional statement means *)
From Verif Require Import Base Cnd_Model.
Local Open Scope N_scope.

(** The result [r] of a lane: the value of the branch that it takes; nothing is said about
    lanes that take neither *)
Definition chosen (ct cf : bool) (t f : N) (r : option N) : Prop :=
  (ct = true -> r = Some t) /\ (ct = false -> cf = true -> r = Some f).
(** A literal has the same value in all lanes *)
Definition literals (st : list cvar) : Prop := forall v x, In v st -> c_lit v = Some x -> forall k, c_val v k = x.
(** Arrays that can be combined: each has the size of the largest or one element *)
Definition compatible (l : list N) : Prop := exists m, In m l /\ forall n, In n l -> n <= m /\ (n = m \/ n = 1).
(** No value has to be chosen: the same variable or the same constant *)
Definition agree (t f : nat) (vt vf : cvar) : Prop := t = f \/ exists x, c_lit vt = Some x /\ c_lit vf = Some x.
