(** Vocabulary for statements about gathers: which stores can occur, what an
    expression consists of, and when it is harmless to evaluate it at other places. *)
From Verif Require Import Base Op_Model Gat_Model.
Local Open Scope N_scope.

Section Spec.
Context {K : Type}.
Variable sem : K -> list N -> option N.
Notation gvar := (gvar K).
Notation store := (list gvar).

(** An operand exists, was created before the operation, and is scalar or as large *)
Definition dep_ok (st : store) (h : nat) (n : N) (d : nat) : Prop :=
  (0 < d < h)%nat /\ exists v, gget st d = Some v /\ (g_size v = 1 \/ g_size v = n).
Definition points (st : store) (p : nat) : Prop := exists t n s, gget st p = Some (mkG t n (GPtr s)).
Definition good (st : store) (h : nat) (v : gvar) : Prop :=
  1 <= g_size v < 2 ^ 32 /\
  Forall (dep_ok st h (g_size v)) (deps_of (g_desc v)) /\
  match g_desc v with
  | GLit x => x < 2 ^ width (g_ty v)
  | GCtr => g_size v <> 1 /\ g_ty v = U32
  | GDef => g_ty v = Bool
  | GMem d => length d = N.to_nat (g_size v)
  | GPtr s => (g_size v = 1 /\ g_ty v = U64) /\ (0 < s < h)%nat /\ exists t n d, gget st s = Some (mkG t n (GMem d))
  | GGather p _ _ | GPacket _ p _ _ | GInc p _ _ => points st p
  | GExtract _ a => exists t n c p i m, gget st a = Some (mkG t n (GPacket c p i m))
  | GSpecial f => g_size v = 1 -> forall l, f l = f 0
  | _ => True
  end.
Definition ok (st : store) : Prop := forall h v, gget st h = Some v -> good st h v.

(** [x] occurs in the expression [h] *)
Inductive within (st : store) : nat -> nat -> Prop :=
| within_self h : within st h h
| within_dep h v d x : gget st h = Some v -> In d (deps_of (g_desc v)) -> within st d x -> within st h x.

Definition packet (v : gvar) : Prop := match g_desc v with GPacket _ _ _ _ => True | _ => False end.
(** No atomic increments within [h] *)
Definition still (st : store) (h : nat) : Prop :=
  forall x v, within st h x -> gget st x = Some v -> match g_desc v with GInc _ _ _ => False | _ => True end.
(** Moreover no packet gathers, and operations that are defined for all operands *)
Definition tame (st : store) (h : nat) : Prop :=
  forall x v, within st h x -> gget st x = Some v ->
    match g_desc v with
    | GOp k _ => forall xs, sem k xs <> None
    | GPacket _ _ _ _ | GExtract _ _ | GInc _ _ _ => False
    | _ => True
    end.
End Spec.
