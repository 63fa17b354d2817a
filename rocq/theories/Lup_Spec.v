(** What a loop means: [F] gives the condition and the next state of a lane. *)
From Verif Require Import Base Lup_Model.
Local Open Scope N_scope.

Fixpoint while (fuel : nat) (F : list N -> bool * list N) (s : list N) : option (list N) :=
  match fuel with
  | O => None
  | S fuel => if fst (F s) then while fuel F (snd (F s)) else Some s
  end.
Section Faithful.
Context {K : Type}.
Variables (sem : N -> K -> list N -> N) (outv : N -> nat -> N).
Notation ev := (fun k s v => eval sem outv k s (v_expr v)).
(** Whatever variables the body is recorded with, what it records computes [F] of their values *)
Definition faithful (n : nat) (body : recorder K) (F : N -> list N -> bool * list N) : Prop :=
  forall vs k s, length vs = n ->
    length (snd (body vs)) = n /\
    fst (F k (map (ev k s) vs)) = negb (ev k s (fst (body vs)) =? 0) /\
    snd (F k (map (ev k s) vs)) = map (ev k s) (snd (body vs)).
(** Variables from outside do not refer to the loop state *)
Definition closed (v : var K) : Prop := forall k s s', ev k s v = ev k s' v.
End Faithful.
(** A loop of size [n] whose recording is regular: whatever variables (of the given sizes)
    the body is recorded with, the variables in [keep] stay the same and the others get new
    values with [n] elements that are not constants *)
Definition regular {K} (n : N) (keep : list bool) (outer : list (var K)) (body : recorder K) : Prop :=
  1 <= n /\ length keep = length outer /\
  (forall i v, nth_error keep i = Some false -> nth_error outer i = Some v -> v_size v = 1 \/ v_size v = n) /\
  forall vs, map v_size vs = map v_size outer ->
    (v_size (fst (body vs)) = 1 \/ v_size (fst (body vs)) = n) /\ length (snd (body vs)) = length outer /\
    forall i v q, nth_error vs i = Some v -> nth_error (snd (body vs)) i = Some q ->
      match nth_error keep i with
      | Some true => q = v
      | Some false => v_expr q <> v_expr v /\ lit_of q = None /\ v_size q = n
      | None => False
      end.
