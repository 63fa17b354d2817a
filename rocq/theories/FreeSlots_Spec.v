(** Specification of the free-slot allocator: a set of free indices kept as a
    strictly increasing list; acquiring takes the smallest element. *)
From Verif Require Import Base.
Local Open Scope N_scope.

Inductive sp_op := SpRelease (i : N) | SpAcquire.

Fixpoint sp_insert (i : N) (l : list N) : list N :=
  match l with
  | [] => [i]
  | x :: r => if i <? x then i :: l else if i =? x then l else x :: sp_insert i r
  end.

(** [None] as a result: the caller released an index that is already free (or
    does not fit 32 bits); the property says nothing about such clients. *)
Fixpoint sp_run (free : list N) (ops : list sp_op) : option (list (option N)) :=
  match ops with
  | [] => Some []
  | SpRelease i :: ops' =>
      if (i <? 2 ^ 32) && negb (existsb (N.eqb i) free)
      then match sp_run (sp_insert i free) ops' with
           | Some outs => Some (None :: outs) | None => None end
      else None
  | SpAcquire :: ops' =>
      match free with
      | [] => match sp_run [] ops' with
              | Some outs => Some (None :: outs) | None => None end
      | x :: r => match sp_run r ops' with
                  | Some outs => Some (Some x :: outs) | None => None end
      end
  end.
