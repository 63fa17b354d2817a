(** What a client of jit_var_set_self, jit_var_self and jit_var_class relies on *)
From Verif Require Import Base Slf_Model.

(** Variables of the references; contents of all variables so far; the current instance *)
Record client := { c_ref : list (option nat); c_what : list what; c_self : option (N * nat) }.
Definition start : client := {| c_ref := []; c_what := []; c_self := None |}.
Definition at_ref (c : client) (r : nat) : option nat := match nth_error (c_ref c) r with Some x => x | None => None end.
Definition legal (c : client) (o : op) : Prop :=
  match o with
  | Copy r | Drop r | SetSelf _ (Some r) _ => at_ref c r <> None
  | _ => True
  end.
(** Indices of new variables are not in use (but may be that of an instance variable just released) *)
Definition unused (s : state) (o : op) : Prop :=
  match o with
  | New i _ | Class _ i => vars s i = None
  | SetSelf _ None i => forall s1, release s = Some s1 -> vars s1 i = None
  | _ => True
  end.
Definition fresh (c : client) : nat := length (c_what c).
Definition with_new (c : client) (w : what) : client :=
  {| c_ref := c_ref c ++ [Some (fresh c)]; c_what := c_what c ++ [w]; c_self := c_self c |}.
Definition with_ref (c : client) (x : option nat) : client :=
  {| c_ref := c_ref c ++ [x]; c_what := c_what c; c_self := c_self c |}.
Definition effect (c : client) (o : op) : client :=
  match o with
  | New _ z => with_new c (Data z)
  | Copy r => with_ref c (at_ref c r)
  | Drop r => {| c_ref := set_nth r None (c_ref c); c_what := c_what c; c_self := c_self c |}
  | SetSelf 0 _ _ => {| c_ref := c_ref c; c_what := c_what c; c_self := None |}
  | SetSelf v None _ => {| c_ref := c_ref c; c_what := c_what c ++ [CallSelf]; c_self := Some (v, fresh c) |}
  | SetSelf v (Some r) _ =>
      {| c_ref := c_ref c; c_what := c_what c; c_self := match at_ref c r with Some a => Some (v, a) | None => None end |}
  | Save => with_ref c (option_map snd (c_self c))
  | Class v _ => match c_self c with
                 | Some (n, a) => if N.eqb n v then with_ref c (Some a) else with_new c (Lit v)
                 | None => with_new c (Lit v)
                 end
  end.

(** A reference (or the index of the instance) [x] stands for variable [y] *)
Definition stands (s : state) (c : client) (x y : option nat) : Prop :=
  match x, y with
  | None, None => True
  | Some i, Some a => exists v, vars s i = Some v /\ nth_error (c_what c) a = Some (v_what v)
  | _, _ => False
  end.
(** Contents are as expected; indices are equal if and only if the variables are; the instance is
    the one that was set; no other variables exist *)
Definition shows (s : state) (c : client) : Prop :=
  (forall r, stands s c (ref s r) (at_ref c r)) /\
  (forall r q, ref s r <> None -> (ref s r = ref s q <-> at_ref c r = at_ref c q)) /\
  fst (self s) = match c_self c with Some (v, _) => v | None => 0%N end /\
  stands s c (snd (self s)) (option_map snd (c_self c)) /\
  (forall r, ref s r <> None -> (ref s r = snd (self s) <-> at_ref c r = option_map snd (c_self c))) /\
  (forall i v, vars s i = Some v -> snd (self s) = Some i \/ exists r, ref s r = Some i).

Fixpoint served (s : state) (c : client) (l : list op) : Prop :=
  shows s c /\
  match l with
  | [] => True
  | o :: r => legal c o -> unused s o -> exists s', step s o = Some s' /\ served s' (effect c o) r
  end.
