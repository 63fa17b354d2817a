(** What a client of scatters relies on *)
From Verif Require Import Base Cow_Model.

(** Arrays: contents; [None], or stashed: whether there was just one reference at that time *)
Record client := { c_ref : list (option nat); c_arr : list (list Z * option bool); c_hand : list (option nat) }.
Definition start : client := {| c_ref := []; c_arr := []; c_hand := [] |}.

Definition at_ref (c : client) (r : nat) : option nat := match nth_error (c_ref c) r with Some x => x | None => None end.
Definition is (a : nat) (x : option nat) : bool := match x with Some b => Nat.eqb b a | None => false end.
Definition owners (c : client) (a : nat) : nat := length (filter (is a) (c_ref c)).
Definition contents (c : client) (r : nat) : option (list Z) :=
  match at_ref c r with
  | Some a => option_map fst (nth_error (c_arr c) a)
  | None => None
  end.

(** References that exist; fewer than 2^16 of them when they are stashed *)
Definition legal (c : client) (o : op) : Prop :=
  match o with
  | New _ _ => True
  | Copy r | Drop r | Scatter r _ _ _ => at_ref c r <> None
  | Stash r => exists a, at_ref c r = Some a /\ (N.of_nat (owners c a) < 2 ^ 16)%N
  | Unstash h => h < length (c_hand c)
  end.
(** Indices of new variables are not in use *)
Definition unused (s : state) (o : op) : Prop :=
  match o with New i _ | Scatter _ i _ _ => vars s i = None | _ => True end.

(** A scatter changes the array for all its references only if there is no other one, or if there
    was just one when it was stashed; otherwise others keep the old contents *)
Inductive effect (c : client) : op -> client -> Prop :=
  | ef_new i d : effect c (New i d)
      {| c_ref := c_ref c ++ [Some (length (c_arr c))]; c_arr := c_arr c ++ [(d, None)]; c_hand := c_hand c |}
  | ef_copy r : effect c (Copy r) {| c_ref := c_ref c ++ [at_ref c r]; c_arr := c_arr c; c_hand := c_hand c |}
  | ef_drop r : effect c (Drop r) {| c_ref := set_nth r None (c_ref c); c_arr := c_arr c; c_hand := c_hand c |}
  | ef_same r j k z a d t : at_ref c r = Some a -> nth_error (c_arr c) a = Some (d, t) -> owners c a = 1 \/ t = Some true ->
      effect c (Scatter r j k z) {| c_ref := c_ref c; c_arr := set_nth a (set_nth k z d, t) (c_arr c); c_hand := c_hand c |}
  | ef_other r j k z a d t : at_ref c r = Some a -> nth_error (c_arr c) a = Some (d, t) -> owners c a <> 1 -> t <> Some true ->
      effect c (Scatter r j k z)
        {| c_ref := set_nth r (Some (length (c_arr c))) (c_ref c); c_arr := c_arr c ++ [(set_nth k z d, None)]; c_hand := c_hand c |}
  | ef_stash r a d : at_ref c r = Some a -> nth_error (c_arr c) a = Some (d, None) ->
      effect c (Stash r) {| c_ref := c_ref c; c_arr := set_nth a (d, Some (Nat.eqb (owners c a) 1)) (c_arr c);
                            c_hand := c_hand c ++ [Some a] |}
  | ef_nested r a d b : at_ref c r = Some a -> nth_error (c_arr c) a = Some (d, Some b) ->
      effect c (Stash r) {| c_ref := c_ref c; c_arr := c_arr c; c_hand := c_hand c ++ [None] |}
  | ef_unstash h a d t : nth_error (c_hand c) h = Some (Some a) -> nth_error (c_arr c) a = Some (d, t) ->
      effect c (Unstash h) {| c_ref := c_ref c; c_arr := set_nth a (d, None) (c_arr c); c_hand := c_hand c |}
  | ef_nothing h : nth_error (c_hand c) h = Some None -> effect c (Unstash h) c.

(** All references have the expected contents, and there are no other variables *)
Definition shows (s : state) (c : client) : Prop :=
  (forall r, value s r = contents c r) /\
  (forall i v, vars s i = Some v -> exists r, ref s r = Some i).

Fixpoint served (s : state) (c : client) (l : list op) : Prop :=
  shows s c /\
  match l with
  | [] => True
  | o :: r => legal c o -> unused s o -> exists s' c', step s o = Some s' /\ effect c o c' /\ served s' c' r
  end.
