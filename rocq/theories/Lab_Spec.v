(** What a client of labels, prefixes and callbacks relies on *)
From Verif Require Import Base Lab_Model.
Local Open Scope N_scope.

(** A label: the prefixes that were active when it was given, and a name *)
Definition tag := (list str * str)%type.

(** A variable: how it is computed; whether equal ones are merged with it; label;
    callback *)
Record attr := { a_shape : N * kind * list nat; a_shared : bool; a_label : option tag; a_cb : option N }.

(** The client: references that it owns; variables that exist; active prefixes; calls of
    callbacks so far *)
Record client := {
  c_ext : list nat;
  c_att : nat -> option attr;
  c_pre : list str;
  c_log : list (nat * N) }.
Definition start : client := {| c_ext := []; c_att := fun _ => None; c_pre := []; c_log := [] |}.

Definition count (i : nat) (l : list nat) : nat := count_occ Nat.eq_dec l i.
Fixpoint drop_one (i : nat) (l : list nat) : list nat :=
  match l with [] => [] | j :: r => if Nat.eqb j i then r else j :: drop_one i r end.
Definition fset {A} (f : nat -> A) (i : nat) (x : A) : nat -> A := fun j => if Nat.eqb j i then x else f j.

(** What the client can reach through its references *)
Inductive reach (att : nat -> option attr) (ext : list nat) : nat -> Prop :=
  | re_ext i : In i ext -> reach att ext i
  | re_dep i j a : reach att ext i -> att i = Some a -> In j (snd (a_shape a)) -> reach att ext j.

(** The client is the only owner of [i] *)
Definition alone (c : client) (i : nat) : Prop :=
  count i (c_ext c) = 1%nat /\ forall j a, c_att c j = Some a -> ~ In i (snd (a_shape a)).

(** Names contain neither line breaks nor slashes *)
Definition name (t : str) : Prop := ~ In 10 t /\ ~ In 47 t.
Definition number (t : str) : Prop := t <> [] /\ Forall (fun d => 48 <= d <= 57) t.
(** The name that the arguments of jit_var_set_label stand for *)
Definition means (a : args) : option str :=
  match a with
  | NoArgs => None
  | One t => t
  | Many l => Some (concat (map (fun t => [91] ++ t ++ [93]) l))
  end.
Definition fits (a : args) : Prop := match means a with Some t => name t | None => True end.
(** The label that results: none only outside of all prefixes *)
Definition labelled (pre : list str) (t : option str) : option tag :=
  match pre, t with
  | [], None => None
  | _, None => Some (pre, [])
  | _, Some t => Some (pre, t)
  end.

(** Clients use variables that they own; components of names are numbers; no invalid
    names for variables with other owners; at most one callback at a time. *)
Definition legal (c : client) (o : op) : Prop :=
  match o with
  | New _ d ds => (forall j, In j ds -> In j (c_ext c)) /\ (d <> Node -> ds = [])
  | Inc i | Dec i | Label i | Groups i => In i (c_ext c)
  | SetLabel i a => In i (c_ext c) /\ (match a with Many l => Forall number l | _ => True end) /\
      (fits a \/ alone c i)
  | SetCallback i x => In i (c_ext c) /\
      (x <> None -> forall a, c_att c i = Some a -> a_cb a = None)
  | Push _ | Pop | Prefix => True
  end.

(** How to compute a copy of variable [i]: the same for literals and contents of memory,
    otherwise via [i] *)
Definition again (i : nat) (sh : N * kind * list nat) : N * kind * list nat :=
  match sh with
  | (k, Node, _) => (bitcast, Node, [i])
  | _ => sh
  end.

(** [effect c o r c']: call [o] with result [r] takes the client from [c] to [c'] *)
Inductive effect (c : client) : op -> res -> client -> Prop :=
  | ef_merge k d ds i a : c_att c i = Some a -> a_shape a = (k, d, ds) -> a_shared a = true ->
      effect c (New k d ds) (RVar i)
        {| c_ext := i :: c_ext c; c_att := c_att c; c_pre := c_pre c; c_log := c_log c |}
  | ef_new k d ds i : c_att c i = None ->
      (d <> Mem -> forall j a, c_att c j = Some a -> a_shape a = (k, d, ds) -> a_shared a = false) ->
      effect c (New k d ds) (RVar i)
        {| c_ext := i :: c_ext c;
           c_att := fset (c_att c) i (Some {| a_shape := (k, d, ds);
              a_shared := match d with Mem => false | _ => true end;
              a_label := labelled (c_pre c) None; a_cb := None |});
           c_pre := c_pre c; c_log := c_log c |}
  | ef_inc i :
      effect c (Inc i) RNone
        {| c_ext := i :: c_ext c; c_att := c_att c; c_pre := c_pre c; c_log := c_log c |}
  | ef_dec i c' l :
      c_ext c' = drop_one i (c_ext c) ->
      c_pre c' = c_pre c ->
      (* exactly the variables that are out of reach are gone *)
      (forall j a, c_att c' j = Some a <-> c_att c j = Some a /\ reach (c_att c) (c_ext c') j) ->
      (* their callbacks have been called once each, before those of their operands *)
      c_log c' = c_log c ++ l ->
      NoDup (map fst l) ->
      (forall j x, In (j, x) l <-> c_att c' j = None /\ exists a, c_att c j = Some a /\ a_cb a = Some x) ->
      (forall l1 j x l2, l = l1 ++ (j, x) :: l2 ->
         forall a, c_att c j = Some a -> forall k, In k (snd (a_shape a)) -> ~ In k (map fst l1)) ->
      effect c (Dec i) RNone c'
  | ef_label_here i a t : alone c i -> fits t -> c_att c i = Some a ->
      effect c (SetLabel i t) (RVar i)
        {| c_ext := i :: c_ext c;
           c_att := fset (c_att c) i (Some {| a_shape := a_shape a; a_shared := a_shared a;
              a_label := labelled (c_pre c) (means t); a_cb := a_cb a |});
           c_pre := c_pre c; c_log := c_log c |}
  | ef_label_copy i a t j : ~ alone c i -> fits t -> c_att c i = Some a -> c_att c j = None ->
      effect c (SetLabel i t) (RVar j)
        {| c_ext := j :: c_ext c;
           c_att := fset (c_att c) j (Some {| a_shape := again i (a_shape a); a_shared := false;
              a_label := labelled (c_pre c) (means t); a_cb := None |});
           c_pre := c_pre c; c_log := c_log c |}
  | ef_label_bad i t : ~ fits t -> effect c (SetLabel i t) RErr c
  | ef_label i a : c_att c i = Some a ->
      effect c (Label i) (RText (match a_label a with Some t => Some (snd t) | None => None end)) c
  | ef_groups i a : c_att c i = Some a ->
      effect c (Groups i) (RPath (match a_label a with Some t => fst t | None => [] end)) c
  | ef_callback i a x : c_att c i = Some a ->
      effect c (SetCallback i x) RNone
        {| c_ext := c_ext c;
           c_att := fset (c_att c) i (Some {| a_shape := a_shape a; a_shared := a_shared a;
              a_label := a_label a; a_cb := x |});
           c_pre := c_pre c; c_log := c_log c |}
  | ef_push t : name t ->
      effect c (Push t) RNone
        {| c_ext := c_ext c; c_att := c_att c; c_pre := c_pre c ++ [t]; c_log := c_log c |}
  | ef_push_bad t : ~ name t -> effect c (Push t) RErr c
  | ef_pop p t : c_pre c = p ++ [t] ->
      effect c Pop RNone {| c_ext := c_ext c; c_att := c_att c; c_pre := p; c_log := c_log c |}
  | ef_pop_bad : c_pre c = [] -> effect c Pop RErr c
  | ef_prefix_none : c_pre c = [] -> effect c Prefix (RText None) c
  | ef_prefix : c_pre c <> [] ->
      effect c Prefix (RText (Some (fold_right (fun p r => p ++ 47 :: r) [] (c_pre c)))) c.

(** Several components as one would write them: numbers in brackets, names after dots *)
Definition digits (t : str) : bool := match t with [] => false | _ => forallb (fun d => (48 <=? d) && (d <=? 57)) t end.
Fixpoint spelled (first : bool) (l : list str) : str :=
  match l with
  | [] => []
  | t :: r => (if digits t then [91] ++ t ++ [93] else (if first then [] else [46]) ++ t) ++ spelled false r
  end.

(** ** Values: [holds att i t] - variable [i] has value [t], whatever the operations mean *)
Inductive value := Leaf (k : N) (d : kind) | Apply (k : N) (l : list value).
Inductive holds (att : nat -> option attr) : nat -> value -> Prop :=
  | ho_leaf i a k d ds : att i = Some a -> a_shape a = (k, d, ds) -> d <> Node -> holds att i (Leaf k d)
  | ho_copy i a j t : att i = Some a -> a_shape a = (bitcast, Node, [j]) -> holds att j t -> holds att i t
  | ho_node i a k ds ts : att i = Some a -> a_shape a = (k, Node, ds) -> (k <> bitcast \/ length ds <> 1%nat) ->
      Forall2 (holds att) ds ts -> holds att i (Apply k ts).

(** All legal histories of calls have the described effects, the callbacks called are
    those of the client's log, and the client's variables have values. *)
Fixpoint served (s : state) (c : client) (l : list op) : Prop :=
  (forall i, In i (c_ext c) -> exists t, holds (c_att c) i t) /\
  match l with
  | [] => True
  | o :: r => legal c o ->
      exists s' x c', step s o = Ok s' x /\ effect c o x c' /\ log s' = c_log c' /\ served s' c' r
  end.
