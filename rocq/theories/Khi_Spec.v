(** What a client of the kernel history relies on *)
From Verif Require Import Base Khi_Model.

(** A launch; and what the client has: launches since the last query, results of queries *)
Record kern := { x_be : backend; x_jit : bool; x_thr : nat; x_tag : nat }.
Record client := { c_new : list kern; c_res : list (nat * list kern) }.
Definition start : client := {| c_new := []; c_res := [] |}.

(** Kernels of CUDA are queried by the thread that launched them *)
Definition legal (c : client) (o : op) : Prop :=
  match o with
  | Launch _ _ _ _ | Finish _ | Clear => True
  | History th => forall x, In x (c_new c) -> x_be x = CUDA -> x_thr x = th
  | Free b => In b (map fst (c_res c))
  end.

Inductive effect (c : client) : op -> res -> client -> Prop :=
  | ef_launch be jit th tag : effect c (Launch be jit th tag) RNone
      {| c_new := c_new c ++ [{| x_be := be; x_jit := jit; x_thr := th; x_tag := tag |}]; c_res := c_res c |}
  | ef_finish k : effect c (Finish k) RNone c
  | ef_none th : c_new c = [] -> effect c (History th) (RPtr None) c
  | ef_some th b : c_new c <> [] -> ~ In b (map fst (c_res c)) ->
      effect c (History th) (RPtr (Some b)) {| c_new := []; c_res := (b, c_new c) :: c_res c |}
  | ef_clear : effect c Clear RNone {| c_new := []; c_res := c_res c |}
  | ef_free b l1 l l2 : c_res c = l1 ++ (b, l) :: l2 ->
      effect c (Free b) RNone {| c_new := c_new c; c_res := l1 ++ l2 |}.

(** An entry of a result: what was launched, with text (that nobody freed) and time *)
Definition reports (s : state) (x : cell) (k : kern) : Prop :=
  exists e, x = Ent e /\ e_be e = x_be k /\ e_tag e = x_tag k /\ e_timed e = true /\
    match e_ir e with Some b => x_jit k = true /\ live s b = true | None => x_jit k = false end.
(** Results: all entries in order, and the end marker.  At the end nothing is left. *)
Definition shows (s : state) (c : client) : Prop :=
  (forall b l, In (b, l) (c_res c) -> live s b = true /\
     exists es rest, arr s b = es ++ Zero :: rest /\ Forall2 (reports s) es l) /\
  (c_new c = [] -> (forall k, held s k = false) /\ (c_res c = [] -> forall b, live s b = false)).

Fixpoint served (s : state) (c : client) (l : list op) : Prop :=
  shows s c /\
  match l with
  | [] => True
  | o :: r => legal c o -> exists s' x c', step s o = Some (s', x) /\ effect c o x c' /\ served s' c' r
  end.
