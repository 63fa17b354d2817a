(** What a client of the mask stack relies on *)
From Verif Require Import Base Msk_Model.

(** A mask of the client: size; active lanes; whether it is known to be off behind the
    end of any range; whether it is in memory; whether it is a constant *)
Record mask := { m_size : nat; m_act : nat -> bool; m_off : bool; m_mem : bool; m_lit : bool }.
(** Masks that the client knows, and the stack (top first) *)
Record client := { c_mask : nat -> option mask; c_stack : list nat }.
Definition start : client := {| c_mask := fun _ => None; c_stack := [] |}.

(** Lane [l] of a mask: masks of size 1 apply to all lanes *)
Definition lane (m : mask) (l : nat) : bool := m_act m (if Nat.eqb (m_size m) 1 then 0 else l).

(** The mask on top of the stack that matters for a range of [n] lanes *)
Definition top (c : client) (n : nat) : option mask :=
  match c_stack c with
  | [] => None
  | j :: _ => match c_mask c j with
              | Some m => if Nat.eqb n 1 || Nat.eqb (m_size m) 1 || Nat.eqb (m_size m) n then Some m else None
              | None => None
              end
  end.
Definition top_size (o : option mask) : nat := match o with Some m => m_size m | None => 1 end.
(** Number of lanes of an operation on a range of [n] with mask [m] *)
Definition lanes (c : client) (n : nat) (m : mask) : nat :=
  Nat.max n (Nat.max (top_size (top c n)) (m_size m)).

(** LLVM: the mask on the stack is off behind the end (or in memory, for ranges of one
    lane); scalar masks known to be off there are not evaluated.  Sizes are one or equal.
    The argument of jit_var_mask_apply is not the only reference to a mask that must grow. *)
Definition legal (be : backend) (c : client) (o : op) : Prop :=
  match o with
  | Lit _ n | Default n | Cond n _ _ => n <> 0
  | Eval i => exists m, c_mask c i = Some m /\
      (be = LLVM -> m_size m = 1 -> m_off m = false \/ m_lit m = true)
  | Push i => c_mask c i <> None
  | Pop | Peek => True
  | Apply i n sole => n <> 0 /\ exists m, c_mask c i = Some m /\
      (m_size m = 1 \/ m_size m = lanes c n m) /\
      (forall t, top c n = Some t -> m_size t = 1 \/ m_size t = lanes c n m) /\
      (top c n = None -> n = lanes c n m) /\
      (sole = true -> m_size m = lanes c n m) /\
      (be = LLVM -> forall t, top c n = Some t -> m_off t = true \/ m_mem t = true /\ n = 1)
  end.

Definition add (c : client) (i : nat) (m : mask) : client :=
  {| c_mask := fun j => if Nat.eqb j i then Some m else c_mask c j; c_stack := c_stack c |}.

Inductive effect (be : backend) (c : client) : op -> res -> client -> Prop :=
  | ef_lit b n i : c_mask c i = None ->
      effect be c (Lit b n) (RVar i)
        (add c i {| m_size := n; m_act := fun _ => b; m_off := negb b; m_mem := false; m_lit := true |})
  | ef_default n i : c_mask c i = None ->
      effect be c (Default n) (RVar i)
        (add c i {| m_size := n; m_act := fun _ => true; m_off := match be with LLVM => true | GPU => false end;
                    m_mem := false; m_lit := match be with LLVM => false | GPU => true end |})
  | ef_cond n f g i : c_mask c i = None ->
      effect be c (Cond n f g) (RVar i)
        (add c i {| m_size := n; m_act := f; m_off := false; m_mem := false; m_lit := false |})
  | ef_eval i m : c_mask c i = Some m ->
      effect be c (Eval i) RNone
        (if m_lit m then c else
         add c i {| m_size := m_size m; m_act := m_act m; m_off := m_off m; m_mem := true; m_lit := false |})
  | ef_push i : effect be c (Push i) RNone {| c_mask := c_mask c; c_stack := i :: c_stack c |}
  | ef_pop i l : c_stack c = i :: l -> effect be c Pop RNone {| c_mask := c_mask c; c_stack := l |}
  | ef_pop_bad : c_stack c = [] -> effect be c Pop RErr c
  | ef_peek i l : c_stack c = i :: l -> effect be c Peek (RVar i) c
  | ef_peek_none : c_stack c = [] -> effect be c Peek RZero c
  (* the result is active where both the argument and the top of the stack are, and on
     LLVM off behind the end; it may be a mask that the client knows *)
  | ef_apply i n sole m j r : c_mask c i = Some m ->
      (c_mask c j = None \/ c_mask c j = Some r) ->
      (m_size r = 1 \/ m_size r = lanes c n m) ->
      (forall l, l < lanes c n m ->
         lane r l = lane m l && match top c n with Some t => lane t l | None => true end) ->
      (be = LLVM -> m_off r = true) ->
      effect be c (Apply i n sole) (RVar j) (add c j r).

(** What masks do in a kernel with [n] lanes *)
Definition shows (be : backend) (s : state) (c : client) : Prop :=
  forall i m n, c_mask c i = Some m -> m_size m = 1 \/ m_size m = n ->
    (forall l, l < n -> val s i n l = lane m l) /\
    (be = LLVM -> m_off m = true -> forall l, n <= l -> val s i n l = false).

Fixpoint served (be : backend) (cp : bool) (s : state) (c : client) (l : list op) : Prop :=
  shows be s c /\
  match l with
  | [] => True
  | o :: r => legal be c o ->
      exists s' x c', step be cp s o = Some (s', x) /\ effect be c o x c' /\ served be cp s' c' r
  end.
