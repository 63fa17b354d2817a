(** What a client of the variable store may do and may rely on. *)
From Verif Require Import Base FreeSlots_Model Var_Model.
Local Open Scope N_scope.

(** ** Observations *)
Definition live (s : st) (i : N) : Prop :=
  i <> 0 /\ exists v, vget s i = Some v /\ (0 < v_rc v \/ 0 < v_se v).
Definition operand (s : st) (i d : N) : Prop :=
  d <> 0 /\ exists v, vget s i = Some v /\ In d (v_dep v).
Inductive path (s : st) : N -> N -> Prop :=
| path_refl i : path s i i
| path_step i d k : operand s i d -> path s d k -> path s i k.

(** ** The client *)

(** The references that a client owns, as a list with repetitions. *)
Definition held := list N.
Fixpoint remove1 (i : N) (h : held) : held :=
  match h with [] => [] | x :: r => if x =? i then r else x :: remove1 i r end.

Definition gain (h : held) (r : out) : held :=
  match r with OIndex 0 => h | OIndex i => i :: h | _ => h end.
Definition after (h : held) (o : op) (r : out) : held :=
  match o with
  | OInc i => if i =? 0 then h else i :: h
  | ODec i => remove1 i h
  | _ => gain h r
  end.

Definition thread_ok (s : st) (e : env) : Prop := (e_tid e < length (tscope s))%nat.
Definition fresh (s : st) (p : N) : Prop := p <> 0 /\ p < 2 ^ 64 /\ ~ In p (map fst (heap s)).
(** Fewer than roughly 2^30 variables, handles and threads exist. *)
Definition room (s : st) (h : held) : Prop :=
  N.of_nat (length h) + 4 * N.of_nat (length (vars s)) + N.of_nat (length (tscope s)) + 16 < 2 ^ 32.

Definition req_ok (s : st) (h : held) (q : req) : Prop :=
  length (q_dep q) = 4%nat /\ (forall d, In d (q_dep q) -> d = 0 \/ In d h) /\
  q_kind q <> K_Evaluated /\ 0 < q_kind q < 2 ^ 7 /\ q_backend q < 4 /\ q_type q < 32 /\
  q_size q < 2 ^ 32 /\ q_lit q < 2 ^ 64 /\ q_alen q < 2 ^ 16.

(** A client passes only references that it owns, valid enumerators, existing
    threads and memory that the allocator handed out. *)
Definition allowed (s : st) (h : held) (o : op) : Prop :=
  room s h /\
  match o with
  | ONode e q _ => thread_ok s e /\ req_ok s h q
  | OLiteral e b t x n => thread_ok s e /\ b < 4 /\ t < 16 /\ n < 2 ^ 32
  | OMemMap e b t p n c =>
      thread_ok s e /\ b < 4 /\ t < 32 /\ 0 < n < 2 ^ 32 /\ n <= N.of_nat (length c) /\ fresh s p
  | OPointer e d w _ _ =>
      thread_ok s e /\ In d h /\
      exists v, vget s d = Some v /\ is_evaluated v = true /\ v_se v < 2 ^ 16 - 1
  | OInc i | ODec i => i = 0 \/ In i h
  | OEval i p c =>
      In i h /\ fresh s p /\
      exists v, vget s i = Some v /\ is_node v = true /\ v_size v <= N.of_nat (length c)
  | OEffect i => In i h /\ exists v, vget s i = Some v /\ is_node v = true
  | OCopy e i p => thread_ok s e /\ In i h /\ fresh s p
  | ORead i _ => In i h
  | OWrite e i _ _ p1 p2 j =>
      thread_ok s e /\ In i h /\ fresh s p1 /\ fresh s p2 /\ p1 <> p2 /\
      exists v, vget s i = Some v /\ 0 < v_size v <= N.of_nat (length j)
  | OShrink e i n p j =>
      thread_ok s e /\ In i h /\ n < 2 ^ 32 /\ fresh s p /\
      exists v, vget s i = Some v /\ is_undefined v = false /\ v_size v <= N.of_nat (length j)
  | OResize e i n => thread_ok s e /\ In i h /\ 0 < n < 2 ^ 32
  | OGetWeak i => In i h
  | OResolve i _ => i < N.of_nat (length (vars s))
  | OThread => True
  | ONewScope t => (t < length (tscope s))%nat
  | OAdvance t n => (t < length (tscope s))%nat /\ n < 2 ^ 32
  | OSetScope t c => (t < length (tscope s))%nat /\ c <= sctr s
  | OStoreDep _ _ => False
  end.

(** States that such a client can produce, with what it then owns. *)
Inductive reach : st -> held -> Prop :=
| reach_init : reach st_init []
| reach_step s h o s' r :
    reach s h -> allowed s h o -> step s o = Some (s', r) -> reach s' (after h o r).

(** Executions from one state to another, listing every intermediate state. *)
Inductive exec : st -> held -> list (op * out * st) -> st -> held -> Prop :=
| exec_nil s h : exec s h [] s h
| exec_cons s h o r s1 l s2 h2 :
    allowed s h o -> step s o = Some (s1, r) -> exec s1 (after h o r) l s2 h2 ->
    exec s h ((o, r, s1) :: l) s2 h2.

(** Number of operand positions of live variables that refer to [i]; [w]
    selects the write pointers, which count as pending side effects. *)
Definition uses (s : st) (w : bool) (i : N) : nat :=
  list_sum (map (fun v => if referenced v && Bool.eqb (v_wptr v) w
                          then count_occ N.eq_dec (v_dep v) i else O) (vars s)).

(** ** Value numbering *)

(** Two variables stand for the same computation. *)
Definition same_computation (v w : var) : Prop :=
  v_kind v = v_kind w /\ v_backend v = v_backend w /\ v_type v = v_type w /\
  v_size v = v_size w /\ v_lit v = v_lit w /\ v_dep v = v_dep w /\ v_scope v = v_scope w /\
  v_wptr v = v_wptr w /\ v_written v = v_written w.

(** The variable that a request describes, in scope [sc]. *)
Definition requested (q : req) (sc : N) : var :=
  mkVar 0 0 sc (q_dep q) (q_lit q) (q_size q) 0 (q_kind q) (q_backend q) (q_type q)
        false false false (q_array q) (q_coop q) (q_alen q).

(** Operations that change the variable [i] itself. *)
Definition touches (i : N) (o : op) : Prop :=
  match o with
  | OEval j _ _ | OEffect j | OResize _ j _ => j = i
  | _ => False
  end.

(** Along an execution, [i] is never destroyed / never changed. *)
Definition alive_in (i : N) (l : list (op * out * st)) : Prop := forall x, In x l -> live (snd x) i.
Definition untouched (i : N) (l : list (op * out * st)) : Prop := forall x, In x l -> ~ touches i (fst (fst x)).

(** ** Weak references *)

(** Operations that may create and destroy a variable that no caller ever sees. *)
Definition temporary (o : op) : Prop := match o with OWrite _ _ _ _ _ _ _ => True | _ => False end.
Definition temporary_b (o : op) : bool := match o with OWrite _ _ _ _ _ _ _ => true | _ => false end.
Definition live_b (s : st) (i : N) : bool :=
  negb (i =? 0) && match vget s i with Some v => referenced v | None => false end.
(** How often slot [i] was recycled along an execution: its variable was
    destroyed, or it may have held a temporary variable. *)
Fixpoint recycled (i : N) (s : st) (l : list (op * out * st)) : N :=
  match l with
  | [] => 0
  | (o, _, s1) :: r =>
      (if negb (live_b s1 i) && (live_b s i || temporary_b o) then 1 else 0) + recycled i s1 r
  end.

(** ** Values *)

(** The value of a variable as a term: memory contents at the leaves, all
    attributes of an operation at inner nodes. Equal terms evaluate to equal
    results whatever the operations mean. *)
Inductive val :=
| VData (type size : N) (c : list N)
| VOp (kind backend type size lit : N) (array : bool) (alen : N) (args : list val)
| VNone.
Fixpoint denote (fuel : nat) (s : st) (i : N) : val :=
  match fuel with
  | O => VNone
  | S f =>
      match vget s i with
      | None => VNone
      | Some v =>
          if i =? 0 then VNone
          else if is_evaluated v then
            match find_heap (v_lit v) (heap s) with
            | Some c => VData (v_type v) (v_size v) (firstn (N.to_nat (v_size v)) c)
            | None => VNone
            end
          else VOp (v_kind v) (v_backend v) (v_type v) (v_size v) (v_lit v) (v_array v) (v_alen v)
                   (map (denote f s) (v_dep v))
      end
  end.

(** The elements of a variable that has elements; [junk] for undefined memory. *)
Definition elements (s : st) (i : N) (junk : list N) : option (list N) :=
  match vget s i with
  | None => None
  | Some v =>
      if v_kind v =? K_Literal then Some (repeat (trunc (v_type v) (v_lit v)) (N.to_nat (v_size v)))
      else if v_kind v =? K_Undefined then Some (firstn (N.to_nat (v_size v)) junk)
      else match denote 1 s i with VData _ _ c => Some c | _ => None end
  end.

(** ** Scopes *)
Definition in_use (s : st) (x : N) : Prop :=
  In x (tscope s) \/ exists i v, i <> 0 /\ vget s i = Some v /\ referenced v = true /\ v_scope v = x.
