(** What a call computes: in each lane, the outputs of the callee that the lane selects. *)
From Verif Require Import Base Lay_Model Lay_Spec Vcl_Model.
Local Open Scope N_scope.

Section Val.
Variable opsem : N -> list N -> N.
Variable cs : list vcall.
Variable scalar : N -> N.              (* value of captured variables *)
Fixpoint find_id (s : N) (ids : list N) : option nat :=
  match ids with [] => None | x :: r => if x =? s then Some O else option_map S (find_id s r) end.
(** One lane.  [arg], [self]: of the enclosing callee; [var]: variables *)
Record ctx := { a_in : nat -> option N; a_self : N; a_var : N -> N }.
Fixpoint val (callee : nat -> nat -> N -> list N -> option N) (c : ctx) (e : expr) : option N :=
  match e with
  | EIn k => a_in c k
  | EVar v => Some (a_var c v)
  | ESelf => Some (a_self c)
  | ELit x => Some x
  | EOp o es => let? vs := all (map (val callee c) es) in Some (opsem o vs)
  | EMasked x self mask =>
      let? s := val callee c self in let? m := val callee c mask in
      Some (if negb (m =? 0) && negb (s =? 0) then x else 0)
  | ECall j o self mask args =>
      let? s := val callee c self in
      let? m := val callee c mask in
      let? vs := all (map (fun a => val callee c (snd a)) args) in
      if negb (m =? 0) && negb (s =? 0) then callee j o s vs else Some 0
  end.
(** None: no such instance, or nesting deeper than [fuel] *)
Fixpoint callee (fuel : nat) (j o : nat) (s : N) (args : list N) : option N :=
  match fuel with
  | O => None
  | S fuel =>
      let? c := nth_error cs j in
      let? i := find_id s (k_ids c) in
      let? os := nth_error (k_outs c) i in
      let? e := nth_error os o in
      val (callee fuel) {| a_in := nth_error args; a_self := s; a_var := scalar |} e
  end.
End Val.

(** ** Programs *)
(** Calls in [e] have a number of at least [base] and the right number of arguments and
    outputs; no argument is a variable that the callees also use *)
Fixpoint wf (cs : list vcall) (base nin : nat) (e : expr) : Prop :=
  match e with
  | EIn k => (k < nin)%nat
  | EVar _ | ESelf | ELit _ => True
  | EOp _ es => fold_right (fun e P => wf cs base nin e /\ P) True es
  | EMasked _ self mask => wf cs base nin self /\ wf cs base nin mask
  | ECall j o self mask args =>
      (base <= j)%nat /\ wf cs base nin self /\ wf cs base nin mask /\
      fold_right (fun a P => wf cs base nin (snd a) /\ P) True args /\
      exists c, nth_error cs j = Some c /\ length args = k_nin c /\ Forall (fun os => (o < length os)%nat) (k_outs c) /\
        Forall (fun a => forall i, In i (k_vars c) -> ~ In (fst a) (fst i) /\ ~ In (fst a) (snd i)) args
  end.
Definition calls_wf (cs : list vcall) : Prop :=
  forall j c, nth_error cs j = Some c ->
    length (k_outs c) = length (k_ids c) /\ k_ids c <> [] /\ NoDup (k_ids c) /\
    Forall (fun i => 0 < i < 2 ^ 32 - 1) (k_ids c) /\ Forall (Forall (wf cs (S j) (k_nin c))) (k_outs c).
(** Outputs that the code of the kernel or of returned outputs refers to are alive; without OptimizeCalls this does not matter *)
Fixpoint refers (t : text) : list (nat * nat) :=
  match t with
  | TIn _ | TVar _ | TSlot _ _ | TSelf | TLit _ => []
  | TOp _ ts => flat_map refers ts
  | TMasked _ s m => refers s ++ refers m
  | TCall j o s m ts => (j, o) :: refers s ++ refers m ++ flat_map (fun t => match t with Some t => refers t | None => [] end) ts
  end.
Definition live_ok (cs : list vcall) (is : list info) (t : text) : Prop :=
  forall t', (t' = t \/ exists i f, In i is /\ In f (i_fns i) /\ In (Some t') f) ->
  forall j o c, In (j, o) (refers t') -> nth_error cs j = Some c -> k_opt c = true -> k_live c o = true.
(** Sizes: the shared buffer stays below 4 GiB (C29) *)
Definition caps_of (bk : N -> N) (c : vcall) : list (list slot) :=
  map (fun os => map (fun v => (v, bk v)) (once [] (flat_map evars os))) (k_outs c).
Definition sizes_ok llvm alignment cap (bk : N -> N) (data : N -> list N) (cs : list vcall) (is : list info) : Prop :=
  backend_ok llvm alignment cap /\ (forall v, bk v < 8 /\ N.of_nat (length (data v)) = bsize (bk v)) /\
  Forall (fun c => cost (caps_of bk c) + 128 < 2 ^ 32) cs /\
  N.of_nat (length (flat_map i_fns is)) < 2 ^ 32 - 1 /\
  fold_right (fun i n => c_offset_count (i_lay i) * 8 + c_data_size (i_lay i) + n) 0 is + 128 < 2 ^ 32.
(** The hash separates the callables of the kernel *)
Definition hash_ok (hash : fn -> N) (is : list info) : Prop :=
  forall f g, In f (flat_map i_fns is) -> In g (flat_map i_fns is) -> hash f = hash g -> f = g.
