(** What recording a virtual function call means. *)
From Verif Require Import Base Rec_Model.
Local Open Scope N_scope.

(** ** Side effects *)
(** What a traced program adds to the side effects of the surrounding code, and whether it
    raises.  A call that raises adds nothing; one without side effects neither; otherwise one
    side effect that carries those of each instance. *)
Section Den.
Variable den : stmt -> list eff * bool.
Fixpoint den_body (p : list stmt) : list eff * bool :=
  match p with
  | [] => ([], false)
  | c :: p => let '(e, x) := den c in if x then (e, true) else let '(e', x') := den_body p in (e ++ e', x')
  end.
Fixpoint den_insts (insts : list (list stmt)) : list (list eff) * bool :=
  match insts with
  | [] => ([], false)
  | p :: insts => let '(e, x) := den_body p in if x then ([], true) else let '(es, x') := den_insts insts in (e :: es, x')
  end.
End Den.
(** Two calls of the same name are being recorded already; calls without a name are not compared *)
Definition name_dec (a b : option N) : {a = b} + {a <> b}.
Proof. decide equality; apply N.eq_dec. Defined.
Definition deep (names : list (option N)) (name : option N) : bool :=
  match name with Some n => Nat.leb 2 (count_occ name_dec names (Some n)) | None => false end.
Definition nothing {A} (es : list (list A)) : bool := forallb (fun e => match e with [] => true | _ => false end) es.
Fixpoint den (names : list (option N)) (p : stmt) : list eff * bool :=
  match p with
  | SEff h => ([Eff h], false)
  | SRaise => ([], true)
  | SCall name insts early late =>
      if deep names name then ([], true)
      else
        let '(es, x) := den_insts (den (name :: names)) insts in
        if x || early || late || match insts with [] => true | _ => false end then ([], true)
        else if nothing es then ([], false) else ([ECalls es], false)
  end.
(** Individual side effects of a queue *)
Fixpoint leaves (e : eff) : list nat :=
  match e with Eff h => [h] | ECalls insts => flat_map (flat_map leaves) insts end.
(** Individual side effects that were recorded, in order, until an exception *)
Section Seen.
Variables (den1 : stmt -> list eff * bool) (seen1 : stmt -> list nat).
Fixpoint seen_body (p : list stmt) : list nat :=
  match p with [] => [] | c :: p => seen1 c ++ (if snd (den1 c) then [] else seen_body p) end.
Fixpoint seen_insts (insts : list (list stmt)) : list nat :=
  match insts with [] => [] | p :: insts => seen_body p ++ (if snd (den_body den1 p) then [] else seen_insts insts) end.
End Seen.
Fixpoint seen (names : list (option N)) (p : stmt) : list nat :=
  match p with
  | SEff h => [h]
  | SRaise => []
  | SCall name insts _ _ => if deep names name then [] else seen_insts (den (name :: names)) (seen (name :: names)) insts
  end.
Fixpoint weight (p : stmt) : N :=
  match p with
  | SEff _ | SRaise => 1
  | SCall _ insts _ _ => 1 + fold_right (fun p a => fold_right (fun c a => weight c + a) 0 p + a) 0 insts
  end.
Definition weights (p : list stmt) : N := fold_right (fun c a => weight c + a) 0 p.
(** The state with side effects added to the queue in use *)
Definition add_effects (s : rstate) (es : list eff) : rstate :=
  if r_flag s then with_queue s (r_queue s ++ es)
  else {| r_queue := r_queue s; r_done := r_done s ++ es; r_flag := r_flag s; r_names := r_names s |}.

(** ** Variables *)
Inductive Reach (st : store) : nat -> nat -> Prop :=
| ReachRefl h : Reach st h h
| ReachStep h d x v : nth_error st h = Some v -> v_input v = None -> In d (v_deps v) -> Reach st d x -> Reach st h x.
(** [h] is captured by an instance with outputs and side effects [hs] *)
Definition captured (st : store) (hs : list nat) (x : nat) : Prop :=
  exists h v, In h hs /\ Reach st h x /\ nth_error st x = Some v /\ v_input v = None /\ v_capt v = true.
Definition wf_store (st : store) : Prop := forall h v, nth_error st h = Some v ->
  (forall d, In d (v_deps v) -> (d < h)%nat) /\ (v_lit v = true -> v_deps v = [] /\ v_capt v = false) /\
  (forall d, v_input v = Some d -> (d < h)%nat /\ v_lit v = false).
(** Stamps of earlier generations; literals hold sizes *)
Definition fresh (st : store) (gen : N) : Prop := gen <= 0x7fffffff /\ forall h v, nth_error st h = Some v -> v_lit v = true \/ v_scratch v <= 2 * gen + 1.
(** [h] stands for an argument of size [n] *)
Definition argument (st : store) (h : nat) (n : N) : Prop :=
  exists v, nth_error st h = Some v /\ v_size v = 1 /\
    ((exists d w, v_input v = Some d /\ nth_error st d = Some w /\ v_size w = n) \/ (v_lit v = true /\ v_scratch v = n)).
(** The same but for stamps *)
Definition eqv (v w : var) : Prop := v_ty v = v_ty w /\ v_size v = v_size w /\ v_lit v = v_lit w /\ v_capt v = v_capt w /\
  v_input v = v_input w /\ v_deps v = v_deps w /\ v_dirty v = v_dirty w.
Definition eqs (a b : store) : Prop := Forall2 eqv a b.

(** Variables of the surrounding code that a call uses *)
Definition outer (st : store) (self mask : nat) (ins : list nat) : list nat :=
  self :: mask :: flat_map (fun h => match nth_error st h with Some v => match v_input v with Some d => [d] | None => [] end | None => [] end) ins.
Definition is_dirty (st : store) (h : nat) : Prop := exists v, nth_error st h = Some v /\ v_dirty v = true.
Definition size_of (st : store) (h : nat) : N := match nth_error st h with Some v => v_size v | None => 0 end.
Definition type_of (st : store) (h : nat) : N := match nth_error st h with Some v => v_ty v | None => 0 end.
Definition largest (l : list N) : N := fold_right N.max 0 l.
Definition fits (size n : N) : Prop := n = 1 \/ n = size.
(** When a call with arguments of sizes [ns] is accepted; [size]: that of the call *)
Record acceptable (still : nat -> bool) (st : store) (self mask : nat) (ins : list nat) (oss ses : list (list nat)) (size : N) : Prop := {
  a_insts : oss <> [];
  a_self : type_of st self = TUInt32;
  a_mask : type_of st mask = TBool;
  a_outs : forall os, In os oss -> Forall2 (fun a b => type_of st a = type_of st b /\ size_of st b = 1) (hd [] oss) os;
  a_dirty : (exists h, In h (outer st self mask ins) /\ is_dirty st h) -> forall h, In h (outer st self mask ins) -> still h = false;
  a_size : fits size (size_of st self) /\ fits size (size_of st mask);
  a_capt : forall hs x v, In hs (map (fun x => fst x ++ snd x) (combine oss ses)) -> captured st hs x -> nth_error st x = Some v -> v_size v = 1
}.
(** The mask on the stack is no larger than the call, or ignored *)
Definition stack_ok (stack : option N) (size : N) : Prop := forall n, stack = Some n -> size = 1 -> n <= 1.
