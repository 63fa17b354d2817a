(** What queries and rearrangements of arrays should give: an array is its list of values,
    however it is stored. *)
From Verif Require Import Base Agg_Model.
Local Open Scope N_scope.

(** [g_def]: the values are specified; [g_pad]: the array neither shares its memory with a
    larger one nor lies in memory of the caller *)
Record svar := { g_ty : ty; g_size : N; g_val : N -> Z; g_def : bool; g_pad : bool }.

Definition values (g : svar) : list Z := map (g_val g) (upto (g_size g)).
Definition some_set (g : svar) : bool := existsb (fun x => negb (x =? 0)%Z) (values g).
Definition all_set (g : svar) : bool := forallb (fun x => negb (x =? 0)%Z) (values g).
(** Positions of the entries that are set *)
Definition active (g : svar) : list N := filter (fun l => negb (g_val g l =? 0)%Z) (upto (g_size g)).

Section Spec.
Variable ar : arith.

Definition total (o : rop) (t : ty) (l : list Z) : Z := fold_right (red ar o t) (idn ar o t) l.
(** Entries of block [j] *)
Definition part (g : svar) (bs j : N) : list Z :=
  map (g_val g) (filter (fun l => (j * bs <=? l) && (l <? j * bs + bs)) (upto (g_size g))).
Definition at_ (g : svar) (l : N) : Z := g_val g (if g_size g =? 1 then 0 else l).
Definition products (g h : svar) (n : N) : list Z := map (fun l => red ar Mul (g_ty g) (at_ g l) (at_ h l)) (upto n).

Definition scalar (t : ty) (x : Z) : svar := {| g_ty := t; g_size := 1; g_val := fun _ => x; g_def := true; g_pad := true |}.
Definition arr (t : ty) (n : N) (f : N -> Z) (d p : bool) : svar := {| g_ty := t; g_size := n; g_val := f; g_def := d; g_pad := p |}.
Definition b2z (b : bool) : Z := if b then 1%Z else 0%Z.

(** Arrays and result after a call *)
Definition add (G : list svar) (g : svar) : list svar * res := (G ++ [g], RVar (length G)).
Definition query (o : rop) (g : svar) : bool := match o with Or => some_set g | _ => all_set g end.
Definition store (g : svar) (n : N) (f : N -> N) (x : N -> Z) : svar :=
  arr (g_ty g) (g_size g)
    (fold_left (fun d l => fun k => if k =? f l then x l else d k) (upto n) (g_val g)) (g_def g) (g_pad g).
Definition spec1 (G : list svar) (i : nat) (c : call) (g : svar) : list svar * res :=
  match c with
  | CScatter _ n f x => (set_nth i (store g n f x) G, RVar i)
  | CShrink _ n =>
      if n =? 0 then (G, REmpty) else if n =? g_size g then (G, RVar i)
      else if g_size g <? n then (G, RErr) else add G (arr (g_ty g) n (g_val g) (g_def g) false)
  | CQuery o _ => match g_ty g with TBool => (G, RBool (query o g)) | _ => (G, RErr) end
  | CQueryAsync o _ => match g_ty g with TBool => add G (scalar TBool (b2z (query o g))) | _ => (G, RErr) end
  | CCompress _ =>
      match g_ty g with
      | TBool =>
          match active g with
          | [] => (G, REmpty)
          | l => add G (arr TInt (N.of_nat (length l)) (fun k => Z.of_N (nth (N.to_nat k) l 0)) true true)
          end
      | _ => (G, RErr)
      end
  | CReduce o _ => add G (scalar (g_ty g) (total o (g_ty g) (values g)))
  | CBlockReduce o _ bs _ =>
      if bs =? 0 then (G, RErr) else if bs =? 1 then (G, RVar i)
      else add G (arr (g_ty g) ((g_size g + bs - 1) / bs) (fun j => total o (g_ty g) (part g bs j)) true true)
  | CTile _ k =>
      let n := g_size g * k in
      if (n =? 0) || (2 ^ 32 <=? n) then (G, RErr)
      else add G (arr (g_ty g) n (fun l => g_val g (l mod g_size g)) (g_def g) true)
  | CRepeat _ k m =>
      let n := if m =? 0 then g_size g * k else N.min m (g_size g * k) in
      if (n =? 0) || (2 ^ 32 <=? n) then (G, RErr)
      else add G (arr (g_ty g) n (fun l => g_val g (l / k)) (g_def g) true)
  | CReverse _ => add G (arr (g_ty g) (g_size g) (fun l => g_val g (g_size g - 1 - l)) (g_def g) true)
  | _ => (G, REmpty)
  end.
Definition dot (G : list svar) (g h : svar) : list svar * res :=
  let n := N.max (g_size g) (g_size h) in
  if negb (ty_eqb (g_ty g) (g_ty h)) ||
     negb (((g_size g =? n) || (g_size g =? 1)) && ((g_size h =? n) || (g_size h =? 1)))
  then (G, RErr)
  else add G (scalar (g_ty g) (total Add (g_ty g) (products g h n))).
(** The operand of a call with one operand *)
Definition operand (c : call) : option nat :=
  match c with
  | CEval i | CScatter i _ _ _ | CShrink i _ | CQuery _ i | CQueryAsync _ i | CCompress i | CReduce _ i
  | CBlockReduce _ i _ _ | CTile i _ | CRepeat i _ _ | CReverse i => Some i
  | _ => None
  end.
Definition spec (G : list svar) (c : call) : list svar * res :=
  match c with
  | CLit t x n => add G (arr t n (fun _ => x) true true)
  | CUndef t n => add G (arr t n (fun _ => 0%Z) false true)
  | CMask n => add G (arr TBool n (fun _ => 1%Z) true true)
  | CExpr t f n => add G (arr t n f true true)
  | CMap t n d => add G (arr t n d true false)
  | CDot i j =>
      match nth_error G i, nth_error G j with Some g, Some h => dot G g h | _, _ => (G, RErr) end
  | _ =>
      match operand c with
      | Some i => match nth_error G i with Some g => spec1 G i c g | None => (G, RErr) end
      | None => (G, RErr)
      end
  end.

(** ** Conditions on calls *)
(** Arithmetic that does not depend on the order *)
Record laws (o : rop) (t : ty) : Prop := {
  l_assoc : forall x y z, red ar o t x (red ar o t y z) = red ar o t (red ar o t x y) z;
  l_comm : forall x y, red ar o t x y = red ar o t y x;
  l_idn : forall x, red ar o t (idn ar o t) x = x;
  l_rep : forall n x, 0 < n -> rep ar o t n x = total o t (repeat x (N.to_nat n)) }.
Definition exact_fma : Prop :=
  forall x y z, fma ar x y z = red ar Add TFlt (red ar Mul TFlt x y) z /\ idn ar Add TFlt = 0%Z.
Definition bits (g : svar) : Prop := forall l, l < g_size g -> g_val g l = 0%Z \/ g_val g l = 1%Z.
Definition made (n : N) : Prop := 0 < n < 2 ^ 32.

(** [st] is only used to ask for the state of a variable (jit_var_state) *)
Definition state_is (s : st) (i : nat) (p : var -> bool) : Prop := exists v, nth_error (s_vars s) i = Some v /\ p v = true.
Definition constant (v : var) : bool := match v_kind v with KLit _ | KUndef => true | _ => false end.
Definition legal1 (ideal : N) (s : st) (i : nat) (c : call) (g : svar) : Prop :=
  match c with
  | CScatter _ n f _ => forall l, l < n -> f l < g_size g
  | CShrink _ _ => g_def g = true /\ state_is s i (fun v => negb (v_dirty v))
  | CQuery o _ | CQueryAsync o _ =>
      (o = And \/ o = Or) /\
      (g_ty g = TBool -> g_def g = true /\ bits g /\ g_size g + 3 < 2 ^ 32 /\ (g_pad g = true \/ g_size g mod 4 = 0))
  | CCompress _ => g_def g = true /\ g_size g + ideal - 1 < 2 ^ 32
  | CReduce o _ => g_def g = true /\ laws o (g_ty g)
  | CBlockReduce o _ bs m =>
      g_def g = true /\
      (1 < bs -> bs <= g_size g /\ g_size g + bs - 1 < 2 ^ 32 /\ laws o (g_ty g) /\ (m = Symbolic -> can ar o (g_ty g) = true))
  | CTile _ k => k < 2 ^ 32
  | CRepeat _ k m => k < 2 ^ 32
  | _ => True
  end.
Definition legal (ideal : N) (s : st) (G : list svar) (c : call) : Prop :=
  match c with
  | CLit _ _ n | CUndef _ n | CMask n | CExpr _ _ n | CMap _ n _ => made n
  | CDot i j =>
      exists g h, nth_error G i = Some g /\ nth_error G j = Some h /\ g_def g = true /\ g_def h = true /\
        (g_ty g = g_ty h -> laws Add (g_ty g)) /\
        (g_ty g = TFlt -> exact_fma) /\
        g_size g + ideal - 1 < 2 ^ 32 /\
        (* a floating-point array in memory and a constant of the same size *)
        ~ (g_ty g = TFlt /\ g_size g = g_size h /\
           (state_is s i is_evaluated /\ state_is s j constant \/ state_is s i constant /\ state_is s j is_evaluated))
  | _ => exists i g, operand c = Some i /\ nth_error G i = Some g /\ legal1 ideal s i c g
  end.

(** A variable holds an array *)
Definition holds (s : st) (v : var) (g : svar) : Prop :=
  v_ty v = g_ty g /\ v_size v = g_size g /\
  (g_def g = true -> forall l, l < g_size g -> content ar s v l = g_val g l).

(** ** Sequences of calls *)
Fixpoint specs (G : list svar) (l : list call) : list svar * list res :=
  match l with
  | [] => (G, [])
  | c :: r => let '(G, x) := spec G c in let '(G, t) := specs G r in (G, x :: t)
  end.
(** Every call is legal when its turn comes *)
Fixpoint legals (workers ideal : N) (s : st) (G : list svar) (l : list call) : Prop :=
  match l with
  | [] => True
  | c :: r => legal ideal s G c /\ forall s' x, step ar workers ideal s c = Ok s' x -> legals workers ideal s' (fst (spec G c)) r
  end.
(** What the caller finds in memory after evaluating a variable *)
Definition reads (s : st) (v : var) (g : svar) : Prop :=
  match v_kind v with
  | KLit x => forall l, l < g_size g -> g_val g l = x
  | KEval b => forall l, l < g_size g -> mem s b l = g_val g l
  | _ => False
  end.
End Spec.
