(** Arrays as values: a scatter changes one array. *)
From Verif Require Import Base Sct_Model.

Section Spec.
Context {V : Type}.
Variable zero : V.
Variable red : rop -> V -> V -> V.
Variable to_idx : V -> nat.
Variable truth : V -> bool.
Record arr := { a_n : nat; a_at : nat -> V }.
Definition lane (a : arr) (k : nat) : V := a_at a (if Nat.eqb (a_n a) 1 then 0 else k).
(** Number of lanes of an operation *)
Definition joint (l : list arr) : option nat :=
  let n := fold_right Nat.max 0 (map a_n l) in
  if forallb (fun a => Nat.eqb (a_n a) 1 || Nat.eqb (a_n a) n) l then Some n else None.
Definition active (n : nat) (m : arr) : list nat := filter (fun k => truth (lane m k)) (seq 0 n).
Definition look (sl : list (option arr)) (x : nat) : option arr := match nth_error sl x with Some (Some a) => Some a | _ => None end.
Fixpoint looks (sl : list (option arr)) (xs : list nat) : option (list arr) :=
  match xs with [] => Some [] | x :: xs => let? a := look sl x in let? l := looks sl xs in Some (a :: l) end.
Definition assign (sl : list (option arr)) (x : nat) (o : option arr) : option (list (option arr)) :=
  if Nat.ltb x (length sl) then Some (set_nth x o sl) else None.
Fixpoint distinct (l : list nat) : bool := match l with [] => true | x :: l => negb (existsb (Nat.eqb x) l) && distinct l end.
(** The array after a scatter: the contributions of the active lanes.  Indices must be in
    range; plain scatters must not write to an element twice. *)
Definition scattered (t v i m : arr) (o : rop) : option arr :=
  let? n := joint [v; i; m] in
  let ls := active n m in
  let ix k := to_idx (lane i k) in
  if forallb (fun k => Nat.ltb (ix k) (a_n t)) ls && (negb (rop_eqb o RId) || distinct (map ix ls))
  then Some {| a_n := a_n t; a_at := fun j => fold_left (red o) (map (lane v) (filter (fun k => Nat.eqb (ix k) j) ls)) (a_at t j) |}
  else None.
Definition gathered (s i m : arr) : option arr :=
  let? n := joint [i; m] in
  if forallb (fun k => Nat.ltb (to_idx (lane i k)) (a_n s)) (active n m)
  then Some {| a_n := n; a_at := fun k => if truth (lane m k) then a_at s (to_idx (lane i k)) else zero |}
  else None.
Definition sstep (sl : list (option arr)) (p : @op V) : option (list (option arr) * list (list V)) :=
  match p with
  | OMem x n c => if Nat.eqb n 0 then None else let? sl := assign sl x (Some {| a_n := n; a_at := c |}) in Some (sl, [])
  | OLit x n c => if Nat.eqb n 0 then None else let? sl := assign sl x (Some {| a_n := n; a_at := fun _ => c |}) in Some (sl, [])
  | ONode x f args =>
      let? l := looks sl args in
      match l with
      | [] => None
      | _ => let? n := joint l in let? sl := assign sl x (Some {| a_n := n; a_at := fun k => f (map (fun a => lane a k) l) |}) in Some (sl, [])
      end
  | OGather x s i m =>
      let? s := look sl s in let? i := look sl i in let? m := look sl m in
      let? a := gathered s i m in let? sl := assign sl x (Some a) in Some (sl, [])
  | OScatter x v i m o _ _ =>
      let? t := look sl x in let? v := look sl v in let? i := look sl i in let? m := look sl m in
      let? a := scattered t v i m o in let? sl := assign sl x (Some a) in Some (sl, [])
  | OEval => Some (sl, [])
  | ORead x => let? a := look sl x in Some (sl, [map (a_at a) (seq 0 (a_n a))])
  | OCopy x y => let? a := look sl y in let? sl := assign sl x (Some a) in Some (sl, [])
  | ODrop x => let? sl := assign sl x None in Some (sl, [])
  end.
Fixpoint srun (sl : list (option arr)) (ps : list (@op V)) : option (list (list V)) :=
  match ps with
  | [] => Some []
  | p :: ps => let? r := sstep sl p in let? os := srun (fst r) ps in Some (snd r ++ os)
  end.

(** Programs that do not apply a reduction to an array with pending scatters of another kind
    (operation; threads write to copies or not): there is an evaluation in between.  Also,
    when a reduction is applied to an array with pending scatters and threads write to copies
    of it, then the operands do not have pending scatters.  [t]: kind of the last scatter to
    the array of a slot. *)
Fixpoint steady (t : nat -> option (rop * bool)) (ps : list (@op V)) : Prop :=
  match ps with
  | [] => True
  | p :: ps =>
      match p with
      | OScatter x v i m o expand _ =>
          (o = RId \/ t x = None \/ t x = Some (o, expand))
          /\ (o = RId \/ expand = false \/ t x = None \/ (t v = None /\ t i = None /\ t m = None))
          /\ steady (fun y => if Nat.eqb y x then Some (o, expand) else t y) ps
      | OEval => steady (fun _ => None) ps
      | OCopy x y => steady (fun z => if Nat.eqb z x then t y else t z) ps
      | OMem x _ _ | OLit x _ _ | ONode x _ _ | OGather x _ _ _ | ODrop x => steady (fun z => if Nat.eqb z x then None else t z) ps
      | ORead _ => steady t ps
      end
  end.
(** The value and the mask are other program variables than the target *)
Definition apart (ps : list (@op V)) : Prop :=
  Forall (fun p => match p with OScatter x v _ m _ _ _ => x <> v /\ x <> m | _ => True end) ps.
End Spec.
