(** Strings and vectors as sequences. *)

From Verif Require Import Base Nst_Model.

Definition seqs := nat -> list Z.

Definition put_seq (i : nat) (l : list Z) (g : seqs) : seqs :=
  fun j => if (j =? i)%nat then l else g j.

(** The text up to the first zero character. *)
Fixpoint until0 (l : list Z) : list Z :=
  match l with
  | [] => []
  | z :: l => if (z =? 0)%Z then [] else z :: until0 l
  end.

Definition arg_text (g : seqs) (a : arg) : list Z :=
  match a with
  | ALit l => l
  | AFmt _ l => l
  | AStr j => g j
  | ACstr j k => until0 (skipn k (g j))
  end.

Definition s_spec (o : sop) (g : seqs) : seqs :=
  match o with
  | SPut d l => put_seq d (g d ++ concat (map (arg_text g) l)) g
  | SAssign d a => put_seq d (arg_text g a) g
  | SMove d j => put_seq j [] (put_seq d (g j) g)
  | SSwap i j => put_seq j (g i) (put_seq i (g j) g)
  | SClear d => put_seq d [] g
  | SReserve _ _ => g
  | SResize d n ch => put_seq d (firstn n (g d) ++ repeat ch (n - length (g d))) g
  | SIndent d n => put_seq d (g d ++ repeat 32%Z n) g
  | SPlus d a v => put_seq d (g a ++ arg_text g v) g
  | SPlusLeft d a v => put_seq d (arg_text g v ++ g a) g
  | SPlusMove d a v =>
      let g' := put_seq a [] g in put_seq d (g a ++ arg_text g' v) g'
  end.

(** Programs that use the classes as intended: a number fits its bound, a
    pointer points into the text, and string 0 is left to the temporaries.  A
    string is not assigned to itself, and no pointer into the text of a string
    is passed to a function that changes that string. *)
Definition arg_ok (g : seqs) (a : arg) : Prop :=
  match a with
  | ALit _ => True
  | AFmt m l => (length l <= m)%nat
  | AStr j => j <> O
  | ACstr j k => j <> O /\ (k <= length (g j))%nat
  end.

Definition no_ptr (d : nat) (a : arg) : Prop :=
  match a with ACstr j _ => j <> d | _ => True end.

Definition s_ok (g : seqs) (o : sop) : Prop :=
  match o with
  | SPut d l => d <> O /\ Forall (arg_ok g) l /\ Forall (no_ptr d) l
  | SAssign d a => d <> O /\ arg_ok g a /\ no_ptr d a /\ a <> AStr d
  | SMove d j | SSwap d j => d <> O /\ j <> O
  | SClear d | SReserve d _ | SResize d _ _ | SIndent d _ => d <> O
  | SPlus d a v | SPlusLeft d a v => d <> O /\ a <> O /\ arg_ok g v
  | SPlusMove d a v => d <> O /\ a <> O /\ arg_ok g v /\ no_ptr a v
  end.

Fixpoint s_ok_all (g : seqs) (l : list sop) : Prop :=
  match l with
  | [] => True
  | o :: l => s_ok g o /\ s_ok_all (s_spec o g) l
  end.

Definition s_spec_all (l : list sop) (g : seqs) : seqs :=
  fold_left (fun g o => s_spec o g) l g.

(** *** Vectors *)

Definition varg_val (g : seqs) (a : varg) : option Z :=
  match a with VConst z => Some z | VElem j i => nth_error (g j) i end.

Definition v_spec (o : vop) (g : seqs) : option seqs :=
  match o with
  | VPush d a => match varg_val g a with Some z => Some (put_seq d (g d ++ [z]) g) | None => None end
  | VPop d => match g d with [] => None | _ => Some (put_seq d (removelast (g d)) g) end
  | VClear d => Some (put_seq d [] g)
  | VReserve _ _ => Some g
  | VResize d n a =>
      match varg_val g a with
      | Some z => Some (put_seq d (firstn n (g d) ++ repeat z (n - length (g d))) g)
      | None => None
      end
  | VAssign d j => Some (put_seq d (g j) g)
  | VMove d j => Some (put_seq j [] (put_seq d (g j) g))
  | VSwap i j => Some (put_seq j (g i) (put_seq i (g j) g))
  | VSet d i a =>
      match varg_val g a with
      | Some z => if (i <? length (g d))%nat then Some (put_seq d (set_nth i z (g d)) g) else None
      | None => None
      end
  end.

Fixpoint v_spec_all (l : list vop) (g : seqs) : option seqs :=
  match l with
  | [] => Some g
  | o :: l => match v_spec o g with Some g' => v_spec_all l g' | None => None end
  end.

(** No element of a vector is appended to that vector. *)
Definition v_ok (o : vop) : Prop :=
  match o with VPush d (VElem j _) => j <> d | _ => True end.

(** *** Numbers *)

(** The number that a decimal text denotes. *)
Definition dec_val (l : list Z) : Z := fold_left (fun n c => 10 * n + (c - 48))%Z l 0%Z.

Definition is_digit (c : Z) : Prop := (48 <= c <= 57)%Z.

(** A decimal numeral without superfluous zeros. *)
Definition numeral (l : list Z) (n : Z) : Prop :=
  l <> [] /\ Forall is_digit l /\ dec_val l = n /\ (hd 0%Z l = 48%Z -> l = [48%Z]).

Definition int_range (sgn : bool) (bytes v : Z) : Prop :=
  if sgn then (- 2 ^ (8 * bytes - 1) <= v < 2 ^ (8 * bytes - 1))%Z
  else (0 <= v < 2 ^ (8 * bytes))%Z.
