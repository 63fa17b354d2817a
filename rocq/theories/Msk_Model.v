(** The mask stack: src/var.cpp:2176-2190 (jitc_var_mask_default), 2213-2281
    (jitc_var_mask_peek/push/apply/pop), 1999-2052 (jitc_var_resize);
    src/op.cpp:1460-1485 (jitc_var_and), 159-200 (sizes); src/llvm_eval.cpp:1092-1106
    (code of the default mask).

    Simplifications: masks only; reference counts appear as the information whether the
    caller of jit_var_mask_apply owns the only reference to its argument; nodes are not
    merged; nothing is dirty or consumed; one thread. *)
From Verif Require Import Base.

Inductive backend := LLVM | GPU.

(** A mask.  [KExp f g]: condition with value [f l] in lane [l] of its size, and whatever
    its code computes ([g]) in the lanes that LLVM processes behind the end of the range.
    [KMem d p]: memory, and what is behind it. *)
Inductive kind :=
  | KLit (b : bool)
  | KDef
  | KExp (f g : nat -> bool)
  | KMem (d p : nat -> bool)
  | KAnd (a b : nat)
  | KRes (a : nat).
Record var := { x_size : nat; x_kind : kind }.
Record state := { vars : list var; stack : list nat }.   (* top first *)

(** ** Value of masks in lane [l] of a kernel with [n] lanes; lanes from [n] are those
    behind the end of the range *)
Definition fn := nat -> nat -> bool.
Definition mean (vs : list fn) (v : var) : fn :=
  match x_kind v with
  | KLit b => fun _ _ => b
  | KDef => fun n l => Nat.ltb l n
  | KExp f g => fun n l => if Nat.ltb l n then f (if Nat.eqb (x_size v) 1 then 0 else l) else g l
  | KMem d p => fun n l => if Nat.eqb (x_size v) 1 then d 0 else if Nat.ltb l (x_size v) then d l else p l
  | KAnd a b => fun n l => nth a vs (fun _ _ => false) n l && nth b vs (fun _ _ => false) n l
  | KRes a => nth a vs (fun _ _ => false)
  end.
Fixpoint means (vs : list fn) (l : list var) : list fn :=
  match l with
  | [] => vs
  | v :: r => means (vs ++ [mean vs v]) r
  end.
Definition val (s : state) (i n l : nat) : bool := nth i (means [] (vars s)) (fun _ _ => false) n l.

Definition get (s : state) (i : nat) : option var := nth_error (vars s) i.
Definition new (s : state) (n : nat) (k : kind) : state * nat :=
  ({| vars := vars s ++ [{| x_size := n; x_kind := k |}]; stack := stack s |}, length (vars s)).
Definition change (s : state) (i : nat) (v : var) : state :=
  {| vars := set_nth i v (vars s); stack := stack s |}.
Definition set_stack (s : state) (l : list nat) : state := {| vars := vars s; stack := l |}.

Section Backend.
Variables (be : backend) (cp : bool).    (* JitFlag::ConstantPropagation *)

Definition mask_default (s : state) (n : nat) : state * nat :=
  match be with GPU => new s n (KLit true) | LLVM => new s n KDef end.

Definition is_mem (v : var) : bool := match x_kind v with KMem _ _ => true | _ => false end.
Definition is_lit (v : var) : bool := match x_kind v with KLit _ => true | _ => false end.
(** [sole]: nobody else owns a reference; [None]: an exception is raised *)
Definition resize (s : state) (i : nat) (v : var) (n : nat) (sole : bool) : option (state * nat) :=
  if Nat.eqb (x_size v) n then Some (s, i)
  else if negb (Nat.eqb (x_size v) 1) && negb (is_lit v) then None
  else if negb (is_mem v) && sole then Some (change s i {| x_size := n; x_kind := x_kind v |}, i)
  else Some (new s n (match x_kind v with KLit b => KLit b | _ => KRes i end)).

Definition lit_is (b : bool) (v : var) : bool := match x_kind v with KLit c => Bool.eqb b c | _ => false end.
(** [sole]: that of the second operand *)
Definition var_and (s : state) (i j : nat) (sole : bool) : option (state * nat) :=
  match get s i, get s j with
  | Some v, Some w =>
      let n := Nat.max (x_size v) (x_size w) in
      if negb ((Nat.eqb (x_size v) n || Nat.eqb (x_size v) 1) && (Nat.eqb (x_size w) n || Nat.eqb (x_size w) 1)) then None
      else if cp && is_lit v && is_lit w then Some (new s n (KLit (lit_is true v && lit_is true w)))
      else if cp && (lit_is false v || lit_is false w) then Some (new s n (KLit false))
      else if cp && (lit_is true w || Nat.eqb i j) then resize s i v n false
      else if cp && lit_is true v then resize s j w n sole
      else Some (new s n (KAnd i j))
  | _, _ => None
  end.

Definition mask_apply (s : state) (i : nat) (size : nat) (sole : bool) : option (state * nat) :=
  match get s i with
  | None => None
  | Some v =>
      (* Use mask from the mask stack if its size is compatible *)
      let mask := match stack s with
                  | [] => None
                  | j :: _ => match get s j with
                              | Some w => if Nat.eqb size 1 || Nat.eqb (x_size w) 1 || Nat.eqb (x_size w) size
                                          then Some (j, w) else None
                              | None => None
                              end
                  end in
      let r := match be, mask with
               | LLVM, None => let '(s, d) := mask_default s size in Some (s, Some d)
               | LLVM, Some (j, w) =>
                   let '(s, d) := mask_default s size in
                   if is_mem w && Nat.eqb size 1 then
                     match var_and s j d false with Some (s, m) => Some (s, Some m) | None => None end
                   else Some (s, Some j)
               | GPU, Some (j, _) => Some (s, Some j)
               | GPU, None => Some (s, None)
               end in
      match r with
      | None => None
      | Some (s, Some m) => var_and s m i sole
      | Some (s, None) => resize s i v size false
      end
  end.

(** Evaluation: a kernel with as many lanes as the mask has entries writes it, with the
    lanes behind the end *)
Definition eval (s : state) (i : nat) (v : var) : state :=
  match x_kind v with
  | KLit _ | KMem _ _ => s
  | _ => change s i {| x_size := x_size v;
                       x_kind := KMem (fun l => val s i (x_size v) l) (fun l => val s i (x_size v) l) |}
  end.

Inductive op :=
  | Lit (b : bool) (n : nat)
  | Default (n : nat)
  | Cond (n : nat) (f g : nat -> bool)
  | Eval (i : nat)
  | Push (i : nat)
  | Pop
  | Peek
  | Apply (i : nat) (n : nat) (sole : bool).
Inductive res := RVar (i : nat) | RZero | RNone | RErr.

Definition step (s : state) (o : op) : option (state * res) :=
  match o with
  | Lit b n => let '(s, i) := new s n (KLit b) in Some (s, RVar i)
  | Default n => let '(s, i) := mask_default s n in Some (s, RVar i)
  | Cond n f g => let '(s, i) := new s n (KExp f g) in Some (s, RVar i)
  | Eval i => match get s i with Some v => Some (eval s i v, RNone) | None => None end
  | Push i => match get s i with Some _ => Some (set_stack s (i :: stack s), RNone) | None => None end
  | Pop => match stack s with [] => Some (s, RErr) | _ :: l => Some (set_stack s l, RNone) end
  | Peek => match stack s with [] => Some (s, RZero) | i :: _ => Some (s, RVar i) end
  | Apply i n sole =>
      match get s i with
      | None => None
      | Some _ => match mask_apply s i n sole with Some (s, j) => Some (s, RVar j) | None => Some (s, RErr) end
      end
  end.
Fixpoint run (s : state) (l : list op) : option (state * list res) :=
  match l with
  | [] => Some (s, [])
  | o :: r =>
      match step s o with
      | None => None
      | Some (s, x) => match run s r with Some (s, t) => Some (s, x :: t) | None => None end
      end
  end.
End Backend.
Definition initial : state := {| vars := []; stack := [] |}.
