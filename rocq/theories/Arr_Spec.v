(** What array variables stand for: values, not buffers.  A write gives a new
    array and leaves its operand as it is. *)

From Verif Require Import Base Arr_Model.

(** An entry is [None] when the program left it uninitialized.  [VBad]: the
    program is wrong (an access outside of the array, or at a place that
    depends on an uninitialized entry). *)
Inductive value :=
| VNum (z : option Z)
| VArr (l : list (option Z))
| VBad.

Definition num (d : list value) (i : nat) : option (option Z) :=
  match nth_error d i with Some (VNum z) => Some z | _ => None end.

Fixpoint nums (d : list value) (l : list nat) : option (option (list Z)) :=
  match l with
  | [] => Some (Some [])
  | i :: l =>
      match num d i, nums d l with
      | Some (Some z), Some (Some r) => Some (Some (z :: r))
      | Some _, Some _ => Some None
      | _, _ => None
      end
  end.

Definition write_val (l : list (option Z)) (m o : option Z) (v : option Z) : value :=
  match m, o with
  | Some m, _ =>
      if Z.eqb m 0 then VArr l
      else match o with
           | Some o => if ((0 <=? o)%Z && (o <? Z.of_nat (length l))%Z)%bool
                       then VArr (set_nth (Z.to_nat o) v l) else VBad
           | None => VBad
           end
  | None, _ => VBad
  end.

Definition read_val (l : list (option Z)) (m o : option Z) : value :=
  match m with
  | Some m =>
      if Z.eqb m 0 then VNum (Some 0%Z)
      else match o with
           | Some o => if (0 <=? o)%Z
                       then match nth_error l (Z.to_nat o) with
                            | Some z => VNum z | None => VBad end
                       else VBad
           | None => VBad
           end
  | None => VBad
  end.

(** The value of one variable from those of its operands. *)
Definition node_val (d : list value) (n : node) : value :=
  match n with
  | NLit z => VNum (Some z)
  | NUndef => VNum None
  | NScal args f =>
      match nums d args with
      | Some (Some l) => VNum (Some (f l))
      | Some None => VNum None
      | None => VBad
      end
  | NArray len _ => VArr (repeat None len)
  | NEvald l => VArr (map Some l)
  | NInit len a v =>
      match nth_error d a, num d v with
      | Some (VArr _), Some z => VArr (repeat z len)
      | _, _ => VBad
      end
  | NWrite _ a _ m o v =>
      match nth_error d a, num d m, num d o, num d v with
      | Some (VArr l), Some m, Some o, Some v => write_val l m o v
      | _, _, _, _ => VBad
      end
  | NRead a m o =>
      match nth_error d a, num d m, num d o with
      | Some (VArr l), Some m, Some o => read_val l m o
      | _, _, _ => VBad
      end
  end.

Definition values (t : table) : list value :=
  fold_left (fun d n => d ++ [node_val d n]) t [].

Definition val_of (t : table) (i : nat) : value := nth i (values t) VBad.

(** What is observed may only differ from the value where that is undefined. *)
Definition num_ok (v : value) (z : Z) : Prop :=
  match v with VNum (Some y) => z = y | VNum None => True | _ => False end.

Definition arr_ok (v : value) (l : list Z) : Prop :=
  match v with
  | VArr s => Forall2 (fun o z => match o with Some y => z = y | None => True end) s l
  | _ => False
  end.

(** ** Schedules *)

Definition operands (n : node) : list nat :=
  match n with
  | NLit _ | NUndef | NEvald _ => []
  | NScal args _ => args
  | NArray _ p => match p with Some p => [p] | None => [] end
  | NInit _ a v => [a; v]
  | NWrite _ a s m o v => [a; s; m; o; v]
  | NRead a m o => [a; m; o]
  end.

(** The array operand that a variable accesses. *)
Definition accesses (n : node) (a : nat) : Prop :=
  match n with
  | NInit _ b _ | NWrite _ b _ _ _ _ | NRead b _ _ => b = a
  | _ => False
  end.

Definition changes (n : node) (a : nat) : Prop :=
  match n with
  | NInit _ b _ | NWrite _ b _ _ _ _ => b = a
  | _ => False
  end.

Definition is_op (t : table) (i : nat) : Prop :=
  exists n, nth_error t i = Some n /\
    match n with NArray _ _ | NEvald _ => False | _ => True end.

Definition is_store (t : table) (i : nat) : Prop :=
  exists n, nth_error t i = Some n /\
    match n with NArray _ _ | NEvald _ => True | _ => False end.

(** Every variable once, after its operands, and the arrays first. *)
Definition schedule (t : table) (order : list nat) : Prop :=
  NoDup order /\
  (forall l1 i l2 n j, order = l1 ++ i :: l2 -> nth_error t i = Some n ->
     In j (operands n) -> In j l1) /\
  (exists a b, order = a ++ b /\ Forall (is_store t) a /\ Forall (is_op t) b).

(** How [jit_array_init] and evaluation have to be used for the scheme to work:
    - a fresh array is initialized, and is not used otherwise;
    - the initialized array is evaluated as part of the kernel, or it is not
      used after a write to it. *)
Definition init_use (t : table) (outs : nat -> bool) (order : list nat) : Prop :=
  forall i len a v, In i order -> nth_error t i = Some (NInit len a v) ->
    (exists len', nth_error t a = Some (NArray len' None)) /\
    (forall j n, In j order -> nth_error t j = Some n -> accesses n a -> j = i) /\
    (outs i = true \/
     forall l1 w l2 n, order = l1 ++ w :: l2 -> nth_error t w = Some n -> changes n i ->
       forall j n', In j l2 -> nth_error t j = Some n' -> ~ accesses n' i).

(** No array is evaluated once something was derived from it by a write. *)
Fixpoint eval_use (t : table) (l : list call) : Prop :=
  match l with
  | [] => True
  | c :: l =>
      match c with
      | CEval i _ => forall j n, nth_error t j = Some n -> ~ changes n i
      | _ => True
      end /\
      match api t c with Some (t', _) => eval_use t' l | None => True end
  end.
