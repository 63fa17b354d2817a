(** What the calls of the cooperative vector API mean. *)
From Verif Require Import Base Cov_Model.
Local Open Scope N_scope.

(** A vector: [s_lane l] are its elements in lane [l] *)
Record vec (R : Type) := { s_ty : N; s_size : N; s_len : N; s_lane : N -> list R }.
Arguments s_ty {R}. Arguments s_size {R}. Arguments s_len {R}. Arguments s_lane {R}.

(** Identities used by simplifications.  [eqv t x y]: [x] and [y] are values of type [t] that can be
    exchanged; it can identify zeros of both signs *)
Record laws {R} (ar : arith R) (eqv : N -> R -> R -> Prop) : Prop := {
  l_sym : forall t x y, eqv t x y -> eqv t y x;
  l_trans : forall t x y z, eqv t x y -> eqv t y z -> eqv t x z;
  l_lit : forall t z, eqv t (of_bits ar t z) (of_bits ar t z);
  l_arith2 : forall o t x x' y y', eqv t x x' -> eqv t y y' -> eqv t (arith2 ar o t x y) (arith2 ar o t x' y');
  l_less : forall t x x' y y', eqv t x x' -> eqv t y y' -> less ar t x y = less ar t x' y';
  l_fused : forall t x x' y y' z z', eqv t x x' -> eqv t y y' -> eqv t z z' -> eqv t (fused ar t x y z) (fused ar t x' y' z');
  l_arith1 : forall u t x x', eqv t x x' -> eqv t (arith1 ar u t x) (arith1 ar u t x');
  l_conv : forall s t x x', eqv s x x' -> eqv t (conv ar s t x) (conv ar s t x');
  l_same : forall t x, eqv t x x -> eqv t (conv ar t t x) x;
  l_ext : forall s t x, is_float s = true -> is_float t = true -> tsz s < tsz t -> eqv s x x -> eqv t (instr ar FpExt s t x) (conv ar s t x);
  l_trunc : forall s t x, is_float s = true -> is_float t = true -> tsz t < tsz s -> eqv s x x -> eqv t (instr ar FpTrunc s t x) (conv ar s t x);
  l_add0 : forall t z x, zero_bits t z = true -> eqv t x x -> eqv t (arith2 ar Add t (of_bits ar t z) x) x /\ eqv t (arith2 ar Add t x (of_bits ar t z)) x;
  l_mul1 : forall t x, eqv t x x -> eqv t (arith2 ar Mul t (of_bits ar t (one_bits t)) x) x /\ eqv t (arith2 ar Mul t x (of_bits ar t (one_bits t))) x;
  l_fma1 : forall t x y, is_float t = true -> eqv t x x -> eqv t y y ->
    eqv t (fused ar t (of_bits ar t (one_bits t)) x y) (arith2 ar Add t x y) /\ eqv t (fused ar t x (of_bits ar t (one_bits t)) y) (arith2 ar Add t x y);
  l_fma0 : forall t z x y, is_float t = true -> zero_bits t z = true -> eqv t x x -> eqv t y y -> eqv t (fused ar t x y (of_bits ar t z)) (arith2 ar Mul t x y)
}.
(** Exact addition, of numbers that are values of every type: for sums whose order is not defined *)
Record exact_add {R} (ar : arith R) (eqv : N -> R -> R -> Prop) : Prop := {
  x_all : forall t x, eqv t x x;
  x_assoc : forall t x y z, eqv t (arith2 ar Add t (arith2 ar Add t x y) z) (arith2 ar Add t x (arith2 ar Add t y z));
  x_comm : forall t x y, eqv t (arith2 ar Add t x y) (arith2 ar Add t y x)
}.

Section Spec.
Context {R : Type}.
Variables (b : bk) (ar : arith R) (st : store R).

(** Contents of a variable, once the effects so far are executed *)
Definition now (v : arr R) : list R :=
  match a_lit v with
  | Some x => repeat (of_bits ar (a_ty v) x) (N.to_nat (a_size v))
  | None => match a_new v with Some l => l | None => a_data v end
  end.
Definition element (i k : N) : R := match st i with Some v => nth (N.to_nat k) (now v) (of_bits ar 0 0) | None => of_bits ar 0 0 end.
Definition at_lane (i l : N) : R := match st i with Some v => element i (if a_size v =? 1 then 0 else l) | None => of_bits ar 0 0 end.
Definition pick (v : vec R) (l : N) : list R := s_lane v (if s_size v =? 1 then 0 else l).
Definition fits (x y : N) : bool := (x =? y) || (x =? 1) || (y =? 1).

Definition op2 (o : op) (t : N) (x y : R) : R :=
  match o with Step => if less ar t x y then of_bits ar t 0 else of_bits ar t (one_bits t) | _ => arith2 ar o t x y end.
(** Precision in which products are added *)
Definition acc_ty (t : N) : N := match b with LLVM => t | Metal => Float32 end.
(** Element [i] of A x + b (transposed: A^T x + b) *)
Definition product (t A : N) (d : descr) (xs : list R) (bias : option (N * descr)) (tr : bool) (i : N) : R :=
  let u := acc_ty t in
  let a (j : N) := element A (if tr then d_off d + j * d_stride d + i else d_off d + i * d_stride d + j) in
  let first := match bias with Some (k, e) => conv ar t u (element k (d_off e + i)) | None => of_bits ar u 0 end in
  conv ar u t (fold_left (fun acc jx => fused ar u (conv ar t u (a (fst jx))) (conv ar t u (snd jx)) acc) (combine (upto (N.of_nat (length xs))) xs) first).

Fixpoint sizes (l : list N) : N := match l with [] => 0 | i :: r => N.max (match st i with Some v => a_size v | None => 0 end) (sizes r) end.
(** Result of a call, given the results of the previous calls; [None]: the arguments do not fit *)
Definition meaning (env : list (vec R)) (c : call) : option (vec R) :=
  let r (i : nat) := nth_error env i in
  match c with
  | CPack l =>
      match l with
      | [] => None
      | i :: _ =>
          if 65535 <? N.of_nat (length l) then None
          else
            let? v := st i in
            if forallb (fun k => match st k with Some u => a_ty u =? a_ty v | None => false end) l then
              Some {| s_ty := a_ty v; s_size := sizes l; s_len := N.of_nat (length l); s_lane := fun n => map (fun k => at_lane k n) l |}
            else None
      end
  | CLit ty bits size len =>
      if size =? 0 then None else Some {| s_ty := ty; s_size := size; s_len := len; s_lane := fun _ => repeat (of_bits ar ty bits) (N.to_nat len) |}
  | CLoad buf off len =>
      let? v := st buf in
      Some {| s_ty := a_ty v; s_size := 1; s_len := len; s_lane := fun _ => map (fun i => element buf (off + i)) (upto len) |}
  | CUnary u a =>
      let? x := r a in
      Some {| s_ty := s_ty x; s_size := s_size x; s_len := s_len x; s_lane := fun l => map (arith1 ar u (s_ty x)) (s_lane x l) |}
  | CCast a ty =>
      let? x := r a in
      Some {| s_ty := ty; s_size := s_size x; s_len := s_len x; s_lane := fun l => map (conv ar (s_ty x) ty) (s_lane x l) |}
  | CBin o a c =>
      let? x := r a in
      let? y := r c in
      if (s_len x =? s_len y) && (s_ty x =? s_ty y) && fits (s_size x) (s_size y) then
        Some {| s_ty := s_ty x; s_size := N.max (s_size x) (s_size y); s_len := s_len x; s_lane := fun l => zip (op2 o (s_ty x)) (pick x l) (pick y l) |}
      else None
  | CFma a c d =>
      let? x := r a in
      let? y := r c in
      let? z := r d in
      if (s_len x =? s_len y) && (s_len x =? s_len z) && (s_ty x =? s_ty y) && (s_ty x =? s_ty z)
         && fits (s_size x) (s_size y) && fits (s_size x) (s_size z) && fits (s_size y) (s_size z) then
        Some {| s_ty := s_ty x; s_size := N.max (N.max (s_size x) (s_size y)) (s_size z); s_len := s_len x;
                s_lane := fun l => zip3 (fused ar (s_ty x)) (pick x l) (pick y l) (pick z l) |}
      else None
  | CMat A d x bias tr =>
      let? v := r x in
      let? va := st A in
      let n_out := if tr then d_cols d else d_rows d in
      let t := s_ty v in
      if (s_len v =? (if tr then d_rows d else d_cols d)) && (a_ty va =? t) && ((t =? Float16) || (t =? Float32))
         && match bias with
            | None => true
            | Some (i, e) => match st i with Some vb => (a_ty vb =? t) && (d_rows e =? n_out) && (d_cols e =? 1) && (d_stride e =? 1) | None => false end
            end then
        Some {| s_ty := t; s_size := s_size v; s_len := n_out; s_lane := fun l => map (product t A d (s_lane v l) bias tr) (upto n_out) |}
      else None
  end.
Fixpoint meanings (env : list (vec R)) (p : list call) : option (list (vec R)) :=
  match p with [] => Some env | c :: p => let? v := meaning env c in meanings (env ++ [v]) p end.

(** ** Conditions *)
(** An array has as many elements as its size says *)
Definition store_ok : Prop :=
  forall i v, st i = Some v -> 0 < a_size v < 2 ^ 32 /\ (a_lit v = None -> N.of_nat (length (a_data v)) = a_size v /\ forall l, a_new v = Some l -> N.of_nat (length l) = a_size v).
(** The elements of an array are values of its type *)
Definition store_typed (eqv : N -> R -> R -> Prop) : Prop :=
  forall i v x, st i = Some v -> a_lit v = None -> In x (a_data v) \/ (exists l, a_new v = Some l /\ In x l) -> eqv (a_ty v) x x.
Definition clean (i : N) : Prop := forall v, st i = Some v -> a_new v = None.
Definition elements (i : N) : N := match st i with Some v => a_size v | None => 0 end.
Definition is_lit (v : node) : Prop := exists x, n_kind v = KLit x.
(** No literal operand is wider than another operand *)
Definition narrow (h : heap) (l : list N) : Prop :=
  forall a c x y, In a l -> In c l -> at_ h a = Some x -> at_ h c = Some y -> is_lit x -> n_size x <= n_size y.
Definition args (regs : list N) (l : list nat) : list N := flat_map (fun i => match nth_error regs i with Some a => [a] | None => [] end) l.
Definition typed (h : heap) (regs : list N) (a : nat) (P : N -> Prop) : Prop :=
  forall i v, nth_error regs a = Some i -> at_ h i = Some v -> P (n_ty v).
Definition good_call (h : heap) (regs : list N) (c : call) : Prop :=
  match c with
  | CPack l => forall i, In i l -> clean i /\ (elements i = 1 \/ elements i = sizes l)
  | CLit _ _ _ len => len < 2 ^ 16
  | CLoad buf off len => clean buf /\ len < 2 ^ 16 /\ off + len <= elements buf /\ (b = LLVM -> off + len <= 2 ^ 31)
  | CUnary u _ => b = Metal /\ u <> OtherUop
  | CCast a ty => b = LLVM -> is_float ty = true /\ typed h regs a (fun t => is_float t = true)
  | CBin o a c =>
      o <> OtherOp /\ narrow h (args regs [a; c]) /\
      (b = LLVM -> o = Min \/ o = Max \/ o = Step -> typed h regs a (fun t => is_float t = true))
  | CFma a c d => narrow h (args regs [a; c; d]) /\ typed h regs a (fun t => is_float t = true)
  | CMat A d _ bias tr =>
      clean A /\ (if tr then d_cols d else d_rows d) < 2 ^ 16 /\
      (forall i j, i < d_rows d -> j < d_cols d -> d_off d + i * d_stride d + j < elements A) /\
      (b = LLVM -> d_off d < 2 ^ 31 /\ (d_stride d = d_cols d \/ d_rows d = 1)) /\
      match bias with
      | None => True
      | Some (i, e) => clean i /\ d_off e + d_rows e <= elements i /\ (b = LLVM -> d_off e < 2 ^ 31)
      end
  end.
Fixpoint good (h : heap) (regs : list N) (p : list call) : Prop :=
  match p with
  | [] => True
  | c :: p => good_call h regs c /\ forall x, exec st h regs c = Some x -> good (fst x) (regs ++ [snd x]) p
  end.

(** ** Effects *)
(** Additions of an effect, by lane; [x], [y]: elements of the vectors *)
Definition additions (t : N) (e : effect) (x y : N -> list R) : list (N * R) :=
  match e with
  | EAdd off _ size mask => flat_map (fun l => combine (map (N.add off) (upto (N.of_nat (length (x l))))) (x l)) (filter mask (upto size))
  | EOuter d _ _ size mask =>
      flat_map (fun l => flat_map (fun iu => map (fun jv => (d_off d + fst iu * d_stride d + fst jv, arith2 ar Mul t (snd iu) (snd jv)))
                                               (combine (upto (N.of_nat (length (y l)))) (y l)))
                                  (combine (upto (N.of_nat (length (x l)))) (x l)))
               (filter mask (upto size))
  end.
(** Everything that is added to element [k] *)
Definition total (t : N) (k : N) (l : list (N * R)) : R :=
  fold_right (arith2 ar Add t) (of_bits ar t 0) (map snd (filter (fun e => fst e =? k) l)).
End Spec.

(** ** Matrices *)
(** Position of an element of a matrix *)
Definition place (d : descr) (i j : N) : N := d_off d + i * d_stride d + j.
Definition covers (d : descr) (k : N) : Prop := exists i j, i < d_rows d /\ j < d_cols d /\ k = place d i j.
(** Descriptors that fit into a buffer of [n] elements, at most 4 GiB *)
Definition descr_ok (n : N) (d : descr) : Prop :=
  0 < tsz (d_ty d) /\ n * tsz (d_ty d) < 2 ^ 32 /\ d_cols d <= d_stride d /\
  (forall i j, i < d_rows d -> j < d_cols d -> place d i j < n) /\ (d_stride d = d_cols d -> d_size d = d_rows d * d_cols d).
Definition same_shape (d e : descr) : Prop := d_ty d = d_ty e /\ d_rows d = d_rows e /\ d_cols d = d_cols e.
(** ** Effects of a program *)
Section Conditions.
Context {R : Type}.
Variables (b : bk) (ar : arith R).
(** Vector [v] has elements for all lanes of an effect *)
Definition wide {R} (v : vec R) (size : N) : Prop := s_size v = 1 \/ size <= s_size v.
(** Effect on a buffer of [n] elements of type [t], where [vars] are the variables of the program
    and their meaning; [x] and [y] are the vectors of the effect *)
Definition good_effect (vars : list (N * vec R)) (t n : N) (exy : effect * vec R * vec R) : Prop :=
  match exy with
  | (EAdd off a size _, x, _) =>
      In (a, x) vars /\ s_ty x = t /\ wide x size /\ off + s_len x <= n /\ (b = LLVM -> off + s_len x <= 2 ^ 31)
  | (EOuter d a c size _, x, y) =>
      In (a, x) vars /\ In (c, y) vars /\ s_ty x = t /\ s_ty y = t /\ wide x size /\ wide y size /\
      (forall i j, i < s_len x -> j < s_len y -> d_off d + i * d_stride d + j < n) /\ (b = LLVM -> d_off d * tsz t < 2 ^ 31)
  end.
(** Types for which there is code *)
Definition addable (t : N) : Prop := match b with LLVM => is_float t = true | Metal => t = Float32 end.
Definition all_additions (t : N) (l : list (effect * vec R * vec R)) : list (N * R) :=
  flat_map (fun '(e, x, y) => additions ar t e (pick x) (pick y)) l.
End Conditions.

(** Matrices of the given shapes, one after the other *)
Fixpoint layouts (l : list descr) (off : N) : list descr :=
  match l with [] => [] | d :: l => let e := compute_layout d off in e :: layouts l (off + d_size e) end.
Definition disjoint (d e : descr) : Prop := forall k, covers d k -> covers e k -> False.
Fixpoint extent (l : list descr) : N := match l with [] => 0 | d :: l => d_rows d * d_cols d + extent l end.

(** A matrix of the input and its place in the output *)
Definition pair_ok (ni no : N) (io : descr * descr) : Prop := descr_ok ni (fst io) /\ descr_ok no (snd io) /\ same_shape (fst io) (snd io).
Definition copied {R} (inp : mem R) (io : descr * descr) (m : mem R) : Prop :=
  forall i j, i < d_rows (fst io) -> j < d_cols (fst io) -> m (place (snd io) i j) = inp (place (fst io) i j).
(** A shape for which there can be a layout in a buffer of [n] elements *)
Definition shape_ok (n : N) (d : descr) : Prop := 0 < d_rows d /\ d_rows d < 2 ^ 32 /\ 0 < tsz (d_ty d) /\ n * tsz (d_ty d) < 2 ^ 32.
