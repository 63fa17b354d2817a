(** What a getter returns (jit.h:945-969). *)
From Verif Require Import Base Gtr_Model.
From Verif Require Lay_Model Lay_Spec.
Local Open Scope N_scope.

(** Entry [l] of a variable as the user sees it; arrays of size 1 are broadcast *)
Definition entry (v : var) (l : N) : option N :=
  match v_lit v with
  | Some x => if (v_size v =? 1) || (l <? v_size v) then Some x else None
  | None => nth_error (match v_new v with Some d => d | None => v_data v end) (if v_size v =? 1 then 0%nat else N.to_nat l)
  end.
(** ``(mask && index != 0) ? values[index-1] : 0``, where absent values are zero; [active]: mask on
    the mask stack *)
Definition expected (h : heap) (values : list N) (active mask : bool) (i : N) : N :=
  if active && mask && negb (i =? 0) then
    let id := nth (N.to_nat (i - 1)) values 0 in
    if id =? 0 then 0 else match h id with Some v => match entry v 0 with Some x => x | None => 0 end | None => 0 end
  else 0.
(** The mask on the stack applies if its size fits *)
Definition on_stack (h : heap) (stack : option N) (size l : N) : bool :=
  match stack with
  | None => true
  | Some t =>
      match h t with
      | Some v => if (size =? 1) || (v_size v =? 1) || (v_size v =? size) then match entry v l with Some x => negb (x =? 0) | None => false end else true
      | None => true
      end
  end.
(** Variables: as many entries as their size says, each of the size of the type; masks are 0 or 1 *)
Definition limit (ty : N) : N := if ty =? TBool then 2 else 2 ^ (8 * tsz ty).
Definition var_ok (v : var) : Prop :=
  0 < v_size v < 2 ^ 32 /\ (forall x, v_lit v = Some x -> x < limit (v_ty v) /\ v_new v = None) /\ (v_node v = true -> v_new v = None) /\
  (v_lit v = None -> N.of_nat (length (v_data v)) = v_size v /\ Forall (fun x => x < limit (v_ty v)) (v_data v)) /\
  (forall d, v_new v = Some d -> N.of_nat (length d) = v_size v /\ Forall (fun x => x < limit (v_ty v)) d).
Definition heap_ok (h : heap) : Prop := forall i v, h i = Some v -> var_ok v.
(** No pending effects *)
Definition clean (h : heap) (i : N) : Prop := forall v, h i = Some v -> dirty v = false.
(** A mask that is false in the lanes past the end *)
Definition padded (h : heap) (pad : N -> N -> N) (i : N) : Prop :=
  forall v l, h i = Some v -> v_size v <= l -> pad i l = 0.
Definition lanes (b : bk) (w n : N) : N := if is_llvm b then (n + w - 1) / w * w else n.
(** LLVM executes lanes past the end of the kernel, of size [n].  The mask on the stack disables
    them if it is an array of that size that is false there, or false; a mask in memory that
    applies to an operation of size 1 is no problem. *)
Definition ends (h : heap) (pad : N -> N -> N) (stack : option N) (size n : N) : Prop :=
  forall t v, stack = Some t -> h t = Some v -> size = 1 \/ v_size v = 1 \/ v_size v = size ->
  (size = 1 /\ v_lit v = None /\ v_node v = false) \/
  (v_size v = n /\ n <> 1 /\ v_lit v = None /\ forall l, n <= l -> N.odd (pad t l) = false) \/ v_lit v = Some 0.
