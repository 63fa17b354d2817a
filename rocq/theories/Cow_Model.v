(** Copy-on-write of scatters and stashed reference counts: src/var.cpp:520-550
    (jitc_var_stash_ref, jitc_var_unstash_ref), 501-509 (jitc_var(WeakRef)), 511-518, 572-591
    (reference counts), 1880-1926 (jitc_var_copy); src/op.cpp:2998-2999, 3271-3272, 2419-2420,
    2537-2538, 2648-2649 (scatters); src/internal.h:255, 362 (widths).

    Simplifications: evaluated variables that are not arrays; scatters of one element, done at
    once; the allocator of indices may choose any unused index; counters of indices
    do not wrap around (2^32 variables with the same index), nor do reference counts (2^32 references). *)
From Verif Require Import Base.

(** [v_cnt], [ctr]: ghost state that tells variables apart, not used by any decision *)
Record var := { v_cnt : nat; v_rc : N; v_st : N; v_data : list Z }.
(** [gens]: counter of each index; [refs]: references of the client; [hands]: handles (index, counter) returned by stash *)
Record state := { vars : nat -> option var; gens : nat -> nat; ctr : nat; refs : list (option nat); hands : list (option (nat * nat)) }.
Definition initial : state := {| vars := fun _ => None; gens := fun _ => 0; ctr := 0; refs := []; hands := [] |}.

Definition upd (f : nat -> option var) (i : nat) (x : option var) : nat -> option var := fun j => if Nat.eqb j i then x else f j.
Definition set_var (s : state) (i : nat) (x : option var) : state :=
  {| vars := upd (vars s) i x; gens := gens s; ctr := ctr s; refs := refs s; hands := hands s |}.
Definition set_refs (s : state) (l : list (option nat)) : state :=
  {| vars := vars s; gens := gens s; ctr := ctr s; refs := l; hands := hands s |}.
Definition add_hand (s : state) (h : option (nat * nat)) : state :=
  {| vars := vars s; gens := gens s; ctr := ctr s; refs := refs s; hands := hands s ++ [h] |}.
Definition with_rc (v : var) (n : N) : var := {| v_cnt := v_cnt v; v_rc := n; v_st := v_st v; v_data := v_data v |}.
Definition with_st (v : var) (n : N) : var := {| v_cnt := v_cnt v; v_rc := v_rc v; v_st := n; v_data := v_data v |}.
Definition with_data (v : var) (d : list Z) : var := {| v_cnt := v_cnt v; v_rc := v_rc v; v_st := v_st v; v_data := d |}.

(** jitc_var_new (src/var.cpp:725-806): one reference; the counter of the index is preserved (805) *)
Definition var_new (s : state) (i : nat) (d : list Z) : state :=
  {| vars := upd (vars s) i (Some {| v_cnt := ctr s; v_rc := 1; v_st := 0; v_data := d |});
     gens := gens s; ctr := S (ctr s); refs := refs s; hands := hands s |}.
(** jitc_var_inc_ref (src/var.cpp:514-518), jitc_var_dec_ref (572-584); [None]: no such variable *)
Definition inc_ref (s : state) (i : nat) : option state :=
  match vars s i with Some v => Some (set_var s i (Some (with_rc v (v_rc v + 1)))) | None => None end.
(** jitc_var_free (src/var.cpp:367-402): the counter of the index is incremented *)
Definition free (s : state) (i : nat) : state :=
  {| vars := upd (vars s) i None; gens := fun j => if Nat.eqb j i then S (gens s i) else gens s j;
     ctr := ctr s; refs := refs s; hands := hands s |}.
Definition dec_ref (s : state) (i : nat) : option state :=
  match vars s i with
  | Some v => Some (if N.eqb (v_rc v - 1) 0 then free s i else set_var s i (Some (with_rc v (v_rc v - 1))))
  | None => None
  end.

(** jitc_var_stash_ref (src/var.cpp:523-534): the count is cut to 16 bit *)
Definition stash_ref (s : state) (i : nat) : option (state * option (nat * nat)) :=
  match vars s i with
  | None => None
  | Some v => if negb (N.eqb (v_st v) 0) then Some (s, None)
              else Some (set_var s i (Some (with_st v (v_rc v mod 2 ^ 16))), Some (i, gens s i))
  end.
(** jitc_var_unstash_ref (src/var.cpp:537-551), jitc_var(WeakRef) (501-511) *)
Definition unstash_ref (s : state) (h : option (nat * nat)) : state :=
  match h with
  | None => s
  | Some (i, n) => if Nat.eqb (gens s i) n
                   then match vars s i with Some v => set_var s i (Some (with_st v 0)) | None => s end
                   else s
  end.

(** jitc_var_scatter (src/op.cpp:2901, 2998-2999), jitc_var_copy (src/var.cpp:1880-1926).
    [j]: index for a copy.  The result is a reference of the caller. *)
Definition scatter (s : state) (i j : nat) (k : nat) (z : Z) : option (state * nat) :=
  let? s := inc_ref s i in                       (* Ref target = borrow(...) *)
  match vars s i with
  | None => None
  | Some v =>
      let? (s, t) := if N.ltb 2 (v_rc v) && negb (N.eqb (v_st v) 1)
                     then let? s := dec_ref (var_new s j (v_data v)) i in Some (s, j)
                     else Some (s, i) in
      match vars s t with
      | None => None
      | Some w => Some (set_var s t (Some (with_data w (set_nth k z (v_data w)))), t)
      end
  end.

(** Clients: [Copy]: another reference; [Scatter]: the reference is replaced by the result *)
Inductive op :=
  | New (i : nat) (d : list Z)
  | Copy (r : nat)
  | Drop (r : nat)
  | Scatter (r j k : nat) (z : Z)
  | Stash (r : nat)
  | Unstash (h : nat).
Definition ref (s : state) (r : nat) : option nat := match nth_error (refs s) r with Some x => x | None => None end.
Definition step (s : state) (o : op) : option state :=
  match o with
  | New i d => let s := var_new s i d in Some (set_refs s (refs s ++ [Some i]))
  | Copy r => let? i := ref s r in let? s := inc_ref s i in Some (set_refs s (refs s ++ [Some i]))
  | Drop r => let? i := ref s r in let? s := dec_ref s i in Some (set_refs s (set_nth r None (refs s)))
  | Scatter r j k z =>
      let? i := ref s r in
      let? (s, t) := scatter s i j k z in
      let? s := dec_ref s i in
      Some (set_refs s (set_nth r (Some t) (refs s)))
  | Stash r => let? i := ref s r in let? (s, h) := stash_ref s i in Some (add_hand s h)
  | Unstash h => match nth_error (hands s) h with Some x => Some (unstash_ref s x) | None => None end
  end.
Fixpoint run (s : state) (l : list op) : option state :=
  match l with [] => Some s | o :: r => let? s := step s o in run s r end.
Definition value (s : state) (r : nat) : option (list Z) :=
  let? i := ref s r in let? v := vars s i in Some (v_data v).
