(** Model of the free-slot allocator, src/free_slots.h:26-51. *)
From Verif Require Import Base.
Local Open Scope N_scope.

(** src/free_slots.h:12-20 [tzcnt_u64]: number of trailing zero bits of a
    nonzero word ([__builtin_ctzll], undefined for 0, hence [option]). *)
Fixpoint tz_pos (p : positive) : N :=
  match p with
  | xO q => 1 + tz_pos q
  | _ => 0
  end.
Definition tzcnt_u64 (x : N) : option N :=
  match x with N0 => None | Npos p => Some (tz_pos p) end.

(** src/free_slots.h:26-29, the three data members. [words] is the
    std::vector<uint64_t>. *)
Record fslots := mkFS { words : list N; cursor : N; count : N }.

Definition fs_init : fslots := mkFS [] 0 0.

(** src/free_slots.h:31 *)
Definition fs_empty (s : fslots) : bool := count s =? 0.

(** std::vector::resize(n, 0) for n larger than the current size. *)
Definition resize0 (n : nat) (l : list N) : list N :=
  l ++ repeat 0 (n - length l)%nat.

(** src/free_slots.h:34-41. The final write can not be out of bounds because of
    the preceding resize; it is nevertheless expressed with the checked [upd].
    [1 << (i % 64)] is a 64-bit shift; [count++] wraps at 2^64. *)
Definition fs_push (i : N) (s : fslots) : option fslots :=
  let w := i / 64 in
  let ws := if N.of_nat (length (words s)) <=? w
            then resize0 (N.to_nat (u32 (w + 1))) (words s) else words s in
  let? old := nth_error ws (N.to_nat w) in
  let? ws' := upd (N.to_nat w) (N.lor old (u64 (N.shiftl 1 (i mod 64)))) ws in
  Some (mkFS ws' (N.min (cursor s) w) (u64 (count s + 1))).

(** src/free_slots.h:44-45: the scan loop. Running past the end of the vector
    is an out-of-bounds read, i.e. [None]. *)
Fixpoint fs_scan (l : list N) (c : N) : option N :=
  match l with
  | [] => None
  | b :: l' => if b =? 0 then fs_scan l' (c + 1) else Some c
  end.

(** src/free_slots.h:43-50 *)
Definition fs_pop (s : fslots) : option (N * fslots) :=
  let? c := fs_scan (skipn (N.to_nat (cursor s)) (words s)) (cursor s) in
  let? bits := nth_error (words s) (N.to_nat c) in
  let? ws' := upd (N.to_nat c) (N.land bits (sub64 bits 1)) (words s) in
  let? tz := tzcnt_u64 bits in
  Some (u32 (u32 (c * 64) + tz), mkFS ws' c (sub64 (count s) 1)).

(** How the container is used by its clients (src/var.cpp:779-786,
    src/registry.cpp:85-93): [pop] only after testing [empty()]. *)
Inductive fs_op := FsPush (i : N) | FsTryPop.

Definition fs_step (s : fslots) (o : fs_op) : option (option N * fslots) :=
  match o with
  | FsPush i => let? s' := fs_push i s in Some (None, s')
  | FsTryPop => if fs_empty s then Some (None, s)
                else let? r := fs_pop s in Some (Some (fst r), snd r)
  end.

Fixpoint fs_run (s : fslots) (ops : list fs_op) : option (list (option N)) :=
  match ops with
  | [] => Some []
  | o :: ops' =>
      let? r := fs_step s o in
      let? outs := fs_run (snd r) ops' in
      Some (fst r :: outs)
  end.
