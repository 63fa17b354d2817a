(** Placement of captured values. *)
From Verif Require Import Base Lay_Model.
Local Open Scope N_scope.

(** The placed slots lie in [lo, hi), in ascending order, without overlap, each aligned to
    its size. *)
Fixpoint packed (lo hi : N) (out : list placed) : Prop :=
  match out with
  | [] => lo <= hi
  | (_, o, b) :: r => lo <= o /\ o mod bsize b = 0 /\ packed (o + bsize b) hi r
  end.
Definition forget (p : placed) : slot := (fst (fst p), snd p).

(** Backends: LLVM with a vector width of 1, 2, 4, 8 or more; others with vector loads of
    8, 16 or 32 bytes. *)
Definition backend_ok (llvm : bool) (alignment cap : N) : Prop :=
  if llvm then In cap [1; 2; 4; 8] /\ alignment = cap * 8 else In alignment [8; 16; 32].
Definition buckets_ok (ss : list slot) : Prop := Forall (fun s => snd s < 8) ss.

(** The load [ld] of an instance whose block starts at [base] is aligned to its width and
    stays below [limit]. *)
Definition load_ok (base limit : N) (ld : load) : Prop :=
  (base + ld_off ld) mod (ld_n ld * ld_size ld) = 0 /\ base + ld_off ld + ld_n ld * ld_size ld <= limit.

(** Bytes a call may need at most, including padding. *)
Definition cost (insts : list (list slot)) : N :=
  fold_right (fun ss n => 8 * N.of_nat (length ss) + 576 + n) 0 insts.

(** Ranges of bytes. *)
Definition range_of (e : entry) : N * N := (fst e, N.of_nat (length (snd e))).
Definition disjoint (a b : N * N) : Prop := fst a + snd a <= fst b \/ fst b + snd b <= fst a.

(** Number read from [n] bytes at [a], least significant first. *)
Fixpoint read (m : N -> N) (a : N) (n : nat) : list N :=
  match n with O => [] | S n' => m a :: read m (a + 1) n' end.
Fixpoint number (bs : list N) : N := match bs with [] => 0 | b :: r => b + 256 * number r end.

(** A kernel whose buffer stays below 4 GiB; well-formed items. *)
Definition header_bytes (it : item) : N :=
  match it with ICall c _ => c_offset_count c * 8 | IGetter t vs => (N.of_nat (length vs) + 1) * t + 8 end.
Definition data_bytes (it : item) : N := match it with ICall c _ => c_data_size c | IGetter _ _ => 0 end.
Definition sum_of (f : item -> N) (items : list item) : N := fold_right (fun it n => f it + n) 0 items.
Definition item_ok (data : N -> list N) (llvm : bool) (alignment cap : N) (it : item) : Prop :=
  match it with
  | ICall c callables =>
      exists insts inst_id, c = layout_call llvm alignment cap insts inst_id /\
        Forall buckets_ok insts /\ cost insts + 128 < 2 ^ 32 /\
        length inst_id = length insts /\ length callables = length insts /\ NoDup inst_id /\
        Forall (fun i => i < 2 ^ 32 - 1) inst_id /\ Forall (fun k => k < 2 ^ 32) callables /\
        Forall (fun s => N.of_nat (length (data (fst s))) = bsize (snd s)) (concat insts)
  | IGetter t vs => In t [1; 2; 4; 8] /\ Forall (fun v => N.of_nat (length v) = t) vs
  end.
Definition kernel_ok data llvm alignment cap (items : list item) : Prop :=
  backend_ok llvm alignment cap /\ Forall (item_ok data llvm alignment cap) items /\
  sum_of header_bytes items + sum_of data_bytes items + 128 < 2 ^ 32.
