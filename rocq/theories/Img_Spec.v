(** What the code generator and callers of kernels rely on *)
From Verif Require Import Base Img_Model.
Local Open Scope N_scope.

Definition eff (align : N) : N := if align =? 0 then 16 else align.

(** Sections (size, alignment) placed one behind the other, each at the first aligned
    position: their positions, and the end *)
Inductive Placed : N -> list (N * N) -> list (N * N) -> N -> Prop :=
  | pl_nil e : Placed e [] [] e
  | pl_cons e size align p l L e' :
      e <= p -> (eff align | p) -> p < e + eff align -> Placed (p + size) l L e' ->
      Placed e ((size, align) :: l) ((p, size) :: L) e'.

Fixpoint secs (l : list ev) : list (N * N) :=
  match l with
  | [] => []
  | EAlloc size align _ :: r => (size, align) :: secs r
  | EStore _ _ _ :: r => secs r
  end.
(** The byte that was stored last *)
Fixpoint stored (l : list ev) (k : nat) (off : N) : option N :=
  match l with
  | [] => None
  | EAlloc _ _ _ :: r => stored r k off
  | EStore k' off' b :: r =>
      match stored r k off with
      | Some x => Some x
      | None => if Nat.eqb k' k && (off' =? off) then Some b else None
      end
  end.
(** Stores go to sections that exist (sizes [acc]) *)
Fixpoint inside (acc : list N) (l : list ev) : Prop :=
  match l with
  | [] => True
  | EAlloc size align got :: r => align < 2 ^ 32 /\ got = false /\ inside (acc ++ [size]) r
  | EStore k off _ :: r => (exists size, nth_error acc k = Some size /\ off < size) /\ inside acc r
  end.

Definition page : N := 4096.

(** Code that is at most ten times as long as its text, and below 4 GiB; symbols are in its
    sections, the pointer @callables with all its bytes *)
Definition legal (q : request) (L : list (N * N)) (e : N) : Prop :=
  Placed 0 (secs (q_evs q)) L e /\ inside [] (q_evs q) /\
  0 < e < 2 ^ 32 /\ e <= 10 * q_len q /\ 10 * q_len q < 2 ^ 63 /\
  (forall k off, In (k, off) (q_syms q) -> exists p size, nth_error L k = Some (p, size) /\ off < size) /\
  (forall k off, nth_error (q_syms q) 1 = Some (k, off) -> exists p size, nth_error L k = Some (p, size) /\ off + 8 <= size).
(** Addresses from the system *)
Definition addresses (ptr table n : N) (syms : nat) : Prop :=
  (page | ptr) /\ ptr + n < 2 ^ 64 /\ table + 8 * N.of_nat (S syms) < 2 ^ 64.
Definition system (q : request) (e : N) (s : env) : Prop :=
  (exists a junk, e_heap s = Some (a, junk) /\ (page | a) /\ a + 10 * q_len q < 2 ^ 64) /\
  exists ptr, e_map s = Some ptr /\ addresses ptr (e_table s) e (length (q_syms q)).

(** The bytes of the pointer @callables, which the library sets *)
Definition pointer_at (q : request) (k : nat) (off : N) : Prop :=
  exists k1 off1, nth_error (q_syms q) 1 = Some (k1, off1) /\ k = k1 /\ off1 <= off < off1 + 8.

(** Kernel [k] is the code of [q] with layout [L] and end [e] *)
Record carries (q : request) (L : list (N * N)) (e : N) (k : kernel) : Prop := {
  (* all of it is there, and the size is known *)
  c_size : k_size k = e /\ k_len k = e;
  (* sections are where they are expected: bytes and alignment *)
  c_bytes : forall i off b p size, nth_error L i = Some (p, size) -> stored (q_evs q) i off = Some b ->
    ~ pointer_at q i off -> code k (k_data k + p + off) = Some b;
  c_align : forall i p size align s, nth_error L i = Some (p, size) -> nth_error (secs (q_evs q)) i = Some (s, align) ->
    (eff align | page) -> (eff align | k_data k + p);
  (* nothing else *)
  c_zero : forall o, o < e -> (forall i p size, nth_error L i = Some (p, size) -> ~ (p <= o < p + size)) ->
    code k (k_data k + o) = Some 0;
  (* entry points *)
  c_entry : forall j i off p size, nth_error (q_syms q) j = Some (i, off) -> nth_error L i = Some (p, size) ->
    nth_error (k_reloc k) j = Some (k_data k + p + off);
  c_entries : length (k_reloc k) = length (q_syms q);
  (* callables are found through the pointer @callables *)
  c_call : forall i off p size n, nth_error (q_syms q) 1 = Some (i, off) -> nth_error L i = Some (p, size) ->
    callee k (k_data k + p + off) n = nth_error (k_reloc k) (S n)
}.

(** LLVM was told of the same layout, somewhere else: distances are the same *)
Definition same_layout (L told : list (N * N)) : Prop :=
  exists base, (page | base) /\ told = map (fun x => (base + fst x, snd x)) L.

(** Histories of compilations *)
Fixpoint served (m : mgr) (l : list (request * env)) : Prop :=
  match l with
  | [] => True
  | (q, s) :: r => forall L e, legal q L e -> system q e s ->
      exists m' told k, compile m q s = Done (m', told, k) /\ same_layout L told /\ carries q L e k /\
        k_data k = match e_map s with Some p => p | None => 0 end /\ served m' r
  end.
