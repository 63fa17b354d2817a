(** Packet memory operations of the CPU backend: llvm_packet.cpp:21-155 and 303-470,
    op.cpp:3088-3325 (the parts that decide which operation is used).

    Vectors are functions from lane numbers to elements; [None] is an element that a
    shuffle with an invalid position would produce.  [w] is jitc_llvm_vector_width.
    Not modelled: loop state wrappers, symbolic targets, debug checks, reference counts,
    the inference of the reduction mode (Exp_Model), multiplication of indices modulo 2^32. *)
From Verif Require Import Base.
Local Open Scope N_scope.

Section Packet.
Context {V : Type}.
Definition vec := N -> option V.
Variable w : N.

(** LLVM's shufflevector of two vectors with [m] elements *)
Definition shuffle (m : N) (a b : vec) (pos : N -> N) : vec :=
  fun i => let p := pos i in if p <? m then a p else if p <? 2 * m then b (p - m) else None.
(** llvm_packet.cpp:21-29 *)
Definition perm4 (a b : vec) (pattern : N) : vec :=
  shuffle w a b (fun i =>
    let pat_i := N.shiftr pattern (N.land i 3 * 3) in
    N.lor (N.ldiff i 3) (N.land pat_i 3) + N.land (N.shiftr pat_i 2) 1 * w).
(** llvm_packet.cpp:31-39 *)
Definition perm8 (a b : vec) (pattern : N) : vec :=
  shuffle w a b (fun i =>
    let pat_i := N.shiftr pattern (N.land i 7 * 4) in
    N.lor (N.ldiff i 7) (N.land pat_i 7) + N.land (N.shiftr pat_i 3) 1 * w).
(** llvm_packet.cpp:41-92 *)
Definition unpacklo : N := 0xA60.    (* 101'001'100'000 *)
Definition unpackhi : N := 0xEF2.    (* 111'011'110'010 *)
Definition movelh : N := 0xB08.      (* 101'100'001'000 *)
Definition movehl : N := 0x6BE.      (* 011'010'111'110 *)
Definition permute (n : N) (v : N -> vec) : option (list vec) :=
  if n =? 2 then
    let c0 := 0xCA0 in               (* 110'010'100'000 *)
    let c1 := 0xEE9 in               (* 111'011'101'001 *)
    Some [perm4 (v 0) (v 1) c0; perm4 (v 0) (v 1) c1]
  else if n =? 4 then
    let t0 := perm4 (v 0) (v 1) unpacklo in
    let t1 := perm4 (v 2) (v 3) unpacklo in
    let t2 := perm4 (v 0) (v 1) unpackhi in
    let t3 := perm4 (v 2) (v 3) unpackhi in
    Some [perm4 t0 t1 movelh; perm4 t1 t0 movehl; perm4 t2 t3 movelh; perm4 t3 t2 movehl]
  else if n =? 8 then
    let c0 := 0xBA983210 in
    let c1 := 0xFEDC7654 in
    let t0 := perm4 (v 0) (v 1) unpacklo in
    let t1 := perm4 (v 0) (v 1) unpackhi in
    let t2 := perm4 (v 2) (v 3) unpacklo in
    let t3 := perm4 (v 2) (v 3) unpackhi in
    let t4 := perm4 (v 4) (v 5) unpacklo in
    let t5 := perm4 (v 4) (v 5) unpackhi in
    let t6 := perm4 (v 6) (v 7) unpacklo in
    let t7 := perm4 (v 6) (v 7) unpackhi in
    let t8 := perm4 t0 t2 movelh in
    let t9 := perm4 t2 t0 movehl in
    let ta := perm4 t1 t3 movelh in
    let tb := perm4 t3 t1 movehl in
    let tc := perm4 t4 t6 movelh in
    let td := perm4 t6 t4 movehl in
    let te := perm4 t5 t7 movelh in
    let tf := perm4 t7 t5 movehl in
    Some [perm8 t8 tc c0; perm8 t9 td c0; perm8 ta te c0; perm8 tb tf c0;
          perm8 t8 tc c1; perm8 t9 td c1; perm8 ta te c1; perm8 tb tf c1]
  else None. (* raises *)

(** llvm_packet.cpp:94-121: the vector %v<l>_<i>_<j>; [load k c] is element [c] of the
    packet that lane [k] points to.  [None]: does not terminate. *)
Fixpoint gather_rec (fuel : nat) (load : N -> N -> V) (n l i j : N) : option vec :=
  match fuel with
  | O => None
  | S fuel =>
      let s := N.shiftr w l in
      if s =? n then Some (fun c => if c <? n then Some (load (i * n + j) c) else None)
      else
        let hs := s / 2 in
        let? a := gather_rec fuel load n (l + 1) (2 * i) j in
        let? b := gather_rec fuel load n (l + 1) (2 * i + 1) j in
        Some (fun k => if k <? s then shuffle hs a b (fun k => k) k else None)
  end.
Fixpoint vectors (f : N -> option vec) (j : N) (c : nat) : option (list vec) :=
  match c with
  | O => Some []
  | S c => let? v := f j in let? vs := vectors f (j + 1) c in Some (v :: vs)
  end.
Definition nth_vec (vs : list vec) (j : N) : vec := nth (N.to_nat j) vs (fun _ => None).
(** llvm_packet.cpp:127-155 *)
Definition gather_fn (fuel : nat) (load : N -> N -> V) (n : N) : option (list vec) :=
  let? v := vectors (gather_rec fuel load n 0 0) 0 (N.to_nat n) in
  permute n (nth_vec v).

(** ** Scatters *)

Definition memory := N -> V.
(** Identity: replace; Add: load, add, store *)
Variable upd2 : V -> V -> V.
Definition store (n : N) (mem : memory) (p : N) (x : vec) : memory :=
  fun a => if (p <=? a) && (a <? p + n) then match x (a - p) with Some y => upd2 (mem a) y | None => mem a end else mem a.
(** llvm_packet.cpp:303-372; [p], [m]: addresses and masks of the lanes, [v]: %v<l>_<i>_<j> *)
Fixpoint scatter_rec (fuel : nat) (n l i : N) (p : N -> N) (m : N -> bool) (v : N -> vec) (mem : memory) : option memory :=
  match fuel with
  | O => None
  | S fuel =>
      let s := N.shiftr w l in
      if s =? n then
        Some (fold_left (fun mem j => let k := i * n + j in if m k then store n mem (p k) (v j) else mem) (map N.of_nat (seq 0 (N.to_nat n))) mem)
      else
        let hs := s / 2 in
        let half (x : N) (j : N) : vec := fun k => if k <? hs then v j (k + x * hs) else None in
        let? mem := scatter_rec fuel n (l + 1) (2 * i) p m (half 0) mem in
        scatter_rec fuel n (l + 1) (2 * i + 1) p m (half 1) mem
  end.
(** llvm_packet.cpp:374-409 *)
Definition scatter_fn (fuel : nat) (n : N) (p : N -> N) (m : N -> bool) (v : N -> vec) (mem : memory) : option memory :=
  let? r := permute n v in
  scatter_rec fuel n 0 0 p m (nth_vec r) mem.
(** llvm_packet.cpp:427-429 *)
Fixpoint packet_size (fuel : nat) (n ps : N) : N :=
  match fuel with
  | O => ps
  | S fuel => if N.land n (ps - 1) =? 0 then ps else packet_size fuel n (ps / 2)
  end.
(** llvm_packet.cpp:433-469: one vector of lanes; [index] is the position of the packet *)
Fixpoint scatters (fuel : nat) (ps offset : N) (c : nat) (index : N -> N) (m : N -> bool) (v : N -> vec) (mem : memory) : option memory :=
  match c with
  | O => Some mem
  | S c =>
      let? mem := scatter_fn fuel ps (fun k => offset + index k) m (fun j => v (offset + j)) mem in
      scatters fuel ps (offset + ps) c index m v mem
  end.
Definition render_scatter (fuel : nat) (n : N) (index : N -> N) (m : N -> bool) (v : N -> vec) (mem : memory) : option memory :=
  let ps := packet_size 4 n (N.min 8 w) in
  scatters fuel ps 0 (N.to_nat (n / ps)) index m v mem.

(** A masked scatter of one vector (llvm_eval.cpp: jitc_llvm_render_scatter): lanes in order *)
Definition scatter1 (index : N -> N) (m : N -> bool) (x : vec) (mem : memory) : memory :=
  fold_left (fun mem k => if m k then store 1 mem (index k) (fun _ => x k) else mem) (map N.of_nat (seq 0 (N.to_nat w))) mem.
End Packet.

(** ** Which operation is used (op.cpp:3160-3265) *)
Inductive rmode := MAuto | MDirect | MLocal | MNoConflicts | MExpand | MPermute.
Inductive strategy := SSkip | SSeparate | SPacket.
(** Literal values of the mask, the target, and the components *)
Definition strategy_of (packet_ops is_add : bool) (mode : rmode) (threshold target_size n : N)
    (mask target : option N) (values : list (option N)) : strategy :=
  let is x y := match x with Some x => x =? y | None => false end in
  let all_zero := forallb (fun v => is v 0) values in
  let same := forallb (fun v => match v, target with Some a, Some b => a =? b | _, _ => false end) values in
  if is mask 0 then SSkip
  else if all_zero && is_add then SSkip
  else if same && negb is_add then SSkip
  else
    let use :=
      if packet_ops then
        match is_add, mode with
        | false, (MAuto | MExpand | MPermute | MNoConflicts) => true
        | true, (MExpand | MPermute | MNoConflicts) => true
        | true, MAuto => target_size <=? threshold
        | _, _ => false
        end
      else false in
    if use && (1 <? n) && (n mod 2 =? 0) then SPacket else SSeparate.

(** ** Alignment *)
(** var.cpp:1812-1816: flag of a variable that was mapped from user memory; memory of
    the allocator is a multiple of 64 *)
Definition unaligned (w base tsize : N) : bool := negb (base mod N.min 64 (w * tsize) =? 0).
(** llvm_packet.cpp:336: alignment that the instruction declares; an address that is not
    a multiple is undefined behavior *)
Definition store_align (ps tsize : N) : N := tsize * ps.
(** Byte address of the part at [offset] of the packet at [index] *)
Definition store_addr (base tsize index offset : N) : N := base + tsize * (offset + index).
