(** Matrix multiplication on the CPU: src/util.cpp:69-151, src/util.h:53-76,
    src/llvm_gemm.h, src/llvm_ts.cpp:515-704, src/var.cpp:2757-2806.

    Simplifications: memory is a function from element offsets to values (a buffer is as
    large as needed, element offsets into operands do not reach 2^64); the arithmetic is a
    parameter ([mac acc a b] is "acc + a*b", rounded in whatever way); a tile's registers
    r[m][v] are addressed by column, v*lanes + lane; tasks of one submission run one after
    the other in an arbitrary order (they touch different cells); submissions run in order
    (each depends on the previous one).  The element type check is left out. *)
From Verif Require Import Base.
Local Open Scope N_scope.

Definition upto (n : N) : list N := map N.of_nat (seq 0 (N.to_nat n)).
Definition range (a b : N) : list N := map (N.add a) (upto (b - a)).
(** (x + y - 1) / y, in 32 bit *)
Definition ceil32 (x y : N) : N := u32 (x + y - 1) / y.

Definition mem (X : Type) : Type := N -> X.
Definition put {X} (m : mem X) (w : N * X) : mem X := fun x => if x =? fst w then snd w else m x.
Definition puts {X} (m : mem X) (l : list (N * X)) : mem X := fold_left put l m.

(** One batch dimension: extent, strides of A and B *)
Definition dim : Type := N * N * N.
Definition extent (d : dim) : N := fst (fst d).
Definition a_stride (d : dim) : N := snd (fst d).
Definition b_stride (d : dim) : N := snd d.

Inductive outcome (X : Type) := Done (x : X) | Raised | Crash (* division by zero *) | Hang.
Arguments Done {X}. Arguments Raised {X}. Arguments Crash {X}. Arguments Hang {X}.
Definition andThen {X Y} (o : outcome X) (f : X -> outcome Y) : outcome Y :=
  match o with Done x => f x | Raised => Raised | Crash => Crash | Hang => Hang end.
(** for (x = 0; x < total; x += step) *)
Fixpoint loop {X} (fuel : nat) (x step total : N) (body : N -> X -> outcome X) (s : X) : outcome X :=
  if x <? total then
    match fuel with
    | O => Hang
    | S fuel => andThen (body x s) (loop fuel (u32 (x + step)) step total body)
    end
  else Done s.
Fixpoint each {X Y} (l : list Y) (body : Y -> X -> outcome X) (s : X) : outcome X :=
  match l with [] => Done s | y :: l => andThen (body y s) (each l body) end.

(** util.h:56; [None]: an extent is zero, with the counts so far *)
Fixpoint count (c : N) (l : list dim) : N * bool :=
  match l with
  | [] => (c, true)
  | d :: r => if extent d =? 0 then (c, false) else count (u32 (c * extent d)) r
  end.
(** llvm_gemm.h:183, llvm_ts.cpp:607-616 *)
Fixpoint decode (l : list dim) (z : N) : N * N :=
  match l with
  | [] => (0, 0)
  | d :: r =>
      let idx := z mod extent d in
      let '(a, b) := decode r (z / extent d) in
      (idx * a_stride d + a, idx * b_stride d + b)
  end.

Section Gemm.
Context {T Acc : Type}.
Variables (widen : T -> Acc) (narrow : Acc -> T) (zero : Acc) (zeroT : T) (mac : Acc -> Acc -> Acc -> Acc).
Variable junk : Acc.                         (* content of uninitialised memory *)
Variables MR NR lanes KC NCmax : N.          (* 6; per type and machine; 1024; 4096 *)
Variable widened : bool.                     (* accumulator wider than the element type *)
Variable cores : N.
(** order in which the tasks of a submission run *)
Variable order : N -> N -> N -> N -> bool -> N -> list N.

(** llvm_gemm.h:198-229 *)
Definition pack_a (At : bool) (A : mem T) (M K i_start kc0 kc_len m_valid : N) : list (N * Acc) :=
  if At then
    flat_map (fun k => map (fun r => (k * MR + r, if r <? m_valid then widen (A (u32 (kc0 + k) * M + i_start + r)) else zero)) (upto MR)) (upto kc_len)
  else
    flat_map (fun r => map (fun k => (k * MR + r, if r <? m_valid then widen (A (u32 (i_start + r) * K + kc0 + k)) else zero)) (upto kc_len)) (upto MR).
(** llvm_gemm.h:234-265; [o]: where the slab starts *)
Definition pack_b (Bt : bool) (B : mem T) (o Nc K j_start kc0 kc_len n_valid : N) : list (N * Acc) :=
  if Bt then
    flat_map (fun b => map (fun k => (o + (k * NR + b), if b <? n_valid then widen (B (u32 (j_start + b) * K + kc0 + k)) else zero)) (upto kc_len)) (upto NR)
  else
    flat_map (fun k => map (fun b => (o + (k * NR + b), if b <? n_valid then widen (B (u32 (kc0 + k) * Nc + j_start + b)) else zero)) (upto NR)) (upto kc_len).

(** llvm_gemm.h:277-321: what is written to [C_tile] *)
Definition micro (pa pb : mem Acc) (po : N) (C : mem Acc) (base ldc kc_len : N) (first : bool) : list (N * Acc) :=
  let cell m n := base + u32 (m * ldc + n / lanes * lanes) + n mod lanes in
  flat_map (fun m => map (fun n =>
    (cell m n,
     fold_left (fun acc k => mac acc (pa (k * MR + m)) (pb (po + (k * NR + n / lanes * lanes + n mod lanes)))) (upto kc_len)
               (if first then zero else C (cell m n)))) (upto NR)) (upto MR).

Definition state : Type := mem Acc * mem T.
(** llvm_gemm.h:337-388: one tile, [s] th column slab *)
Definition tile (pa pb : mem Acc) (cbase obase M Nc i_abs jc kc_len n_slabs n_tail : N) (first narrow_store : bool) (st : state) (s : N) : state :=
  let '(acc, out) := st in
  let m_valid := N.min MR (M - i_abs) in
  let n_valid := if (0 <? n_tail) && (s =? n_slabs - 1) then n_tail else NR in
  let po := s * KC * NR in
  let c_tile := cbase + i_abs * Nc + jc + s * NR in
  let o_tile := obase + i_abs * Nc + jc + s * NR in
  if (m_valid =? MR) && (n_valid =? NR) && negb narrow_store then (puts acc (micro pa pb po acc c_tile Nc kc_len first), out)
  else
    let valid := flat_map (fun r => map (fun b => (r, b)) (upto n_valid)) (upto m_valid) in
    let scratch := fun _ => junk in
    let scratch := if first then scratch else puts scratch (map (fun '(r, b) => (r * NR + b, acc (c_tile + u32 (r * Nc + b)))) valid) in
    let scratch := puts scratch (micro pa pb po scratch 0 NR kc_len first) in
    if narrow_store then (acc, puts out (map (fun '(r, b) => (o_tile + u32 (r * Nc + b), narrow (scratch (r * NR + b)))) valid))
    else (puts acc (map (fun '(r, b) => (c_tile + u32 (r * Nc + b), scratch (r * NR + b))) valid), out).
Definition row_sweep (At : bool) (A : mem T) (pb : mem Acc) (cbase obase M Nc K i_abs jc pc kc_len n_slabs n_tail s_lo s_hi : N) (first narrow_store_ : bool) (st : state) : state :=
  let narrow_store := widened && narrow_store_ in
  let m_valid := N.min MR (M - i_abs) in
  let pa := puts (fun _ => junk) (pack_a At A M K i_abs pc kc_len m_valid) in
  fold_left (tile pa pb cbase obase M Nc i_abs jc kc_len n_slabs n_tail first narrow_store) (range s_lo s_hi) st.

(** llvm_ts.cpp:640-695: one segment of K *)
Definition pass (At Bt : bool) (A B : mem T) (M Nc K b jc rb pc cbase obase row_slabs n_panel panel_slabs panel_tail j_chunks chunk_slabs reduce_count : N)
    (st : mem Acc * state) : mem Acc * state :=
  let '(pb, st) := st in
  let kc_len := N.min KC (K - pc) in
  let first := (rb =? 0) && (pc =? 0) in
  let narrow_store := widened && (u32 (rb + 1) =? reduce_count) && (pc + kc_len =? K) in
  let pack idx := pack_b Bt B (idx * KC * NR) Nc K (jc + idx * NR) pc kc_len (if (0 <? panel_tail) && (idx =? panel_slabs - 1) then panel_tail else NR) in
  let pb := puts pb (flat_map pack (order b jc rb pc false panel_slabs)) in
  let sweep st idx :=
    let r := idx / j_chunks in
    let c := idx mod j_chunks in
    let s_lo := c * chunk_slabs in
    let s_hi := N.min (s_lo + chunk_slabs) panel_slabs in
    if s_hi <=? s_lo then st
    else row_sweep At A pb cbase obase M Nc K (r * MR) jc pc kc_len panel_slabs panel_tail s_lo s_hi first narrow_store st in
  (pb, fold_left sweep (order b jc rb pc true (row_slabs * j_chunks)) st).

Definition shift (A : mem T) (o : N) : mem T := fun x => A (o + x).

(** llvm_ts.cpp:525-704.  [acc]: the partial sums, [C] itself unless they are widened *)
Definition llvm_gemm (fuel : nat) (At Bt : bool) (M Nc K : N) (grid reduce : list dim) (A B : mem T) (st : state) : outcome state :=
  if At && Bt then Raised else
  let '(grid_count, ok1) := count 1 grid in
  let '(reduce_count, ok2) := count 1 reduce in
  if negb (ok1 && ok2) then Done st
  else if (M =? 0) || (Nc =? 0) then Done st
  else
    let row_slabs := ceil32 M MR in
    let col_slabs := ceil32 Nc NR in
    let NC := N.min col_slabs (ceil32 NCmax NR) * NR in
    if K =? 0 then
      Done (if widened then (fst st, fun x => if x <? grid_count * M * Nc then zeroT else snd st x)
            else (fun x => if x <? grid_count * M * Nc then zero else fst st x, snd st))
    else
      andThen
        (each (upto grid_count) (fun b s =>
           let '(a_off, b_off) := decode grid b in
           let obase := b * (M * Nc) in
           let cbase := if widened then 0 else obase in
           loop fuel 0 NC Nc (fun jc s =>
             let n_panel := N.min NC (Nc - jc) in
             let panel_slabs := ceil32 n_panel NR in
             let panel_tail := n_panel mod NR in
             if row_slabs =? 0 then Crash else
             let j_chunks := N.min panel_slabs (ceil32 cores row_slabs) in
             if j_chunks =? 0 then Crash else
             let chunk_slabs := ceil32 panel_slabs j_chunks in
             each (upto reduce_count) (fun rb s =>
               let '(ra_off, rb_off) := decode reduce rb in
               loop fuel 0 KC K (fun pc s =>
                 Done (pass At Bt (shift A (a_off + ra_off)) (shift B (b_off + rb_off)) M Nc K b jc rb pc cbase obase
                            row_slabs n_panel panel_slabs panel_tail j_chunks chunk_slabs reduce_count s)) s) s) s)
           ((fun _ => junk), st))
        (fun s => Done (snd s)).

(** util.cpp:128-148 *)
Definition nontrivial (l : list dim) : list dim := filter (fun d => negb (extent d =? 1)) l.
Fixpoint fold_m (M K : N) (l : list dim) : N * list dim :=
  match l with
  | d :: r => if (b_stride d =? 0) && (a_stride d =? M * K) && (M * extent d <? 2 ^ 32) then fold_m (M * extent d) K r else (M, l)
  | [] => (M, l)
  end.
Fixpoint fold_k (M Nc K : N) (l : list dim) : N * list dim :=
  match l with
  | d :: r => if (a_stride d =? K * M) && (b_stride d =? K * Nc) && (K * extent d <? 2 ^ 32) then fold_k M Nc (K * extent d) r else (K, l)
  | [] => (K, l)
  end.
(** util.cpp:69-151 *)
Definition batched_gemm (fuel : nat) (At Bt : bool) (M Nc K : N) (grid reduce : list dim) (A B : mem T) (st : state) : outcome state :=
  if (M =? 0) || (Nc =? 0) || (K =? 0) then Done st
  else if 6 <? N.of_nat (length grid + length reduce) then Raised
  else
    let grid := nontrivial grid in
    let reduce := nontrivial reduce in
    let '(M, grid) := if At then (M, grid) else fold_m M K grid in
    let '(K, reduce) := if At && negb Bt then fold_k M Nc K reduce else (K, reduce) in
    llvm_gemm fuel At Bt M Nc K grid reduce A B st.

(** var.cpp:2757-2806: size of the result, its content *)
Definition var_gemm (fuel : nat) (At Bt : bool) (M Nc K : N) (grid reduce : list dim) (A B : mem T) (st : state) : outcome (N * state) :=
  if 6 <? N.of_nat (length grid + length reduce) then Raised
  else
    let size := fst (count 1 grid) * M * Nc in
    if 2 ^ 32 - 1 <? size then Raised
    else andThen (batched_gemm fuel At Bt M Nc K grid reduce A B st) (fun st => Done (size, st)).
End Gemm.
