(** Matrix multiplication by its definition. *)
From Verif Require Import Base Gemm_Model.
Local Open Scope N_scope.

(** ** Batches: jit.h:2251-2280.  Dimension 0 varies fastest. *)
Definition index_of (l : list dim) (idx : list N) : Prop := Forall2 (fun d i => i < extent d) l idx.
Fixpoint position (l : list dim) (idx : list N) : N :=
  match l, idx with d :: r, i :: t => i + extent d * position r t | _, _ => 0 end.
Fixpoint a_offset (l : list dim) (idx : list N) : N :=
  match l, idx with d :: r, i :: t => i * a_stride d + a_offset r t | _, _ => 0 end.
Fixpoint b_offset (l : list dim) (idx : list N) : N :=
  match l, idx with d :: r, i :: t => i * b_stride d + b_offset r t | _, _ => 0 end.
Fixpoint product (l : list dim) : N := match l with [] => 1 | d :: r => extent d * product r end.
(** all points of a batch in order, as offsets *)
Fixpoint points (l : list dim) : list (N * N) :=
  match l with
  | [] => [(0, 0)]
  | d :: r => flat_map (fun p => map (fun i => (i * a_stride d + fst p, i * b_stride d + snd p)) (upto (extent d))) (points r)
  end.

Definition a_at (At : bool) (M K i k : N) : N := if At then k * M + i else i * K + k.
Definition b_at (Bt : bool) (Nc K k j : N) : N := if Bt then j * K + k else k * Nc + j.

Section S.
Context {T Acc : Type}.
Variables (widen : T -> Acc) (zero : Acc) (mac : Acc -> Acc -> Acc -> Acc).
(** the products that make up an entry, in order *)
Definition terms (At Bt : bool) (M Nc K : N) (reduce : list dim) (A B : mem T) (ao bo i j : N) : list (T * T) :=
  flat_map (fun p => map (fun k => (A (ao + fst p + a_at At M K i k), B (bo + snd p + b_at Bt Nc K k j))) (upto K)) (points reduce).
Definition dot (l : list (T * T)) : Acc := fold_left (fun acc p => mac acc (widen (fst p)) (widen (snd p))) l zero.
Definition entry (At Bt : bool) (M Nc K : N) (grid reduce : list dim) (A B : mem T) (idx : list N) (i j : N) : Acc :=
  dot (terms At Bt M Nc K reduce A B (a_offset grid idx) (b_offset grid idx) i j).
End S.

(** Tasks of a submission run in some order *)
Definition any_order (order : N -> N -> N -> N -> bool -> N -> list N) : Prop :=
  forall b jc rb pc phase n, Permutation (order b jc rb pc phase n) (upto n).
(** Machine constants *)
Definition tiles (MR NR lanes KC NCmax : N) : Prop :=
  0 < MR /\ 0 < NR /\ 0 < lanes /\ NR mod lanes = 0 /\ 0 < KC /\ 0 < NCmax /\ NCmax + NR <= 2 ^ 32 /\ MR * NR <= 2 ^ 32.
(** No 32 bit size is close to its limit: in the tiled loops, and before folding *)
Definition fits_tiles (MR NR KC NCmax M Nc K cores : N) (grid reduce : list dim) : Prop :=
  M + MR <= 2 ^ 32 /\ Nc + NCmax + NR <= 2 ^ 32 /\ K + KC <= 2 ^ 32 /\ M + cores <= 2 ^ 32 /\
  product grid * M * Nc < 2 ^ 32 /\ product reduce < 2 ^ 32.
Definition fits (MR NR KC NCmax : N) (At Bt : bool) (M Nc K cores : N) (grid reduce : list dim) : Prop :=
  let rows := if At then M else product grid * M in
  let depth := if At && negb Bt then product reduce * K else K in
  fits_tiles MR NR KC NCmax rows Nc depth cores [] [] /\ product grid * M * Nc < 2 ^ 32 /\ product reduce < 2 ^ 32.
(** What the caller finds in C: narrowed sums if sums are kept in a wider type *)
Definition written {T Acc : Type} (widened : bool) (narrow : Acc -> T) (st : mem Acc * mem T) (x : N) (v : Acc) : Prop :=
  if widened then snd st x = narrow v else fst st x = v.
Definition untouched {T Acc : Type} (widened : bool) (st st' : mem Acc * mem T) (x : N) : Prop :=
  if widened then snd st' x = snd st x else fst st' x = fst st x.
