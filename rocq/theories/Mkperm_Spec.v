(** Bucket sort: what the permutation and the offset table must contain. *)
From Verif Require Import Base Par_Model.
Local Open Scope N_scope.

(** The indices [s .. e-1] bucket by bucket, increasing within every bucket. *)
Definition bucket_sorted (xs : list N) (buckets s e : N) : list N :=
  flat_map (fun b => filter (fun i => nth (N.to_nat i) xs 0 =? b) (range_lt s e))
           (range_lt 0 buckets).

(** For every nonempty bucket: number, first position, size, 0. *)
Definition bucket_table (xs : list N) (buckets s e : N) : list N :=
  flat_map (fun b =>
    let before := N.of_nat (length (filter (fun i => nth (N.to_nat i) xs 0 <? b) (range_lt s e))) in
    let here := N.of_nat (length (filter (fun i => nth (N.to_nat i) xs 0 =? b) (range_lt s e))) in
    if here =? 0 then [] else [b; before; here; 0]) (range_lt 0 buckets).
