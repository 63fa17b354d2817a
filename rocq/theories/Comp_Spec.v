(** Stream compaction: the increasing list of the indices of nonzero entries. *)
From Verif Require Import Base.

Definition active (xs : list Z) : list Z :=
  filter (fun i => negb (nth (Z.to_nat i) xs 0 =? 0)%Z) (map Z.of_nat (seq 0 (length xs))).

(** A mask array: bytes with value 0 or 1. *)
Definition is_mask (xs : list Z) : Prop := Forall (fun x => x = 0 \/ x = 1)%Z xs.
