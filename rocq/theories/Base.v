(** Common imports, machine-word helpers and list lemmas used everywhere. *)
From Coq Require Export List Arith ZArith NArith Lia Bool.
From Coq Require Export ZifyBool ZifyNat ZifyN.
From Coq Require Export Sorting.Permutation Sorting.Sorted.
Export ListNotations.

Ltac Zify.zify_post_hook ::= Z.div_mod_to_equations.

Arguments N.add : simpl never.
Arguments N.sub : simpl never.
Arguments N.mul : simpl never.
Arguments N.div : simpl never.
Arguments N.modulo : simpl never.
Arguments N.pow : simpl never.
Arguments N.land : simpl never.
Arguments N.lor : simpl never.
Arguments N.shiftl : simpl never.
Arguments N.shiftr : simpl never.
Arguments N.testbit : simpl never.
Arguments N.eqb : simpl never.
Arguments N.ltb : simpl never.
Arguments N.leb : simpl never.
Arguments N.min : simpl never.
Arguments N.max : simpl never.
Arguments N.to_nat : simpl never.
Arguments N.of_nat : simpl never.
Arguments Z.add : simpl never.
Arguments Z.sub : simpl never.
Arguments Z.mul : simpl never.
Arguments Z.div : simpl never.
Arguments Z.modulo : simpl never.
Arguments Z.pow : simpl never.
Arguments Z.land : simpl never.
Arguments Z.lor : simpl never.
Arguments Z.shiftl : simpl never.
Arguments Z.shiftr : simpl never.
Arguments Z.testbit : simpl never.
Arguments Z.eqb : simpl never.
Arguments Z.ltb : simpl never.
Arguments Z.leb : simpl never.
Arguments Z.to_nat : simpl never.
Arguments Z.of_nat : simpl never.

(** Reduction modulo the width of the C++ unsigned integer types. *)
Definition u8  (x : N) : N := N.modulo x (2 ^ 8).
Definition u16 (x : N) : N := N.modulo x (2 ^ 16).
Definition u32 (x : N) : N := N.modulo x (2 ^ 32).
Definition u64 (x : N) : N := N.modulo x (2 ^ 64).

(** Unsigned subtraction [a - b] at 32/64 bit with wrap-around; both
    arguments are expected to be in range. *)
Definition sub32 (a b : N) : N := u32 (a + 2 ^ 32 - b).
Definition sub64 (a b : N) : N := u64 (a + 2 ^ 64 - b).

Lemma u32_small x : (x < 2 ^ 32)%N -> u32 x = x.
Proof. intros; unfold u32; now apply N.mod_small. Qed.
Lemma u64_small x : (x < 2 ^ 64)%N -> u64 x = x.
Proof. intros; unfold u64; now apply N.mod_small. Qed.
Lemma u32_lt x : (u32 x < 2 ^ 32)%N.
Proof. unfold u32; apply N.mod_lt; discriminate. Qed.
Lemma u64_lt x : (u64 x < 2 ^ 64)%N.
Proof. unfold u64; apply N.mod_lt; discriminate. Qed.

(** [set_nth n x l] replaces entry [n] of [l] (unchanged when out of range). *)
Fixpoint set_nth {A} (n : nat) (x : A) (l : list A) : list A :=
  match l, n with
  | [], _ => []
  | _ :: t, O => x :: t
  | h :: t, S n' => h :: set_nth n' x t
  end.

Lemma set_nth_length {A} n (x : A) l : length (set_nth n x l) = length l.
Proof. revert n; induction l as [|h t IH]; intros [|n]; simpl; auto. Qed.

Lemma nth_error_set_nth_eq {A} n (x : A) l :
  n < length l -> nth_error (set_nth n x l) n = Some x.
Proof.
  revert n; induction l as [|h t IH]; intros [|n] Hn; simpl in *; try lia; auto.
  apply IH; lia.
Qed.

Lemma nth_error_set_nth_neq {A} n m (x : A) l :
  n <> m -> nth_error (set_nth n x l) m = nth_error l m.
Proof.
  revert n m; induction l as [|h t IH]; intros [|n] [|m] Hn; simpl in *; try congruence; auto.
Qed.

Lemma nth_set_nth_eq {A} n (x d : A) l :
  n < length l -> nth n (set_nth n x l) d = x.
Proof.
  intros Hn. apply nth_error_nth. now apply nth_error_set_nth_eq.
Qed.

Lemma nth_set_nth_neq {A} n m (x d : A) l :
  n <> m -> nth m (set_nth n x l) d = nth m l d.
Proof.
  revert n m; induction l as [|h t IH]; intros [|n] [|m] Hn; simpl in *; try congruence; auto.
Qed.

Lemma set_nth_oob {A} n (x : A) l : length l <= n -> set_nth n x l = l.
Proof.
  revert n; induction l as [|h t IH]; intros [|n] Hn; simpl in *; try lia; auto.
  f_equal; apply IH; lia.
Qed.

(** Replace entry [n] only when it exists; [None] is an out-of-bounds write. *)
Definition upd {A} (n : nat) (x : A) (l : list A) : option (list A) :=
  if n <? length l then Some (set_nth n x l) else None.

Definition bind {A B} (o : option A) (f : A -> option B) : option B :=
  match o with Some x => f x | None => None end.

Notation "'let?' x ':=' e 'in' b" := (bind e (fun x => b))
  (at level 200, x pattern, right associativity).
