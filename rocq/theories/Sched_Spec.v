(** What ordering the schedule means. *)
From Verif Require Import Base Sched_Model.
Local Open Scope N_scope.

(** [a] may stand before [b]: larger sizes first, then smaller scopes first. *)
Definition may_precede (a b : N * N) : Prop :=
  fst b < fst a \/ fst a = fst b /\ snd a <= snd b.

(** [r] is [l], ordered, keeping the order of entries with equal keys. *)
Definition stably_sorted (l r : list sv) : Prop :=
  Permutation l r /\
  StronglySorted (fun x y => may_precede (sv_key x) (sv_key y)) r /\
  (forall s c, filter (fun x => (sv_size x =? s) && (sv_scope x =? c)) r
             = filter (fun x => (sv_size x =? s) && (sv_scope x =? c)) l).

(** Contracts of std::sort and std::stable_sort: they order by any comparison that
    is a strict weak order, and promise nothing for any other comparison. *)
Definition strict_weak {A} (lt : A -> A -> bool) : Prop :=
  (forall x, lt x x = false) /\
  (forall x y z, lt x y = true -> lt y z = true -> lt x z = true) /\
  (forall x y z, lt x y = false -> lt y x = false -> lt y z = false -> lt z y = false ->
     lt x z = false /\ lt z x = false).
Definition equiv {A} (lt : A -> A -> bool) (x y : A) : bool := negb (lt x y) && negb (lt y x).
Definition sorts {A} (sort : (A -> A -> bool) -> list A -> list A) : Prop :=
  forall lt l, strict_weak lt ->
  Permutation l (sort lt l) /\ StronglySorted (fun x y => lt y x = false) (sort lt l).
Definition sorts_stably {A} (sort : (A -> A -> bool) -> list A -> list A) : Prop :=
  sorts sort /\ forall lt l x, strict_weak lt -> filter (equiv lt x) (sort lt l) = filter (equiv lt x) l.

(** [slice l g]: the entries of a kernel. *)
Definition slice (l : list sv) (g : group) : list sv :=
  firstn (N.to_nat (g_end g) - N.to_nat (g_start g)) (skipn (N.to_nat (g_start g)) l).
(** The kernels cover the positions [a] to [n] without gaps or overlaps. *)
Fixpoint tiles (a n : N) (gs : list group) : Prop :=
  match gs with
  | [] => a = n
  | g :: r => g_start g = a /\ a < g_end g /\ tiles (g_end g) n r
  end.
