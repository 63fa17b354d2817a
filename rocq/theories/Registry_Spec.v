(** Specification of the instance registry: a finite set of registrations. *)
From Verif Require Import Base Registry_Model.
Local Open Scope N_scope.

(** [live]: (pointer, (key, id)); [gone]: pointers whose registration was
    invalidated by a clear but which were not removed yet. *)
Record sreg := mkS { live : list (N * (key * N)); gone : list N }.

Definition in_use (s : sreg) (k : key) (n : N) : Prop := exists p, In (p, (k, n)) (live s).

Definition lowest_free (s : sreg) (k : key) (n : N) : Prop :=
  0 < n /\ ~ in_use s k n /\ forall m, 0 < m < n -> in_use s k m.

Definition largest (s : sreg) (k : key) (n : N) : Prop :=
  (forall m, in_use s k m -> m <= n) /\ (n = 0 \/ in_use s k n).

Definition known (s : sreg) (p : N) : Prop := In p (map fst (live s)) \/ In p (gone s).

Inductive sp_reg : sreg -> rop -> rout -> sreg -> Prop :=
| sp_put_dup s k p : known s p -> sp_reg s (Put k p) ORaise s
| sp_put s k p n : ~ known s p -> lowest_free s k n ->
    sp_reg s (Put k p) (OId n) (mkS ((p, (k, n)) :: live s) (gone s))
| sp_remove s p x l1 l2 : live s = l1 ++ (p, x) :: l2 ->
    sp_reg s (Remove p) OUnit (mkS (l1 ++ l2) (gone s))
| sp_remove_gone s p g1 g2 : gone s = g1 ++ p :: g2 -> ~ In p (map fst (live s)) ->
    sp_reg s (Remove p) OUnit (mkS (live s) (g1 ++ g2))
| sp_remove_unknown s p : ~ known s p -> sp_reg s (Remove p) OFail s
| sp_id_null s : sp_reg s (Id 0) (OId 0) s
| sp_id s p k n : In (p, (k, n)) (live s) -> p <> 0 -> sp_reg s (Id p) (OId n) s
| sp_id_gone s p : In p (gone s) -> ~ In p (map fst (live s)) -> p <> 0 -> sp_reg s (Id p) (OId 0) s
| sp_id_unknown s p : ~ known s p -> p <> 0 -> sp_reg s (Id p) ORaise s
| sp_bound s k n : largest s k n -> sp_reg s (Bound k) (OId n) s
| sp_all s k ws :
    (forall i p, In (i, p) ws <-> In (p, (k, i + 1)) (live s)) -> NoDup (map fst ws) ->
    sp_reg s (All k) (OAll ws) s
| sp_ptr s k n p : In (p, (k, n)) (live s) -> sp_reg s (PtrOf k n) (OPtr p) s
| sp_ptr_none s k n o : ~ in_use s k n -> (o = OPtr 0 \/ (n <> 0 /\ o = ORaise)) ->
    sp_reg s (PtrOf k n) o s
| sp_peek s k n p : largest s k n -> In (p, (k, n)) (live s) -> sp_reg s (Peek k) (OPtr p) s
| sp_peek_none s k : (forall n, ~ in_use s k n) -> sp_reg s (Peek k) (OPtr 0) s
| sp_clear s : sp_reg s Clear OUnit (mkS [] (map fst (live s) ++ gone s)).

(** Histories; an abort ends them. *)
Inductive sp_hist : sreg -> list rop -> list rout -> Prop :=
| sh_nil s : sp_hist s [] []
| sh_fail s o t s' : sp_reg s o OFail s' -> sp_hist s (o :: t) [OFail]
| sh_cons s o x s' t xs : sp_reg s o x s' -> x <> OFail -> sp_hist s' t xs -> sp_hist s (o :: t) (x :: xs).
