(** What a client of jit_malloc/jit_free may rely on, phrased over the visible
    history only: requests, returned pointers, releases. *)
From Verif Require Import Base Alloc_Model.
Local Open Scope N_scope.

(** The visible history of a run. *)
Fixpoint a_trace (s : ast) (es : list aev) : list (aev * aout) :=
  match es with
  | [] => []
  | e :: r => match a_step s e with
              | AOk s' o => (e, o) :: a_trace s' r
              | _ => []
              end
  end.

(** Client-side bookkeeping: [held] lists the blocks (address, requested bytes)
    the client owns, [asked] the sizes of requests under way (newest first). *)
Record client := mkC { held : list (N * N); asked : list N }.

Definition apart (p n q m : N) : Prop := p + n <= q \/ q + m <= p.

Definition drop_nth {A} (n : nat) (l : list A) : list A := firstn n l ++ skipn (S n) l.

(** [accept c e o c']: output [o] of event [e] is acceptable to a client in
    situation [c], which continues in situation [c']. *)
Inductive accept : client -> aev -> aout -> client -> Prop :=
| acc_zero c vw b sh d : accept c (EReuse vw b 0 sh d) (APtr 0) c
| acc_reuse c vw b size sh d p :
    0 < size -> p <> 0 ->
    (forall q m, In (q, m) (held c) -> p <> q /\ apart p size q m) ->
    accept c (EReuse vw b size sh d) (APtr p) (mkC ((p, size) :: held c) (asked c))
| acc_ask c vw b size sh d r1 r2 :
    accept c (EOsAlloc vw b size sh d r1 r2) AUnit (mkC (held c) (size :: asked c))
| acc_grant c n size p :
    nth_error (asked c) n = Some size -> p <> 0 ->
    (forall q m, In (q, m) (held c) -> p <> q /\ apart p size q m) ->
    accept c (ECommit n) (APtr p) (mkC ((p, size) :: held c) (drop_nth n (asked c)))
| acc_deny c n size :
    nth_error (asked c) n = Some size ->
    accept c (ECommit n) ARaise (mkC (held c) (drop_nth n (asked c)))
| acc_free_null c ts tid : accept c (EFree 0 ts tid) AUnit c
| acc_free c p ts tid h1 m h2 :
    held c = h1 ++ (p, m) :: h2 -> p <> 0 ->
    accept c (EFree p ts tid) AUnit (mkC (h1 ++ h2) (asked c))
| acc_free_unknown c p ts tid :
    ~ In p (map fst (held c)) -> p <> 0 -> accept c (EFree p ts tid) ARaise c
| acc_move_null c d : accept c (EMove 0 d) (APtr 0) c
| acc_move c p d : In p (map fst (held c)) -> p <> 0 -> accept c (EMove p d) (APtr p) c
| acc_move_unknown c p d : ~ In p (map fst (held c)) -> p <> 0 -> accept c (EMove p d) ARaise c
| acc_internal c e :
    match e with ETake _ | ERelease _ | EFlush | EOsFree _ | EFlushStats _ | EClearStats => True
               | _ => False end ->
    accept c e AUnit c.

Inductive accepts : client -> list (aev * aout) -> client -> Prop :=
| accs_nil c : accepts c [] c
| accs_cons c e o c1 t c2 : accept c e o c1 -> accepts c1 t c2 -> accepts c ((e, o) :: t) c2.
