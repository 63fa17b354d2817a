(** What a client of jit_var_call_reduce relies on *)
From Verif Require Import Base Par_Model Registry_Model Registry_Spec Crd_Model.
Local Open Scope N_scope.

(** Positions of the value [id] in an array, in order *)
Definition positions (xs : list N) (id : N) : list N :=
  filter (fun i => nth (N.to_nat i) xs 0 =? id) (range_lt 0 (N.of_nat (length xs))).

(** Instance [id] of the domain: pointer, 0 if there is none *)
Definition instance (rs : sreg) (t : target) (id p : N) : Prop :=
  match t with
  | Upto _ => p = 0
  | Domain k => In (p, (k, id)) (live rs) \/ (~ in_use rs k id /\ p = 0)
  end.

(** The buckets (pointer, id, positions) of array [xs] *)
Record splits (rs : sreg) (t : target) (xs : list N) (bs : list (N * N * list N)) : Prop := {
  sp_ids : NoDup (map (fun b => snd (fst b)) bs);
  sp_each : forall p id l, In (p, id, l) bs ->
     l = positions xs id /\ l <> [] /\ instance rs t id p;
  sp_all : forall x, In x xs -> In x (map (fun b => snd (fst b)) bs);
  sp_order : StronglySorted (fun b c => (length (snd c) <= length (snd b))%nat) bs
}.

(** The client: references it owns; (i, j) in [c_lent]: [j] is the variable of a bucket
    of [i]; values of variables; for each array, domain, contents and registrations at
    its first jit_var_call_reduce; registrations. *)
Record client := {
  c_held : list nat;
  c_lent : list (nat * nat);
  c_val : nat -> list N;
  c_first : nat -> option (target * list N * sreg);
  c_reg : sreg
}.

Definition start : client :=
  {| c_held := []; c_lent := []; c_val := fun _ => []; c_first := fun _ => None; c_reg := mkS [] [] |}.

Definition count (i : nat) (l : list nat) : nat := count_occ Nat.eq_dec l i.

(** Largest value that jit_var_call_reduce expects *)
Definition limit (rs : sreg) (t : target) (n : N) : Prop :=
  match t with Upto m => n = m | Domain k => largest rs k n end.

(** Clients use variables that they own or (to acquire them) have been lent; arrays are
    not empty; new queries have values in range; known pointers are removed. *)
Definition legal (c : client) (o : op) : Prop :=
  match o with
  | New xs => xs <> []
  | Inc i => In i (c_held c) \/ exists j, In j (c_held c) /\ In (j, i) (c_lent c)
  | Dec i => In i (c_held c)
  | Write i off _ => In i (c_held c) /\ off < N.of_nat (length (c_val c i))
  | Reduce t i => In i (c_held c) /\
      (c_first c i = None -> forall n, limit (c_reg c) t n ->
         n < 2 ^ 32 - 1 /\ Forall (fun x => x <= n) (c_val c i))
  | Registry r => match r with
                  | Put _ p => p <> 0
                  | Remove p => known (c_reg c) p
                  | Shutdown => False
                  | _ => True
                  end
  end.

Definition fset {A} (f : nat -> A) (i : nat) (x : A) : nat -> A :=
  fun j => if Nat.eqb j i then x else f j.

Fixpoint drop_one (i : nat) (l : list nat) : list nat :=
  match l with [] => [] | j :: r => if Nat.eqb j i then r else j :: drop_one i r end.

(** What a bucket list says, given the contents of its variables *)
Definition view (val : nat -> list N) (b : bucket) : N * N * list N :=
  (b_ptr b, b_id b, val (b_index b)).

(** [effect c o a rd c']: operation [o] with result [a] takes the client from [c] to
    [c']; [rd] is the content of bucket lists. *)
Inductive effect (c : client) (rd : N -> option (list bucket)) : op -> answer -> client -> Prop :=
| ef_new xs i : ~ In i (c_held c) -> (forall j, In j (c_held c) -> ~ In (j, i) (c_lent c)) ->
    effect c rd (New xs) (AVar i)
      {| c_held := i :: c_held c; c_lent := c_lent c; c_val := fset (c_val c) i xs;
         c_first := fset (c_first c) i None; c_reg := c_reg c |}
| ef_inc i : effect c rd (Inc i) ANone
      {| c_held := i :: c_held c; c_lent := c_lent c; c_val := c_val c;
         c_first := c_first c; c_reg := c_reg c |}
| ef_dec i : effect c rd (Dec i) ANone
      {| c_held := drop_one i (c_held c);
         c_lent := if Nat.eqb (count i (c_held c)) 1
                   then filter (fun e => negb (Nat.eqb (fst e) i)) (c_lent c) else c_lent c;
         c_val := c_val c; c_first := c_first c; c_reg := c_reg c |}
| ef_write_here i off x : count i (c_held c) = 1%nat ->
    (forall j, In j (c_held c) -> ~ In (j, i) (c_lent c)) ->
    effect c rd (Write i off x) (AVar i)
      {| c_held := i :: c_held c; c_lent := c_lent c;
         c_val := fset (c_val c) i (set_nth (N.to_nat off) x (c_val c i));
         c_first := c_first c; c_reg := c_reg c |}
| ef_write_copy i off x r : ~ In r (c_held c) -> (forall j, In j (c_held c) -> ~ In (j, r) (c_lent c)) ->
    effect c rd (Write i off x) (AVar r)
      {| c_held := r :: c_held c; c_lent := c_lent c;
         c_val := fset (c_val c) r (set_nth (N.to_nat off) x (c_val c i));
         c_first := fset (c_first c) r None; c_reg := c_reg c |}
| ef_reduce_none t i : c_first c i = None -> limit (c_reg c) t 0 ->
    effect c rd (Reduce t i) (ABuckets None) c
| ef_reduce_new t i a bs val' first' : c_first c i = None -> rd a = Some bs ->
    splits (c_reg c) t (c_val c i) (map (view val') bs) ->
    NoDup (map b_index bs) ->
    (forall b, In b bs -> ~ In (b_index b) (c_held c) /\
       forall j, In j (c_held c) -> ~ In (j, b_index b) (c_lent c)) ->
    (forall j, ~ In j (map b_index bs) -> val' j = c_val c j) ->
    (forall j, first' j = if in_dec Nat.eq_dec j (map b_index bs) then None
                          else if Nat.eqb j i then Some (t, c_val c i, c_reg c) else c_first c j) ->
    effect c rd (Reduce t i) (ABuckets (Some a))
      {| c_held := c_held c; c_lent := map (fun b => (i, b_index b)) bs ++ c_lent c;
         c_val := val'; c_first := first'; c_reg := c_reg c |}
| ef_reduce_again t i a bs t0 xs0 rs0 : c_first c i = Some (t0, xs0, rs0) -> rd a = Some bs ->
    splits rs0 t0 xs0 (map (view (c_val c)) bs) ->
    effect c rd (Reduce t i) (ABuckets (Some a))
      {| c_held := c_held c; c_lent := map (fun b => (i, b_index b)) bs ++ c_lent c;
         c_val := c_val c; c_first := c_first c; c_reg := c_reg c |}
| ef_registry o x rs : sp_reg (c_reg c) o x rs ->
    effect c rd (Registry o) (AReg x)
      {| c_held := c_held c; c_lent := c_lent c; c_val := c_val c; c_first := c_first c; c_reg := rs |}.

(** Arrays of the client, and those lent to it, have the values it expects; nothing is
    left of arrays when the client has released everything. *)
Record good (s : state) (c : client) : Prop := {
  g_held : forall i, In i (c_held c) -> data s i = Some (c_val c i);
  g_lent : forall i j, In i (c_held c) -> In (i, j) (c_lent c) -> data s j = Some (c_val c j);
  g_none : c_held c = [] -> (forall i, get s i = None) /\ (forall a, bufs s a = None) /\
             (forall a, blocks s a = None) /\ cache s = []
}.

(** While an array stays in use, a further jit_var_call_reduce returns the same buckets. *)
Definition kept sort (s : state) (c : client) (s' : state) (c' : client) : Prop :=
  forall i t, In i (c_held c) -> In i (c_held c') -> c_first c i <> None ->
    exists a bs, call_reduce sort s t i = Ret (s, Some a) /\ call_reduce sort s' t i = Ret (s', Some a) /\
      blocks s a = Some bs /\ blocks s' a = Some bs /\
      Forall (fun b => data s' (b_index b) = data s (b_index b)) bs.

(** Histories: no operation fails, hangs or has undefined behaviour as long as the
    client follows the rules. *)
Inductive served sort : state -> client -> list op -> Prop :=
| se_nil s c : good s c -> served sort s c []
| se_cons s c o os : good s c ->
    (legal c o -> exists s' a c', step sort s o = Ret (s', a) /\ effect c (blocks s') o a c' /\
                                  kept sort s c s' c' /\ served sort s' c' os) ->
    served sort s c (o :: os).

Definition sorts (sort : list ibucket -> list ibucket) : Prop :=
  forall l, Permutation (sort l) l /\ StronglySorted (fun e d => snd d <= snd e) (sort l).

Fixpoint run sort (s : state) (os : list op) : out (state * list answer) :=
  match os with
  | [] => Ret (s, [])
  | o :: r => do x <- step sort s o; do y <- run sort (fst x) r; Ret (fst y, snd x :: snd y)
  end.
