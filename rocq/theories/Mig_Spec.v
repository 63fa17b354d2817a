(** What a client of jit_var_migrate relies on *)
From Verif Require Import Base Mig_Model.

(** Memory after all submitted work *)
Definition final (be : backend) (s : state) : option memory := run be (mem s) (queue s).

(** Elements of a variable, given the final memory *)
Definition elements (m : memory) (v : var) (l : list Z) : Prop :=
  match v_con v with
  | Lit z => l = repeat z (v_len v)
  | Undef => length l = v_len v
  | Expr e => l = e
  | Mem b puts => exists x, m b = Some x /\
      l = firstn (v_len v) (fold_left (fun d p => set_nth (fst p) (snd p) d) puts (b_data x))
  end.

(** Blocks that an action mentions, and which it changes *)
Definition mentions (a : action) : list nat :=
  match a with ASet b _ | APut b _ _ => [b] | ACopy d s => [d; s] end.
Definition target (a : action) : nat := match a with ASet b _ | APut b _ _ => b | ACopy d _ => d end.

(** States: work and variables refer to existing memory *)
Definition sane (s : state) : Prop :=
  (forall a b, In a (queue s) -> In b (mentions a) -> b < next s) /\
  (forall b x, mem s b = Some x -> b < next s).

(** The destination is the host or the backend of the variable; its memory belongs to one of
    these; memory of the host (backend None) has no unfinished work, if Dr.Jit allocated it *)
Definition legal (be : backend) (s : state) (v : var) (dst : dest) : Prop :=
  v_be v = be /\ (dst = DNone \/ dst = DBe be) /\
  match v_con v with
  | Mem b puts => exists x, mem s b = Some x /\ (b_flavor x = Host \/ backend_of (b_flavor x) = DBe be) /\
      (kernel_ok be (b_flavor x) = true \/ puts = []) /\
      (b_own x = true -> b_flavor x = Host -> puts = [] /\ forall a, In a (queue s) -> target a <> b)
  | Expr l => length l = v_len v
  | _ => True
  end.

(** Where the result may be used: by the host, or by kernels of the backend *)
Definition usable (d : dest) (f : flavor) : bool :=
  match d with DNone => host_ok f | DBe b => kernel_ok b f end.

(** Result: a variable in memory of its own, with the same elements, that can be used at the
    destination; everything else remains *)
Definition migrated (be : backend) (s : state) (m : memory) (v : var) (dst : dest) (s' : state) (v' : var) : Prop :=
  v_be v' = be /\ v_len v' = v_len v /\
  exists m' n x, final be s' = Some m' /\ v_con v' = Mem n [] /\ next s <= n < next s' /\
    m' n = Some x /\ usable dst (b_flavor x) = true /\
    (v_con v <> Undef -> forall l, elements m v l -> elements m' v' l) /\
    (* pending scatters are done *)
    (forall b y, b < next s -> m b = Some y ->
       exists y', m' b = Some y' /\ b_flavor y' = b_flavor y /\
         b_data y' = match v_con v with
                     | Mem c puts => if Nat.eqb b c then fold_left (fun d p => set_nth (fst p) (snd p) d) puts (b_data y) else b_data y
                     | _ => b_data y
                     end).
