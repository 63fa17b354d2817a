(** Collection of the variables needed by an evaluation: src/eval.cpp, jitc_var_traverse and
    the first part of jitc_eval_impl.

    Simplifications: nodes are positions in a list; the reference taken for each scheduled
    variable is not counted here; recursion uses fuel (shown to suffice); nesting depths do
    not wrap; what [jitc_elide_scatter] answers is part of the node. *)
From Verif Require Import Base Sched_Model.
Local Open Scope nat_scope.

(** What the switch in jitc_var_traverse (eval.cpp:176-319) distinguishes. *)
Inductive kind :=
| Plain                                      (* default; CallGetter; CoopVecMatVec *)
| Scatter (elide : bool)                     (* the answer of jitc_elide_scatter *)
| ArrayWrite (buffer : nat)                  (* jitc_array_buffer *)
| LoopPhi (data : option (nat * nat))        (* outer_in[literal], inner_out[literal]; None: optimized away *)
| LoopOutput (data : option (nat * nat * nat)) (* inner_out, outer_in, inner_in *)
| CallInput
| Call (optimize : bool) (outer_in inner_out side_effects : list nat)
| CallOutput (inner_out : list nat)          (* inner_out[literal + i * n_out] for every instance i *)
| Listed (l : list nat).                     (* CoopVecPack without zeros, TraceRay, PacketScatter, Tex*, ScatterCAS *)

Record node := mkNode {
  n_kind : kind;
  n_dep : list nat;            (* Variable::dep up to the first zero *)
  n_scope : N;
  n_consumed : bool }.

Record st := mkSt {
  scratch : nat -> N;          (* Variable::scratch *)
  sched : list sv;             (* schedule *)
  later : list (nat * nat) }.  (* visit_later: index, depth *)

Inductive res := Done (s : st) | Raised (s : st) | Bad | Fuel.

Definition fset (f : nat -> N) (i : nat) (x : N) : nat -> N := fun j => if j =? i then x else f j.
Definition mark (s : st) (i : nat) (x : N) : st := mkSt (fset (scratch s) i x) (sched s) (later s).
Definition push (s : st) (size : N) (v : node) (i : nat) : st :=
  mkSt (scratch s) (sched s ++ [mkSv size (n_scope v) (N.of_nat i)]) (later s).
Definition defer (s : st) (i d : nat) : st := mkSt (scratch s) (sched s) (later s ++ [(i, d)]).

Inductive action := Visit (i d : nat) | Defer (i d : nat).

(** eval.cpp:176-319, the recursive calls of the switch; [None]: raises *)
Definition prelude (v : node) (d : nat) : option (list action) :=
  match n_kind v with
  | ArrayWrite b => Some [Visit b d]
  | LoopPhi None | LoopOutput None => None
  | LoopPhi (Some (outer, inner)) => Some [Visit outer d; Defer inner d]
  | LoopOutput (Some (io, oi, ii)) => Some [Visit io d; Visit oi d; Visit ii d]
  | Call optimize outer inner se =>
      Some ((if optimize then [] else map (fun i => Visit i d) outer ++ map (fun i => Visit i (S d)) inner)
            ++ map (fun i => Visit i (S d)) se)
  | CallOutput inner => Some (map (fun i => Visit i (S d)) inner)
  | Listed l => Some (map (fun i => Visit i d) l)
  | _ => Some []
  end.
(** eval.cpp:321-326 *)
Definition deps (v : node) (d : nat) : list action := map (fun i => Visit i d) (n_dep v).

Fixpoint run_actions (visit : nat -> nat -> st -> res) (l : list action) (s : st) : res :=
  match l with
  | [] => Done s
  | Defer i d :: r => run_actions visit r (defer s i d)
  | Visit i d :: r => match visit i d s with Done s => run_actions visit r s | x => x end
  end.

(** eval.cpp:171 *)
Definition stamp (gen : N) (d : nat) : N := N.lor (N.shiftl gen 1) (if d =? 0 then 1%N else 0%N).

Section Traverse.
Variable g : list node.

(** eval.cpp:169-347 *)
Fixpoint traverse (fuel : nat) (gen size : N) (i d : nat) (s : st) : res :=
  match fuel with
  | O => Fuel
  | S fuel =>
      match nth_error g i with
      | None => Bad
      | Some v =>
          let t := stamp gen d in
          if ((scratch s i =? t) || (negb (d =? 0)%nat && (scratch s i =? N.lor t 1)))%N%bool then Done s
          else
            let s := mark s i t in
            match n_kind v, n_dep v with
            | Scatter true, _ => Done s
            | CallInput, deps =>
                match d, deps with
                | O, _ => Done (push s size v i)
                | S d, j :: _ => traverse fuel gen size j d s
                | S d, [] => Bad
                end
            | _, _ =>
                match prelude v d with
                | None => Raised s
                | Some l =>
                    match run_actions (traverse fuel gen size) (l ++ deps v d) s with
                    | Done s =>
                        if n_consumed v then Raised s
                        else if d =? 0 then Done (push s size v i) else Done s
                    | x => x
                    end
                end
            end
      end
  end.

(** eval.cpp:1092-1093, roots of one size *)
Fixpoint traverse_roots (fuel : nat) (gen size : N) (l : list nat) (s : st) : res :=
  match l with
  | [] => Done s
  | i :: r => match traverse fuel gen size i 0 s with Done s => traverse_roots fuel gen size r s | x => x end
  end.
(** eval.cpp:1097-1101: positions [k] onwards of the growing list *)
Fixpoint traverse_later (iter fuel : nat) (gen size : N) (k : nat) (s : st) : res :=
  match nth_error (later s) k with
  | None => Done (mkSt (scratch s) (sched s) [])
  | Some (i, d) =>
      match iter with
      | O => Fuel
      | S iter =>
          match traverse fuel gen size i d s with
          | Done s => traverse_later iter fuel gen size (S k) s
          | x => x
          end
      end
  end.

(** eval.cpp:93-100 jitc_visit_new_gen *)
Definition new_gen (gen : N) (s : st) : N * st :=
  if (gen =? 0x7fffffff)%N then (1%N, mkSt (fun _ => 0%N) (sched s) (later s)) else ((gen + 1)%N, s).

(** eval.cpp:23-28 EvalTask *)
Record task := mkTask { t_size : N; t_index : nat; t_effect : bool }.
(** eval.cpp:1077-1082 *)
Definition less_task (a b : task) : bool :=
  if (t_size a =? t_size b)%N then negb (t_effect a) && t_effect b else (t_size b <? t_size a)%N.

(** the tasks of the same size as the first one, the remaining ones *)
Fixpoint span (size : N) (l : list task) : list task * list task :=
  match l with
  | [] => ([], [])
  | t :: r => if (t_size t =? size)%N then let '(a, b) := span size r in (t :: a, b) else ([], l)
  end.
(** eval.cpp:1084-1105 *)
Fixpoint groups (fuel : nat) (iter : nat) (gen : N) (l : list task) (s : st) : res * N :=
  match l, iter with
  | [], _ => (Done s, gen)
  | _, O => (Fuel, gen)
  | t :: _, S iter =>
      let size := t_size t in
      let '(gen, s) := new_gen gen s in
      let '(a, b) := span size l in
      match traverse_roots fuel gen size (map t_index a) s with
      | Done s =>
          match traverse_later fuel fuel gen size 0 s with
          | Done s => groups fuel iter gen b s
          | x => (x, gen)
          end
      | x => (x, gen)
      end
  end.
(** eval.cpp:1033-1105 from the collected tasks to the unordered schedule; enough fuel:
    [S (2 * number of nodes)] *)
Definition collect (stable_sort : (task -> task -> bool) -> list task -> list task) (gen : N)
    (scratch0 : nat -> N) (tasks : list task) : res * N :=
  groups (S (2 * length g)) (length tasks) gen (stable_sort less_task tasks) (mkSt scratch0 [] []).

(** eval.cpp:411-446: the checks of jitc_assemble that raise; [l]: entries of one kernel *)
Definition scopes_ok (l : list sv) : bool :=
  forallb (fun x => match nth_error g (N.to_nat (sv_index x)) with
                    | None => false
                    | Some v => forallb (fun j => match nth_error g j with
                                                  | None => false
                                                  | Some w => (n_scope w <=? n_scope v)%N
                                                  end) (n_dep v)
                    end) l.
End Traverse.
