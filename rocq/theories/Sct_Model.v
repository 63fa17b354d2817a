(** Plain scatters and scatter-reductions as operations of whole programs: which array they
    write to and when.  op.cpp:2826-3086 (jitc_var_infer_reduce_mode, jitc_var_scatter),
    var.cpp:1199-1340 (new nodes evaluate dirty operands), 1543-1612 (jitc_var_eval_force,
    jitc_var_data), 1713-1728 (jitc_var_eval), 1880-1926 (jitc_var_copy), 2866-2931
    (jitc_var_expand), eval.cpp:159-166, 1033-1150 (evaluation).

    Simplifications: one type of elements; reference counts are computed from the slots of
    the program and the graph instead of being maintained (C01); value numbering only shows
    as additional references ([share]); no mask stack, loops, or calls; the copies of an
    expanded array are not represented: either they are all combined when an evaluation ends
    (C24), or the contributions of all threads but one are lost; gathers evaluate their
    source unless it is a literal (C12); no modes Permute and NoConflicts; sizes are not
    zero. *)
From Verif Require Import Base.

Inductive rop := RId | RAdd | RMin | RMax.
Definition rop_eqb (a b : rop) : bool :=
  match a, b with RId, RId | RAdd, RAdd | RMin, RMin | RMax, RMax => true | _, _ => false end.

Section Sct.
Context {V : Type}.
Variable veq : V -> V -> bool.       (* equality of literals *)
Variable zero : V.
Variable red : rop -> V -> V -> V.   (* element, contribution; RId: the contribution *)
Variable to_idx : V -> nat.
Variable truth : V -> bool.
Variable llvm : bool.

(** A variable: a literal, a memory region, an unevaluated node, a gather *)
Inductive kind := KLit (x : V) | KMem (b : nat) | KNode (f : list V -> V) (args : list nat) | KGather (src idx msk : nat).
(** [v_ex]: Variable::reduce_op of an expanded array *)
Record var := { v_k : kind; v_n : nat; v_ex : option rop }.
(** A scatter that was not evaluated yet: target, its memory region, operands, lanes; [s_x]:
    each thread writes to its own copy of the target; [s_c]: has the callback that combines
    the copies (op.cpp:3053-3075) *)
Record scat := { s_t : nat; s_b : nat; s_op : rop; s_v : nat; s_i : nat; s_m : nat; s_n : nat; s_x : bool; s_c : bool }.
Record mst := { vars : list var; bufs : nat -> nat -> V; nb : nat; slots : list (option nat); pend : list scat; evs : nat }.
Inductive res (A : Type) := Ok (x : A) | Raise | Abort | Race.
Arguments Ok {A}. Arguments Raise {A}. Arguments Abort {A}. Arguments Race {A}.
Definition rbind {A B} (r : res A) (f : A -> res B) : res B :=
  match r with Ok x => f x | Raise => Raise | Abort => Abort | Race => Race end.
Notation "'let!' x := e 'in' b" := (rbind e (fun x => b)) (at level 200, x pattern, right associativity).

Definition deps (v : var) : list nat := match v_k v with KNode _ args => args | KGather s i m => [s; i; m] | _ => [] end.
Definition dflt : var := {| v_k := KLit zero; v_n := 1; v_ex := None |}.
Definition getv (vs : list var) (h : nat) : var := nth h vs dflt.
(** Scalars are broadcast *)
Definition bc (n k : nat) : nat := if Nat.eqb n 1 then 0 else k.
(** What the code of a kernel computes for a variable in a lane *)
Fixpoint den (fuel : nat) (vs : list var) (bs : nat -> nat -> V) (h k : nat) : V :=
  match fuel with
  | O => zero
  | S fuel =>
      let at_ a := den fuel vs bs a (bc (v_n (getv vs a)) k) in
      match v_k (getv vs h) with
      | KLit x => x
      | KMem b => bs b k
      | KNode f args => f (map at_ args)
      | KGather s i m => if truth (at_ m) then den fuel vs bs s (to_idx (at_ i)) else zero
      end
  end.
Definition value (st : mst) (h k : nat) : V := den (length (vars st)) (vars st) (bufs st) h k.
(** Operands of operands ... *)
Fixpoint below (fuel : nat) (vs : list var) (h : nat) : list nat :=
  match fuel with O => [] | S fuel => flat_map (fun d => d :: below fuel vs d) (deps (getv vs h)) end.
Definition cone (st : mst) (h : nat) : list nat := h :: below (length (vars st)) (vars st) h.

Definition mem (h : nat) (l : list nat) : bool := existsb (Nat.eqb h) l.
Definition operands (s : scat) : list nat := [s_v s; s_i s; s_m s].
Definition held (st : mst) : list nat := flat_map (fun o => match o with Some h => [h] | None => [] end) (slots st).
(** References from inside *)
Definition internal (st : mst) : list nat :=
  flat_map (below (length (vars st)) (vars st)) (held st ++ flat_map operands (pend st)) ++ flat_map operands (pend st).
Definition dirty (st : mst) (h : nat) : bool := mem h (map s_t (pend st)).

(** ** Evaluation *)
Record upd := { u_b : nat; u_i : nat; u_op : rop; u_v : V }.
Definition updates (st : mst) (s : scat) : list upd :=
  flat_map (fun l =>
    let at_ h := value st h (bc (v_n (getv (vars st) h)) l) in
    if truth (at_ (s_m s)) then [ {| u_b := s_b s; u_i := to_idx (at_ (s_i s)); u_op := s_op s; u_v := at_ (s_v s) |} ] else []) (seq 0 (s_n s)).
Definition apply (bs : nat -> nat -> V) (u : upd) : nat -> nat -> V :=
  fun b j => if Nat.eqb b (u_b u) && Nat.eqb j (u_i u) then red (u_op u) (bs b j) (u_v u) else bs b j.
(** The memory operations of all kernels of an evaluation happen in some order *)
Variable sh : nat -> list upd -> list upd.
(** Is the update done by the thread whose copy is the array itself? *)
Variable own : nat -> upd -> bool.
(** Nothing combines the copies *)
Definition stray (l : list scat) (s : scat) : bool := s_x s && negb (existsb (fun s' => s_c s' && Nat.eqb (s_t s') (s_t s)) l).
Definition effect (st : mst) (l : list scat) (s : scat) : list upd :=
  if stray l s then filter (own (evs st)) (updates st s) else updates st s.
(** eval.cpp:159-166 *)
Definition elided (st : mst) (s : scat) : bool := negb (mem (s_t s) (held st ++ internal st)).
(** A kernel must not read what another part of the evaluation writes *)
Definition reads (st : mst) (h : nat) : list nat :=
  flat_map (fun d => match v_k (getv (vars st) d) with KMem b => [b] | _ => [] end) (cone st h).
(** jitc_eval; [roots]: scheduled variables.  Expanded arrays are combined afterwards. *)
Definition finish (ts : list nat) (h : nat) (v : var) : var := if mem h ts then {| v_k := v_k v; v_n := v_n v; v_ex := None |} else v.
Fixpoint mapi {A B} (f : nat -> A -> B) (i : nat) (l : list A) : list B := match l with [] => [] | x :: l => f i x :: mapi f (S i) l end.
(** eval.cpp:425: a variable with pending side effects is part of a kernel *)
Definition blocked (st : mst) (roots : list nat) (l : list scat) : bool :=
  existsb (dirty st) (flat_map (cone st) (roots ++ flat_map operands l)).
Definition eval_roots (st : mst) (roots : list nat) : res mst :=
  let l := filter (fun s => negb (elided st s)) (pend st) in
  if blocked st roots l then Abort
  else if existsb (fun b => mem b (map s_b l)) (flat_map (reads st) (roots ++ flat_map operands l)) then Race
  else Ok {| vars := mapi (finish (map s_t (filter s_c l))) 0 (vars st);
             bufs := fold_left apply (sh (evs st) (flat_map (effect st l) l)) (bufs st);
             nb := nb st; slots := slots st; pend := []; evs := S (evs st) |}.
Definition eval (st : mst) : res mst := eval_roots st [].
(** A new variable / memory region *)
Definition new (st : mst) (v : var) : mst * nat :=
  ({| vars := vars st ++ [v]; bufs := bufs st; nb := nb st; slots := slots st; pend := pend st; evs := evs st |}, length (vars st)).
Definition new_mem (st : mst) (n : nat) (ex : option rop) (c : nat -> V) : mst * nat :=
  ({| vars := vars st ++ [ {| v_k := KMem (nb st); v_n := n; v_ex := ex |} ]; bufs := fun b => if Nat.eqb b (nb st) then c else bufs st b;
      nb := S (nb st); slots := slots st; pend := pend st; evs := evs st |}, length (vars st)).
Definition is_node (v : var) : bool := match v_k v with KNode _ _ | KGather _ _ _ => true | _ => false end.
(** The scheduled node becomes a memory region *)
Definition store (st : mst) (h : nat) (c : nat -> V) : mst :=
  {| vars := set_nth h {| v_k := KMem (nb st); v_n := v_n (getv (vars st) h); v_ex := None |} (vars st);
     bufs := fun b => if Nat.eqb b (nb st) then c else bufs st b;
     nb := S (nb st); slots := slots st; pend := pend st; evs := evs st |}.
(** jitc_var_eval *)
Definition eval_var (st : mst) (h : nat) : res mst :=
  if is_node (getv (vars st) h) then let! st' := eval_roots st [h] in Ok (store st' h (value st h))
  else if dirty st h then eval st else Ok st.
(** New nodes: dirty operands are evaluated first *)
Definition clean (st : mst) (hs : list nat) : res mst := if existsb (dirty st) hs then eval st else Ok st.

(** ** Slots *)
Definition slot (st : mst) (x : nat) : res nat := match nth_error (slots st) x with Some (Some h) => Ok h | _ => Raise end.
Definition put (st : mst) (x : nat) (o : option nat) : res mst :=
  if Nat.ltb x (length (slots st)) then Ok {| vars := vars st; bufs := bufs st; nb := nb st; slots := set_nth x o (slots st); pend := pend st; evs := evs st |}
  else Raise.
Fixpoint slots_of (st : mst) (xs : list nat) : res (list nat) :=
  match xs with [] => Ok [] | x :: xs => let! h := slot st x in let! hs := slots_of st xs in Ok (h :: hs) end.
(** op.cpp:77-224 *)
Definition size_of (st : mst) (hs : list nat) : res nat :=
  let ns := map (fun h => v_n (getv (vars st) h)) hs in
  let n := list_max ns in if forallb (fun m => Nat.eqb m n || Nat.eqb m 1) ns then Ok n else Raise.

(** ** Scatter, op.cpp:2899-3086.  [expand]: the target is to be expanded (LLVM with several
    workers, mode Expand or a small target); [share]: further references to the target *)
Definition lit (st : mst) (h : nat) : option V := match v_k (getv (vars st) h) with KLit x => Some x | _ => None end.
Definition is_lit (st : mst) (h : nat) (p : V -> bool) : bool := match lit st h with Some x => p x | None => false end.
(** jitc_var_copy *)
Definition copy (st : mst) (h : nat) : res (mst * nat) :=
  let! st := (if dirty st h then eval_var st h else Ok st) in
  let v := getv (vars st) h in
  Ok (match v_k v with
      | KMem b => new_mem st (v_n v) None (bufs st b)
      | KLit x => new st {| v_k := KLit x; v_n := v_n v; v_ex := None |}
      | _ => new st {| v_k := KNode (fun l => nth 0 l zero) [h]; v_n := v_n v; v_ex := None |}
      end).
(** jitc_var_data(.., false, ..) *)
Definition data (st : mst) (h : nat) : res (mst * nat) :=
  let v := getv (vars st) h in
  match v_k v with
  | KMem _ => Ok (st, h)
  | KLit x => Ok (new_mem st (v_n v) None (fun _ => x))
  | _ => let! st := eval_var st h in Ok (st, h)
  end.
(** jitc_var_expand: the contents are copied as they are *)
Definition expand_var (st : mst) (h : nat) (o : rop) : res (mst * nat) :=
  match v_ex (getv (vars st) h) with
  | Some o' => if rop_eqb o o' then Ok (st, h) else Raise
  | None =>
      let! (st, d) := data st h in
      match v_k (getv (vars st) d) with
      | KMem b => Ok (new_mem st (v_n (getv (vars st) d)) (Some o) (bufs st b))
      | _ => Raise
      end
  end.
(** 2826-2897; also: do threads write to copies, is this the first such scatter *)
Definition infer (st : mst) (h : nat) (o : rop) (expand : bool) : res (mst * nat * bool * bool) :=
  let ex := v_ex (getv (vars st) h) in
  if match ex with Some o' => negb (rop_eqb o o') | None => false end then Raise
  else if negb (rop_eqb o RId) && expand
  then let! (st, t) := expand_var st h o in Ok (st, t, true, match ex with None => true | Some _ => false end)
  else Ok (st, h, false, false).
Definition count (h : nat) (l : list nat) : nat := length (filter (Nat.eqb h) l).
(** ref_count > 2, where the function itself holds one reference to the target, and one to the index *)
Definition shared (st : mst) (h i : nat) (share : bool) : bool :=
  Nat.ltb 1 (count h (held st)) || mem h (internal st) || Nat.eqb h i || share.
Definition scatter (st : mst) (t v i m : nat) (o : rop) (expand share : bool) : res (mst * nat) :=
  let! n := size_of st [v; i; m] in
  if rop_eqb o RId && is_lit st v (fun x => is_lit st t (veq x)) then Ok (st, t)
  else if is_lit st m (fun x => negb (truth x)) then Ok (st, t)
  else if rop_eqb o RAdd && is_lit st v (veq zero) then Ok (st, t)
  else
    let! st := (if dirty st t && rop_eqb o RId then eval_var st t else Ok st) in
    let! (st, t) := (if shared st t i share then copy st t else Ok (st, t)) in
    let! (st, t, sx, sc) := infer st t o expand in
    let! (st, t) := data st t in
    match v_k (getv (vars st) t) with
    | KMem b =>
        (* the pointer makes the target dirty; new nodes from here on *)
        if Nat.eqb t m && llvm then Raise            (* jitc_var_mask_apply: and *)
        else
          let! st := (if existsb (dirty st) [v; i; m] || Nat.eqb t v || Nat.eqb t m then eval st else Ok st) in
          if Nat.eqb t v then Raise                  (* jitc_var_new_node_4 *)
          else Ok ({| vars := vars st; bufs := bufs st; nb := nb st; slots := slots st;
                      pend := pend st ++ [ {| s_t := t; s_b := b; s_op := o; s_v := v; s_i := i; s_m := m; s_n := n; s_x := sx; s_c := sc |} ];
                      evs := evs st |}, t)
    | _ => Raise
    end.

(** ** Programs *)
Inductive op :=
| OMem (x n : nat) (c : nat -> V) | OLit (x n : nat) (c : V)
| ONode (x : nat) (f : list V -> V) (args : list nat)
| OGather (x s i m : nat)
| OScatter (x v i m : nat) (o : rop) (expand share : bool)
| OEval | ORead (x : nat) | OCopy (x y : nat) | ODrop (x : nat).
(** Result: what was read *)
Definition step (st : mst) (p : op) : res (mst * list (list V)) :=
  match p with
  | OMem x n c => if Nat.eqb n 0 then Raise else let '(st, h) := new_mem st n None c in let! st := put st x (Some h) in Ok (st, [])
  | OLit x n c => if Nat.eqb n 0 then Raise else let '(st, h) := new st {| v_k := KLit c; v_n := n; v_ex := None |} in let! st := put st x (Some h) in Ok (st, [])
  | ONode x f args =>
      let! hs := slots_of st args in
      match hs with
      | [] => Raise
      | _ =>
          let! n := size_of st hs in
          let! st := clean st hs in
          let '(st, h) := new st {| v_k := KNode f hs; v_n := n; v_ex := None |} in
          let! st := put st x (Some h) in Ok (st, [])
      end
  | OGather x s i m =>
      let! s := slot st s in let! i := slot st i in let! m := slot st m in
      let! n := size_of st [i; m] in
      let! st := clean st [s; i] in
      let! st := eval_var st s in
      let! st := clean st [s; i; m] in
      let '(st, h) := new st {| v_k := KGather s i m; v_n := n; v_ex := None |} in
      let! st := put st x (Some h) in Ok (st, [])
  | OScatter x v i m o expand share =>
      let! t := slot st x in let! v := slot st v in let! i := slot st i in let! m := slot st m in
      let! (st, t) := scatter st t v i m o expand share in
      let! st := put st x (Some t) in Ok (st, [])
  | OEval => let! st := eval st in Ok (st, [])
  | ORead x =>
      let! h := slot st x in
      let! st := eval_var st h in
      Ok (st, [map (value st h) (seq 0 (v_n (getv (vars st) h)))])
  | OCopy x y => let! h := slot st y in let! st := put st x (Some h) in Ok (st, [])
  | ODrop x => let! st := put st x None in Ok (st, [])
  end.
Fixpoint run (st : mst) (ps : list op) : res (mst * list (list V)) :=
  match ps with
  | [] => Ok (st, [])
  | p :: ps => let! (st, o) := step st p in let! (st, os) := run st ps in Ok (st, o ++ os)
  end.
Definition init (n : nat) : mst :=
  {| vars := []; bufs := fun _ _ => zero; nb := 0; slots := repeat None n; pend := []; evs := 0 |}.
End Sct.
Arguments Ok {A}. Arguments Raise {A}. Arguments Abort {A}. Arguments Race {A}.
