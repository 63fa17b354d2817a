(** Virtual function calls: src/call.cpp:297-640 (jitc_var_call), 783-987
    (jitc_var_call_assemble), 990-1096 (jitc_var_call_analyze); src/eval.cpp:209-240,
    1219-1360 (traversal, jitc_assemble_func); src/llvm_eval.cpp:304-505, 1691-1893 and
    src/cuda_eval.cpp:276-457, 1771-2025 (callables and dispatch); src/eval.h:40-74,
    src/llvm_eval.cpp:231-242, src/llvm_orcv2.cpp:118-135, src/llvm_core.cpp:496-541,
    src/cuda_eval.cpp:228-276 (table of callables).  The layout of captured values and the
    shared buffer are those of C29.

    Simplifications: values are bit patterns; a computation is a tree over abstract operations
    (shared nodes are duplicated, C28); side effects only as the calls they happen in;
    no loops around calls; no Metal, OptiX; the default mask of a callable is its active lanes;
    a direct callable names its call even if it reads no call data. *)
From Verif Require Import Base Lay_Model Lay_Spec.
Local Open Scope N_scope.

(** ** Traced computations *)
Inductive expr :=
| EIn (k : nat)                        (* argument of the enclosing callable *)
| EVar (c : N)                         (* evaluated variable *)
| ESelf                                (* instance index of the enclosing callable *)
| ELit (x : N)
| EOp (o : N) (es : list expr)
| EMasked (x : N) (self mask : expr)   (* literal, and(.., mask && self != 0) *)
| ECall (j o : nat) (self mask : expr) (args : list (nat * expr)). (* output [o] of call [j]; arguments: handle, computation *)
(** Call [j]: instances and their outputs; bucket of a captured variable is a property of it *)
Record vcall := {
  k_ids : list N;                      (* inst_id *)
  k_outs : list (list expr);           (* inner_out of each instance *)
  k_nin : nat;
  k_opt : bool;                        (* JitFlag::OptimizeCalls *)
  k_live : nat -> bool;                (* outputs that still exist and are scheduled *)
  k_other : nat -> bool;               (* arguments that the surrounding code also needs *)
  k_refs : nat -> bool;                (* inputs with further references *)
  k_vars : list (list nat * list nat)  (* per instance: handles of captured variables, of the variables in its code *)
}.
Definition n_inst (c : vcall) : nat := length (k_ids c).

(** 536-560: an output that is the same literal for all instances; [same]: literals with
    equal values are one variable *)
Definition lit_of (e : expr) : option N := match e with ELit x => Some x | _ => None end.
Definition uniform (same : bool) (c : vcall) (o : nat) : option N :=
  match k_outs c with
  | [] => None
  | os :: _ =>
      let? x := (let? e := nth_error os o in lit_of e) in
      if same && forallb (fun os => match nth_error os o with Some (ELit y) => x =? y | _ => false end) (k_outs c) then Some x else None
  end.
Definition call_out (same : bool) (j : nat) (c : vcall) (o : nat) (self mask : expr) (args : list (nat * expr)) : expr :=
  match (if k_opt c then uniform same c o else None) with
  | Some x => EMasked x self mask
  | None => ECall j o self mask args
  end.

(** ** Captured variables of an instance, jitc_var_call_analyze: each once *)
Fixpoint evars (e : expr) : list N :=
  match e with
  | EIn _ | ESelf | ELit _ => []
  | EVar c => [c]
  | EOp _ es => flat_map evars es
  | EMasked _ self mask => evars self ++ evars mask
  | ECall _ _ self mask args => flat_map (fun a => evars (snd a)) args ++ evars self ++ evars mask
  end.
Fixpoint once (seen l : list N) : list N :=
  match l with
  | [] => []
  | x :: l => if existsb (N.eqb x) seen then once seen l else x :: once (x :: seen) l
  end.

(** ** Register numbers, call.cpp:797-842, eval.cpp:1273-1289, 1340-1352: they are restored
    after the call was emitted *)
Definition inst_regs (reg : nat -> nat) (i : list nat * list nat) : nat -> nat :=
  let '(slots, sched) := i in
  let reg := fun h => if existsb (Nat.eqb h) slots then O else reg h in
  let reg := fold_left (fun r hn => fun h => if Nat.eqb h (fst hn) then snd hn else r h) (combine sched (seq 1 (length sched))) reg in
  (* ... the code of the callable is generated ... *)
  fun h => if existsb (Nat.eqb h) sched then O else reg h.
Definition call_regs (c : vcall) (reg : nat -> nat) : nat -> nat := fold_left inst_regs (k_vars c) reg.
(** The argument is read from register [reg], 0: there is none *)
Definition lost (c : vcall) (h : nat) : bool := Nat.eqb (call_regs c (fun _ => 1%nat) h) 0.

(** ** Code *)
Inductive text :=
| TIn (k : nat)
| TVar (c : N)                         (* kernel parameter *)
| TSlot (rel : N) (size : nat)         (* load from the data block *)
| TSelf
| TLit (x : N)
| TOp (o : N) (ts : list text)
| TMasked (x : N) (self mask : text)
| TCall (j o : nat) (self mask : text) (args : list (option text)). (* None: not passed *)
(** Results of a callable; None: not returned *)
Definition fn : Type := list (option text).
(** Results of code generation for one call *)
Record info := { i_act : nat -> bool; i_lost : nat -> bool; i_fns : list fn; i_lay : Lay_Model.call }.

Section Gen.
Variable llvm : bool.
Variables (alignment cap : N).
Variable bk : N -> N.                  (* size bucket of a variable *)
(** call.cpp:146-167 *)
Definition slot_of (c : Lay_Model.call) (i : nat) (v : N) : option (N * nat) :=
  let? l := nth_error (c_layouts c) i in
  let? s := find (fun s : placed => fst (fst s) =? v) (firstn (N.to_nat (l_count l)) (skipn (N.to_nat (l_start l)) (c_slots c))) in
  Some (snd (fst s) - l_offset l, N.to_nat (bsize (snd s))).
Fixpoint all {A} (l : list (option A)) : option (list A) :=
  match l with [] => Some [] | x :: l => let? x := x in let? l := all l in Some (x :: l) end.
(** call.cpp:862-882, llvm_eval.cpp:1788-1792, cuda_eval.cpp:1895-1918: only arguments that
    are active and have a register are passed; [k]: position *)
Fixpoint pass (i : info) (k : nat) (args : list (nat * option text)) : option (list (option text)) :=
  match args with
  | [] => Some []
  | (h, t) :: args =>
      let? x := (if i_act i k then if i_lost i h then Some None else (let? t := t in Some (Some t)) else Some None) in
      let? r := pass i (S k) args in Some (x :: r)
  end.
(** [base]: calls before that number are not visible; [infos]: the calls from there on *)
Fixpoint gen (infos : list info) (base : nat) (var : N -> option text) (e : expr) : option text :=
  match e with
  | EIn k => Some (TIn k)
  | EVar c => var c
  | ESelf => Some TSelf
  | ELit x => Some (TLit x)
  | EOp o es => let? ts := all (map (gen infos base var) es) in Some (TOp o ts)
  | EMasked x self mask => let? s := gen infos base var self in let? m := gen infos base var mask in Some (TMasked x s m)
  | ECall j o self mask args =>
      if Nat.ltb j base then None
      else
      let? i := nth_error infos (j - base) in
      let? s := gen infos base var self in
      let? m := gen infos base var mask in
      let? ts := pass i O (map (fun a => (fst a, gen infos base var (snd a))) args) in
      Some (TCall j o s m ts)
  end.
(** Arguments that code refers to *)
Fixpoint ins (t : text) : list nat :=
  match t with
  | TIn k => [k]
  | TVar _ | TSlot _ _ | TSelf | TLit _ => []
  | TOp _ ts => flat_map ins ts
  | TMasked _ s m => ins s ++ ins m
  | TCall _ _ s m ts => ins s ++ ins m ++ flat_map (fun t => match t with Some t => ins t | None => [] end) ts
  end.
Definition is_ret (c : vcall) (o : nat) : bool := k_live c o || negb (k_opt c).
Definition mapi {A B} (f : nat -> A -> B) (l : list A) : list B := map (fun x => f (fst x) (snd x)) (combine (seq 0 (length l)) l).
Definition gen_call (rest : list info) (j : nat) (c : vcall) : option info :=
  let caps := map (fun os => map (fun v => (v, bk v)) (once [] (flat_map evars os))) (k_outs c) in
  let lay := layout_call llvm alignment cap caps (k_ids c) in
  let var i v := let? s := slot_of lay i v in Some (TSlot (fst s) (snd s)) in
  (* code of all outputs; 902-913: those returned *)
  let? full := all (mapi (fun i os => all (map (gen rest (S j) (var i)) os)) (k_outs c)) in
  let fns := map (mapi (fun o t => if is_ret c o then Some t else None)) full in
  let used (ts : list text) k := existsb (fun t => existsb (Nat.eqb k) (ins t)) ts in
  (* eval.cpp:209-240: traversal reaches the argument; ref_count == 1 *)
  let reached k := existsb (fun f => used (flat_map (fun t => match t with Some t => [t] | None => [] end) f) k) fns || negb (k_opt c) || k_other c k in
  let refs k := existsb (fun ts => used ts k) full || k_refs c k in
  Some {| i_act := fun k => reached k && (negb (k_opt c) || refs k); i_lost := lost c; i_fns := fns; i_lay := lay |}.
Fixpoint build (j : nat) (cs : list vcall) : option (list info) :=
  match cs with
  | [] => Some []
  | c :: cs => let? rest := build (S j) cs in let? i := gen_call rest j c in Some (i :: rest)
  end.

(** ** Table of callables *)
Variable hash : fn -> N.
Variable merge : bool.                 (* JitFlag::MergeFunctions *)
(** eval.cpp:1318-1348, in the order of assembly; [single]: call with one instance.  Key and
    callable *)
Fixpoint keyed (count : N) (l : list (bool * fn)) : list (bool * N * fn) :=
  match l with
  | [] => []
  | (single, f) :: l => (single, (if merge then hash f else count), f) :: keyed (if single then count else count + 1) l
  end.
(** globals_map: the first callable with a key is kept *)
Definition defined (g : list (bool * N * fn)) (single : bool) (key : N) : option fn :=
  option_map snd (find (fun x => Bool.eqb (fst (fst x)) single && (snd (fst x) =? key)) g).
Fixpoint insert (k : N) (l : list N) : list N :=
  match l with
  | [] => [k]
  | x :: l' => if k =? x then l else if k <? x then k :: l else x :: insert k l'
  end.
Definition indirect (g : list (bool * N * fn)) : list N :=
  fold_left (fun (l : list N) (x : bool * N * fn) => if fst (fst x) then l else insert (snd (fst x)) l) g [].
Fixpoint position (k : N) (l : list N) : N := match l with [] => 0 | x :: l => if k =? x then 0 else 1 + position k l end.
Definition callable_index (g : list (bool * N * fn)) (key : N) : N := (if llvm then 1 else 0) + position key (indirect g).
(** What the dispatch finds at an index; LLVM: reloc + 1, whose first entry is not a callable *)
Definition callable (g : list (bool * N * fn)) (index : N) : option fn :=
  let i := if llvm then (if index =? 0 then None else Some (index - 1)) else Some index in
  let? i := i in let? key := nth_error (indirect g) (N.to_nat i) in defined g false key.

Definition single (c : vcall) : bool := Nat.eqb (n_inst c) 1.
Definition functions (cs : list vcall) (is : list info) : list (bool * fn) :=
  flat_map (fun x => map (fun f => (single (fst x), f)) (i_fns (snd x))) (combine cs is).
(** Keys of the instances of the calls, in the order of assembly *)
Fixpoint split_keys (is : list info) (keys : list N) : list (list N) :=
  match is with [] => [] | i :: is => firstn (length (i_fns i)) keys :: split_keys is (skipn (length (i_fns i)) keys) end.

(** ** Kernel *)
Record kernel := { x_calls : list (bool * list N * N); (* single, keys of the instances, offset of the table *)
                   x_has : list bool;                   (* call data present *)
                   x_globals : list (bool * N * fn); x_mem : N -> N }.
Variable data : N -> list N.           (* bytes of evaluated variables *)
Definition items_of (is : list info) (ks : list (list N)) (g : list (bool * N * fn)) : list item :=
  map (fun x => ICall (i_lay (fst x)) (map (callable_index g) (snd x))) (combine is ks).
Definition assembled (cs : list vcall) (is : list info) (mem0 : N -> N) : kernel :=
  let g := keyed 0 (functions cs is) in
  let ks := split_keys is (map (fun x => snd (fst x)) g) in
  let items := items_of is ks g in
  let xs := fst (fst (assemble items 0 0)) in
  {| x_calls := map (fun x => (single (fst (fst x)), snd (fst x), snd (fst (snd x)))) (combine (combine cs ks) xs);
     x_has := map (fun i => match c_slots (i_lay i) with [] => false | _ => true end) is;
     x_globals := g; x_mem := aggregate mem0 (fst (upload data alignment items)) |}.

(** ** Execution *)
Variable opsem : N -> list N -> N.
Variable lanes : list nat.             (* LLVM: a vector; CUDA: one thread *)
Definition vec : Type := nat -> N.
Record env := { v_in : nat -> option vec; v_var : N -> vec; v_self : vec; v_off : vec; v_mask : nat -> bool }.
Definition value (m : N -> N) (a : N) (size : nat) : N := number (read m a size).
(** [callj j o mask self args] *)
Fixpoint tev (m : N -> N) (callj : nat -> nat -> (nat -> bool) -> vec -> list (option vec) -> option vec) (en : env) (t : text) : option vec :=
  match t with
  | TIn k => v_in en k
  | TVar c => Some (v_var en c)
  | TSlot rel size => Some (fun l => if v_mask en l then value m (v_off en l + rel) size else 0) (* masked gather *)
  | TSelf => Some (v_self en)
  | TLit x => Some (fun _ => x)
  | TOp o ts => let? vs := all (map (tev m callj en) ts) in Some (fun l => opsem o (map (fun v => v l) vs))
  | TMasked x s k =>
      let? s := tev m callj en s in let? k := tev m callj en k in
      Some (fun l => if negb (k l =? 0) && negb (s l =? 0) then x else 0)
  | TCall j o s k ts =>
      let? s := tev m callj en s in
      let? k := tev m callj en k in
      let? vs := all (map (fun t => match t with Some t => let? v := tev m callj en t in Some (Some v) | None => Some None end) ts) in
      (* call.cpp:418-432 *)
      callj j o (fun l => negb (k l =? 0) && negb (s l =? 0) && v_mask en l) s vs
  end.
(** llvm_eval.cpp:1831-1893 *)
Fixpoint dispatch (fuel : nat) (body : N -> (nat -> bool) -> option vec) (idx acc : vec) : option vec :=
  let next := fold_left N.max (map idx lanes) 0 in
  if next =? 0 then Some acc
  else match fuel with
       | O => None
       | S fuel =>
           let active l := idx l =? next in
           let? r := body next active in
           dispatch fuel body (fun l => if active l then 0 else idx l) (fun l => if active l then r l else acc l)
       end.
(** The callables that are executed, and for which lanes *)
Fixpoint trace (fuel : nat) (idx : vec) : list (N * list nat) :=
  let next := fold_left N.max (map idx lanes) 0 in
  if next =? 0 then []
  else match fuel with
       | O => []
       | S fuel => (next, filter (fun l => idx l =? next) lanes) :: trace fuel (fun l => if idx l =? next then 0 else idx l)
       end.
Fixpoint docall (fuel : nat) (x : kernel) (j o : nat) (mask : nat -> bool) (self : vec) (args : list (option vec)) : option vec :=
  match fuel with
  | O => None
  | S fuel =>
      let? c := nth_error (x_calls x) j in
      let? has := nth_error (x_has x) j in
      let '(single, keys, ob) := c in
      let entry l := if mask l then ob + 8 * self l else 0 in
      let off l := if mask l && has then value (x_mem x) (entry l + 4) 4 else 0 in
      let run f active :=
        let? t := (let? t := nth_error f o in t) in
        tev (x_mem x) (docall fuel x)
            {| v_in := fun k => match nth_error args k with Some v => v | None => None end; v_var := fun _ _ => 0; v_self := self; v_off := off; v_mask := active |} t in
      if single then
        let? key := nth_error keys 0 in
        let? f := defined (x_globals x) true key in
        if llvm then let? r := run f mask in Some (fun l => if mask l then r l else 0)
        else match lanes with
             | [l] => if mask l then run f mask else Some (fun _ => 0) (* bra l_masked *)
             | _ => None
             end
      else
        let idx l := if mask l then value (x_mem x) (entry l) 4 else 0 in
        let body i active := let? f := callable (x_globals x) i in run f active in
        if llvm then dispatch (length lanes) body idx (fun _ => 0)
        else match lanes with
             | [l] => if mask l then body (idx l) mask else Some (fun _ => 0)
             | _ => None
             end
  end.
(** An output of a kernel *)
Definition execute (cs : list vcall) (mem0 : N -> N) (vars : N -> vec) (active : nat -> bool) (e : expr) : option vec :=
  let? is := build 0 cs in
  let? t := gen is 0 (fun c => Some (TVar c)) e in
  let x := assembled cs is mem0 in
  tev (x_mem x) (docall (S (length cs)) x) {| v_in := fun _ => None; v_var := vars; v_self := fun _ => 0; v_off := fun _ => 0; v_mask := active |} t.
End Gen.
