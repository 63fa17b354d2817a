(** References and buffers taken by an evaluation, and their release when it fails:
    src/eval.cpp:928-1217, with the parts of jitc_assemble (349-540), jitc_assemble_func
    (1219-1360) and call.cpp (730-990, 1101-1246) that take or release any.

    Simplifications: [cnt] counts the calls of jitc_var_inc_ref minus those of
    jitc_var_dec_ref per variable, so that freeing a variable whose count drops to zero is not
    modelled; the graph traversal (see Trav_Model) appears as the list of variables it
    schedules; every operation that can raise asks [fails] at its turn.  Log messages, code
    text and register numbers are left out. *)
From Verif Require Import Base.
Local Open Scope Z_scope.

(** ScheduledVariable: index and [data] *)
Record entry := mkEntry { e_var : nat; e_buf : option nat }.
Record st := mkSt {
  cnt : nat -> Z;
  turn : nat;
  effects : list (nat * bool);   (* ts->side_effects; whether jitc_elide_scatter says yes *)
  roots : list nat;              (* eval_roots *)
  tasks : list (nat * bool);     (* eval_tasks: index, side_effect *)
  sched : list entry;            (* schedule *)
  cbs : list nat;                (* eval_callbacks *)
  bases : list nat;              (* call_base_vars *)
  caps : list nat;               (* call_buffer.data_entries *)
  calls : list nat;              (* calls_assembled *)
  getters : list nat;            (* call_buffer.getters *)
  bufs : list nat;               (* buffers of outputs that were not freed or handed over *)
  temps : list nat;              (* buffers of jitc_call_upload, likewise *)
  next : nat }.                  (* buffers allocated so far *)

Inductive res := Ok (s : st) | Raise (s : st).
Definition and_then (r : res) (f : st -> res) : res := match r with Ok s => f s | Raise s => Raise s end.

Definition add (f : nat -> Z) (i : nat) (d : Z) : nat -> Z := fun j => if Nat.eqb j i then f j + d else f j.
Definition set_cnt s c := mkSt c (turn s) (effects s) (roots s) (tasks s) (sched s) (cbs s) (bases s) (caps s) (calls s) (getters s) (bufs s) (temps s) (next s).
Definition set_turn s c := mkSt (cnt s) c (effects s) (roots s) (tasks s) (sched s) (cbs s) (bases s) (caps s) (calls s) (getters s) (bufs s) (temps s) (next s).
Definition set_effects s c := mkSt (cnt s) (turn s) c (roots s) (tasks s) (sched s) (cbs s) (bases s) (caps s) (calls s) (getters s) (bufs s) (temps s) (next s).
Definition set_roots s c := mkSt (cnt s) (turn s) (effects s) c (tasks s) (sched s) (cbs s) (bases s) (caps s) (calls s) (getters s) (bufs s) (temps s) (next s).
Definition set_tasks s c := mkSt (cnt s) (turn s) (effects s) (roots s) c (sched s) (cbs s) (bases s) (caps s) (calls s) (getters s) (bufs s) (temps s) (next s).
Definition set_sched s c := mkSt (cnt s) (turn s) (effects s) (roots s) (tasks s) c (cbs s) (bases s) (caps s) (calls s) (getters s) (bufs s) (temps s) (next s).
Definition set_cbs s c := mkSt (cnt s) (turn s) (effects s) (roots s) (tasks s) (sched s) c (bases s) (caps s) (calls s) (getters s) (bufs s) (temps s) (next s).
Definition set_bases s c := mkSt (cnt s) (turn s) (effects s) (roots s) (tasks s) (sched s) (cbs s) c (caps s) (calls s) (getters s) (bufs s) (temps s) (next s).
Definition set_caps s c := mkSt (cnt s) (turn s) (effects s) (roots s) (tasks s) (sched s) (cbs s) (bases s) c (calls s) (getters s) (bufs s) (temps s) (next s).
Definition set_calls s c := mkSt (cnt s) (turn s) (effects s) (roots s) (tasks s) (sched s) (cbs s) (bases s) (caps s) c (getters s) (bufs s) (temps s) (next s).
Definition set_getters s c := mkSt (cnt s) (turn s) (effects s) (roots s) (tasks s) (sched s) (cbs s) (bases s) (caps s) (calls s) c (bufs s) (temps s) (next s).
Definition set_mem s b t n := mkSt (cnt s) (turn s) (effects s) (roots s) (tasks s) (sched s) (cbs s) (bases s) (caps s) (calls s) (getters s) b t n.

Definition inc (i : nat) (s : st) : st := set_cnt s (add (cnt s) i 1).
Definition dec (i : nat) (s : st) : st := set_cnt s (add (cnt s) i (-1)).
Fixpoint decs (l : list nat) (s : st) : st := match l with [] => s | i :: r => decs r (dec i s) end.
Definition free (b : nat) (s : st) : st := set_mem s (List.remove Nat.eq_dec b (bufs s)) (temps s) (next s).

(** Code of a kernel as far as references are concerned. *)
Inductive code :=
| Emit                                              (* any other instruction *)
| Getter (id : nat)                                 (* CallGetter *)
| CallTo (id : nat) (slots : list nat) (insts : list (list nat * list code)).
      (* Call: captured variables that are alive; per instance, what the traversal schedules and the code *)

(** One kernel: the entries of [schedule], whether each is an output, the base pointer of
    the call buffer, the code. *)
Record kernel := mkKernel { k_outputs : list bool; k_base : option nat; k_code : list code }.
Record job := mkJob {
  j_scheduled : list (nat * bool);    (* ts->scheduled; whether to skip (expired or evaluated) *)
  j_visited : list nat;               (* what jitc_var_traverse schedules *)
  j_kernels : list kernel }.

Section Run.
Variable fails : nat -> bool.
Variable has_callback : nat -> bool.
Variable sort : list entry -> list entry.     (* jitc_schedule_sort *)

Definition tick (s : st) : res := if fails (turn s) then Raise s else Ok (set_turn s (S (turn s))).

(** eval.cpp:341-346 *)
Fixpoint visit (l : list nat) (s : st) : res :=
  match l with
  | [] => Ok s
  | i :: r => and_then (tick s) (fun s => visit r (inc i (set_sched s (sched s ++ [mkEntry i None]))))
  end.

(** eval.cpp:1341-1352 *)
Fixpoint finish_func (l : list entry) (s : st) : st :=
  match l with
  | [] => s
  | e :: r =>
      let s := if has_callback (e_var e) then inc (e_var e) (set_cbs s (cbs s ++ [e_var e])) else s in
      finish_func r (dec (e_var e) s)
  end.
Fixpoint capture (l : list nat) (s : st) : st :=
  match l with [] => s | i :: r => capture r (inc i (set_caps s (caps s ++ [i]))) end.

(** call.cpp:826-846 RestoreGuard *)
Definition restore (backup : list entry) (s : st) : st := set_sched (decs (map e_var (sched s)) s) backup.

Fixpoint gen (c : code) (s : st) : res :=
  match c with
  | Emit => tick s
  | Getter id => tick (inc id (set_getters s (getters s ++ [id])))       (* call.cpp:744-745 *)
  | CallTo id slots insts =>                                              (* call.cpp:783-987 *)
      let s := capture slots s in
      let backup := sched s in
      let assemble_func (f : list nat * list code) (s : st) : res :=      (* eval.cpp:1219-1359 *)
        let s := set_sched s [] in
        and_then (visit (fst f) s) (fun s =>
        and_then ((fix gens (l : list code) (s : st) : res :=
                     match l with [] => Ok s | c :: r => and_then (gen c s) (gens r) end) (snd f) s) (fun s =>
        let s := finish_func (sched s) s in
        Ok (set_sched s []))) in
      let r :=
        and_then ((fix funcs (l : list (list nat * list code)) (s : st) : res :=
                     match l with [] => Ok s | f :: r => and_then (assemble_func f s) (funcs r) end) insts s) (fun s =>
        and_then (tick s) (fun s => Ok (inc id (set_calls s (calls s ++ [id]))))) in
      match r with Ok s => Ok (restore backup s) | Raise s => Raise (restore backup s) end
  end.
Fixpoint gens (l : list code) (s : st) : res :=
  match l with [] => Ok s | c :: r => and_then (gen c s) (gens r) end.

Definition put_entry (k : nat) (e : entry) (s : st) : st := set_sched s (firstn k (sched s) ++ e :: skipn (S k) (sched s)).
(** eval.cpp:409-486: checks, and the buffers of outputs.  [k]: position in [schedule] *)
Fixpoint allocate (outs : list bool) (k : nat) (s : st) : res :=
  match outs with
  | [] => Ok s
  | o :: r =>
      and_then (tick s) (fun s =>
      match o, nth_error (sched s) k with
      | true, Some e =>
          and_then (tick s) (fun s =>
          let s := set_mem s (next s :: bufs s) (temps s) (S (next s)) in
          allocate r (S k) (put_entry k (mkEntry (e_var e) (Some (pred (next s)))) s))
      | _, _ => allocate r (S k) s
      end)
  end.

(** call.cpp:1101-1246 *)
Definition upload (s : st) : res :=
  if (match calls s, getters s with [], [] => true | _, _ => false end) then Ok s
  else
      and_then (tick s) (fun s =>
      let agg := next s in
      let s := set_mem s (bufs s) (agg :: temps s) (S (next s)) in
      and_then (tick s) (fun s =>
      let buf := next s in
      let s := set_mem s (bufs s) (buf :: temps s) (S (next s)) in
      and_then (tick s) (fun s =>                                          (* jitc_aggregate *)
      let s := set_mem s (bufs s) (List.remove Nat.eq_dec agg (temps s)) (next s) in      (* jitc_free *)
      let s := set_mem s (bufs s) (List.remove Nat.eq_dec buf (temps s)) (next s) in      (* owned by base_src *)
      let s := set_calls (decs (calls s) s) [] in
      Ok (set_getters (decs (getters s) s) [])))).

(** eval.cpp:349-700 and jitc_run *)
Definition assemble_run (k : kernel) (start : nat) (s : st) : res :=
  let s := set_getters (set_caps (decs (caps s) s) []) [] in               (* 361 call_buffer.reset() *)
  and_then (allocate (k_outputs k) start s) (fun s =>
  and_then (match k_base k with
            | None => Ok s
            | Some b => and_then (tick s) (fun s => Ok (inc b (set_bases s (bases s ++ [b]))))
            end) (fun s =>
  and_then (gens (k_code k) s) (fun s =>
  and_then (upload s) tick))).
Fixpoint kernels (l : list kernel) (start : nat) (s : st) : res :=
  match l with
  | [] => Ok s
  | k :: r => and_then (assemble_run k start s) (kernels r (start + length (k_outputs k)))
  end.

(** eval.cpp:1043-1053 *)
Fixpoint collect_roots (l : list (nat * bool)) (s : st) : st :=
  match l with
  | [] => s
  | (i, skip) :: r =>
      if skip then collect_roots r s
      else collect_roots r (set_roots (set_tasks (inc i s) (tasks s ++ [(i, false)])) (roots s ++ [i]))
  end.
(** eval.cpp:1059-1068; the queue is emptied at the end, without any operation that raises in between *)
Fixpoint collect_effects (l : list (nat * bool)) (s : st) : st :=
  match l with
  | [] => s
  | (i, elide) :: r => collect_effects r (if elide then dec i s else set_tasks s (tasks s ++ [(i, true)]))
  end.

(** eval.cpp:1033-1156, up to the clean-up *)
Definition eval_main (j : job) (s : st) : res :=
  let s := set_roots (set_tasks (set_sched s []) []) [] in
  let s := collect_roots (j_scheduled j) s in
  let s := set_effects (collect_effects (effects s) s) [] in
  if (match tasks s with [] => true | _ => false end) then Ok s else
  and_then (visit (j_visited j) s) (fun s =>
  let s := set_roots (decs (roots s) s) [] in
  if (match sched s with [] => true | _ => false end) then Ok s else
  let s := set_sched s (sort (sched s)) in
  and_then (kernels (j_kernels j) 0 s) (fun s =>
  and_then (tick s) (fun s =>                                              (* barrier *)
  let s := set_caps (decs (caps s) s) [] in
  Ok (set_bases (decs (bases s) s) [])))).

(** eval.cpp:928-979 *)
Fixpoint release_entries (l : list entry) (s : st) : st :=
  match l with
  | [] => s
  | e :: r => release_entries r (dec (e_var e) (match e_buf e with Some b => free b s | None => s end))
  end.
Definition rollback (baseline : nat) (s : st) : st :=
  let s := set_sched (release_entries (sched s) s) [] in
  let s := set_roots (decs (roots s) s) [] in
  let s := set_tasks (decs (map fst (filter snd (tasks s))) s) [] in
  let s := set_cbs (decs (rev (skipn baseline (cbs s))) s) (firstn baseline (cbs s)) in
  let s := set_bases (decs (bases s) s) [] in
  let s := set_caps (decs (caps s) s) [] in
  let s := set_calls (decs (calls s) s) [] in
  set_getters (decs (getters s) s) [].
End Run.

(** ** Clean-up after success: eval.cpp:1158-1216 *)
Record vars := mkVars {
  v_out : nat -> bool;             (* output_flag *)
  v_effect : nat -> bool;          (* side_effect *)
  v_dep : nat -> list nat;
  v_data : nat -> option nat }.
Definition unset {A} (f : nat -> A) (i : nat) (x : A) : nat -> A := fun j => if Nat.eqb j i then x else f j.
Section Clean.
Variable has_callback : nat -> bool.
Fixpoint cleanup (l : list entry) (s : st) (v : vars) : st * vars :=
  match l with
  | [] => (s, v)
  | e :: r =>
      let i := e_var e in
      let s := if has_callback i then inc i (set_cbs s (cbs s ++ [i])) else s in
      if negb (v_out v i || v_effect v i) then cleanup r (dec i s) v
      else
        let '(out, data, s) :=
          match v_out v i, e_buf e with
          | true, Some b => (unset (v_out v) i false, unset (v_data v) i (Some b), free b s)   (* handed over *)
          | _, _ => (v_out v, v_data v, s)
          end in
        let effect := v_effect v i in
        let dep := v_dep v i in
        let s := dec i s in
        let s := if effect then dec i s else s in
        let s := decs dep s in
        cleanup r s (mkVars out (unset (v_effect v) i false) (unset (v_dep v) i []) data)
  end.
End Clean.

(** eval.cpp:982-1031; [e_buf] is set exactly for outputs of matching size, hence stands for
    the test of 1190.  Callbacks do not raise. *)
Definition run_callbacks (s : st) : st := set_cbs (decs (cbs s) s) [].
Inductive outcome := Evaluated (s : st) (v : vars) | Failed (s : st).
Definition eval (fails : nat -> bool) (has_callback : nat -> bool) (sort : list entry -> list entry) (j : job) (s : st) (v : vars) : outcome :=
  let baseline := length (cbs s) in
  match eval_main fails has_callback sort j s with
  | Raise s => Failed (rollback baseline s)
  | Ok s => let '(s, v) := cleanup has_callback (sched s) s v in Evaluated (run_callbacks s) v
  end.
