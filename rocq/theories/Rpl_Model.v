(** Frozen functions: recording of the operations and their replay.
    record_ts.cpp:161-261 (ReplayVariable), 292-477 (replay), 493-637, 672-1052 (launch),
    1324-1917 (memory operations and reductions), 2062-2210 (aggregate), 2232-2310
    (validate), 2378-2473 (slots and parameters), 2703-2821 (start, stop).

    Memory contents are an abstract type; what a device operation computes is a function of
    the operation (kernel, sizes, constants) and of the contents of the buffers it is given.
    Simplifications: expand, reduce_expanded, narrow_f32_to_f16 and batched_gemm, resources
    (textures, scenes, OptiX table), pausing, nested recordings and the kernel cache are not
    modelled; aggregations contain values and literals, no addresses of buffers; an
    operation that raises or fails ends the replay ([Bad]). *)
From Verif Require Import Base.
From Verif Require Frz_Model.
Local Open Scope N_scope.

(** var.cpp:117-119; types are numbered as in jit.h:597-611 *)
Definition tsz (vt : N) : N := nth (N.to_nat vt) [0; 1; 0; 1; 1; 2; 2; 4; 4; 8; 8; 8; 0; 2; 4; 8] 0.
Definition Void : N := 0. Definition TBool : N := 1. Definition TUInt8 : N := 4. Definition TUInt32 : N := 8.
Definition TUInt64 : N := 10. Definition TFloat32 : N := 14. Definition TFloat64 : N := 15.

(** AggregationEntry: literal, or value of the first entry of a variable *)
Inductive ent := ELit (off size v : N) | EVal (off size : N).
(** Operations of a thread state, with the sizes that it is given.  [KWidth]:
    jit_var_opaque_width (api.cpp:954-974) *)
Inductive kind :=
| KLaunch (k n : N) | KMemset (n isize v : N) | KMemcpy (bytes : N) | KBool (rop n : N) | KCompress (n : N)
| KMkperm (n bs bc : N) | KReduce (vt rop n bs : N) | KPrefix (vt rop n bs : N) (ex rev : bool) | KDot (vt n : N)
| KAgg (es : list ent) | KWidth (n : N) | KUndef (n : N) | KBarrier.
(** A buffer that an operation is given: address (or name), written (without being read), through a
    pointer, type it is recorded with (0: Void), bytes of the variable *)
Record arg := { a_p : N; a_out : bool; a_pf : bool; a_vt : N; a_b : N }.
Record call := { c_kind : kind; c_args : list arg }.
Inductive ev := Call (c : call) | Free (p : N).

(** ** Recording *)
(** AccessInfo; Operation.  [o_launch]: sizes of a launch (Frz_Model) *)
Record oarg := { o_slot : nat; o_out : bool; o_vt : N }.
Record rop := { o_kind : kind; o_args : list oarg; o_launch : Frz_Model.op }.
(** RecordedVariable: uninitialized, index if it is an input, type *)
Record rvar := { v_un : bool; v_in : option nat; v_ty : N }.
Record rst := { r_map : list (N * nat); r_vars : list rvar; r_ops : list rop; r_ins : list nat; r_dry : bool }.

Fixpoint find (p : N) (m : list (N * nat)) : option nat :=
  match m with [] => None | (q, i) :: m => if q =? p then Some i else find p m end.
Fixpoint erase (p : N) (m : list (N * nat)) : list (N * nat) :=
  match m with [] => [] | (q, i) :: m => if q =? p then m else (q, i) :: erase p m end.
Definition no_launch : Frz_Model.op := {| Frz_Model.op_size := 0; Frz_Model.op_input := 0; Frz_Model.op_deps := [] |}.
Definition with_vars (s : rst) (vs : list rvar) : rst := {| r_map := r_map s; r_vars := vs; r_ops := r_ops s; r_ins := r_ins s; r_dry := r_dry s |}.
Definition push (s : rst) (o : rop) (dry : bool) : rst :=
  {| r_map := r_map s; r_vars := r_vars s; r_ops := r_ops s ++ [o]; r_ins := r_ins s; r_dry := r_dry s || dry |}.
Definition var0 : rvar := {| v_un := true; v_in := None; v_ty := Void |}.
Definition get_var (s : rst) (i : nat) : rvar := nth i (r_vars s) var0.

(** 2378-2400 *)
Definition add_variable (s : rst) (p : N) : rst * nat :=
  match find p (r_map s) with
  | Some i => (s, i)
  | None => let i := length (r_vars s) in
      ({| r_map := (p, i) :: r_map s; r_vars := r_vars s ++ [var0]; r_ops := r_ops s; r_ins := r_ins s; r_dry := r_dry s |}, i)
  end.
(** 2428-2473 (add_param): written *)
Definition out_param (s : rst) (p vt : N) : rst * oarg :=
  let '(s, i) := add_variable s p in
  let v := get_var s i in
  (with_vars s (set_nth i {| v_un := false; v_in := v_in v; v_ty := if vt =? Void then v_ty v else vt |} (r_vars s)),
   {| o_slot := i; o_out := true; o_vt := vt |}).
(** ... read; [lax]: the slot may be new and uninitialized (2086-2110).  [None]: raises *)
Definition in_param (lax : bool) (s : rst) (p vt : N) : option (rst * oarg) :=
  match (if lax then Some (add_variable s p) else option_map (fun i => (s, i)) (find p (r_map s))) with
  | None => None
  | Some (s, i) =>
      let v := get_var s i in
      if negb lax && v_un v then None
      else Some (s, {| o_slot := i; o_out := false; o_vt := if vt =? Void then v_ty v else vt |})
  end.
Fixpoint params (lax : bool) (s : rst) (l : list arg) : option (rst * list oarg) :=
  match l with
  | [] => Some (s, [])
  | a :: l =>
      let? r := (if a_out a then Some (out_param s (a_p a) (a_vt a)) else in_param lax s (a_p a) (a_vt a)) in
      let? rs := params lax (fst r) l in
      Some (fst rs, snd r :: snd rs)
  end.

(** Parameters of a kernel for [Frz_Model]: "slots" are positions, with the bytes of the variables *)
Fixpoint fparams (i : nat) (l : list arg) : list Frz_Model.param :=
  match l with
  | [] => []
  | a :: l => {| Frz_Model.p_slot := i; Frz_Model.p_tsize := tsz (a_vt a); Frz_Model.p_out := a_out a; Frz_Model.p_ptr := a_pf a |} :: fparams (S i) l
  end.
Definition fenv (bs : list N) : Frz_Model.env := fun i => nth i bs 0.
(** The recorded operation; only block reductions ask for a dry run (1722, 1798) *)
Definition launch_of (c : call) : Frz_Model.op :=
  match c_kind c with KLaunch _ n => Frz_Model.record (fenv (map a_b (c_args c))) n (fparams 0 (c_args c)) | _ => no_launch end.
Definition dry_of (k : kind) : bool := match k with KReduce _ _ _ _ | KPrefix _ _ _ _ _ _ => true | _ => false end.
Definition record_with (lax : bool) (s : rst) (c : call) (args : list arg) : option rst :=
  let? r := params lax s args in
  Some (push (fst r) {| o_kind := c_kind c; o_args := snd r; o_launch := launch_of c |} (dry_of (c_kind c))).
(** One operation.  672-872, 1324-1341, 1380-1406, 1482-1508, 1547-1563, 1627-1648, 1704-1723, 1783-1807,
    1874-1893, 2070-2132, 493-508, 529-541, 479-491 *)
Definition rec_call (s : rst) (c : call) : option rst :=
  match c_kind c, c_args c with
  | KMemcpy _, [src; dst] =>
      (* the copy has the type of the source *)
      let? i := find (a_p src) (r_map s) in
      record_with false s c [src; {| a_p := a_p dst; a_out := true; a_pf := false; a_vt := v_ty (get_var s i); a_b := a_b dst |}]
  | KMkperm _ _ _, vals :: _ =>
      (* unknown values: not recorded *)
      match find (a_p vals) (r_map s) with None => Some s | Some _ => record_with false s c (c_args c) end
  | KAgg _, _ => record_with true s c (c_args c)
  | KWidth n, [src; dst] =>
      (* evaluated literal, then the notification *)
      let '(s, o) := out_param s (a_p dst) Void in
      let s := push s {| o_kind := KMemset 1 4 n; o_args := [o]; o_launch := no_launch |} false in
      record_with false s c (c_args c)
  | _, _ => record_with false s c (c_args c)
  end.
(** 565-583: the operation is not added to the recording *)
Definition rec_free (s : rst) (p : N) : rst :=
  {| r_map := erase p (r_map s); r_vars := r_vars s; r_ops := r_ops s; r_ins := r_ins s; r_dry := r_dry s |}.
Definition rec_ev (s : rst) (e : ev) : option rst := match e with Call c => rec_call s c | Free p => Some (rec_free s p) end.
Fixpoint rec_all (s : rst) (tr : list ev) : option rst :=
  match tr with [] => Some s | e :: tr => let? s := rec_ev s e in rec_all s tr end.

(** 590-609 *)
Definition rec_input (s : rst) (x : N * N) : rst :=
  let '(s, i) := add_variable s (fst x) in
  {| r_map := r_map s; r_vars := set_nth i {| v_un := false; v_in := Some (length (r_ins s)); v_ty := snd x |} (r_vars s);
     r_ops := r_ops s; r_ins := r_ins s ++ [i]; r_dry := r_dry s |}.
(** 616-637; an exception is only stored *)
Definition rec_output (s : rst) (y : N * N) : list (nat * N) := match find (fst y) (r_map s) with Some i => [(i, snd y)] | None => [] end.
Record recording := { g_ops : list rop; g_vars : list rvar; g_ins : list nat; g_outs : list (nat * N); g_dry : bool }.
(** 2703-2821: inputs and outputs with their types.  [None]: an exception *)
Definition rst0 : rst := {| r_map := []; r_vars := []; r_ops := []; r_ins := []; r_dry := false |}.
Definition record (ins : list (N * N)) (tr : list ev) (outs : list (N * N)) : option recording :=
  let? s := rec_all (fold_left rec_input ins rst0) tr in
  let gs := flat_map (rec_output s) outs in
  if existsb v_un (r_vars s) then None
  else Some {| g_ops := r_ops s; g_vars := r_vars s; g_ins := r_ins s; g_outs := gs; g_dry := r_dry s |}.

(** ** Replay: sizes *)
(** 183-213; [b]: bytes.  [None]: raises *)
Definition elems (b tsize : N) : option N :=
  if tsize =? 0 then None
  else let s := b / tsize in
       if s =? 0 then None else if negb (s * tsize =? b) then None else Some (u32 s).
(** What is executed and the bytes of the buffers that are written; return false; exception or failure *)
Inductive plan := Go (k : kind) (outs : list N) | Refuse | Err.
(** 2152-2180: an entry that is read has the size of the recorded type *)
Fixpoint agg_entries (es : list ent) (vs : list oarg) : option (list ent) :=
  match es, vs with
  | [], [] => Some []
  | ELit off size v :: es, _ => let? r := agg_entries es vs in Some (ELit off size v :: r)
  | EVal off _ :: es, a :: vs => let? r := agg_entries es vs in Some (EVal off (tsz (o_vt a)) :: r)
  | _, _ => None
  end.
Definition agg_end (e : ent) : N := match e with ELit off size _ | EVal off size => u32 (off + size) end.
Definition agg_bytes (es : list ent) : N := u32 (fold_left (fun m e => N.max m (agg_end e)) es 0 + 7) / 8 * 8.
Definition launch_outs (n : N) (l : list oarg) : list N := map (fun a => n * tsz (o_vt a)) (filter o_out l).
(** [bs]: bytes of the slots of the arguments.  875-990, 1343-1365, 1430-1441, 1510-1517, 1565-1588, 1650-1671, 1725-1753,
    1809-1844, 1895-1917, 2134-2200, 510-527, 543-555 *)
Definition plan_of (dry : bool) (o : rop) (bs : list N) : plan :=
  match o_kind o, o_args o, bs with
  | KLaunch k _, l, _ =>
      match Frz_Model.infer (fenv bs) (Frz_Model.op_deps (o_launch o)) 0 0 with
      | None => Err
      | Some r => let n := Frz_Model.launch_size (o_launch o) (fst r) (snd r) in Go (KLaunch k n) (launch_outs n l)
      end
  | KMemset n isize v, [_], _ =>
      let d := u32 n * u32 isize in
      match elems d (u32 isize) with None => Err | Some m => Go (KMemset m isize v) [d] end
  | KMemcpy _, [_; _], b :: _ => Go (KMemcpy b) [b]
  | KBool rop _, [_; _], b :: _ => match elems b (tsz TBool) with None => Err | Some m => Go (KBool rop m) [tsz TBool] end
  | KCompress _, [i; j], b :: _ =>
      match elems b (tsz (o_vt i)) with
      | None => Err
      | Some m => if dry then Refuse else Go (KCompress m) [m * tsz (o_vt j)]
      end
  | KMkperm _ bs bc, [i; j; k], b :: _ =>
      match elems b (tsz (o_vt i)) with
      | None => Err
      | Some m => Go (KMkperm m bs bc) [m * tsz (o_vt j); u32 (bc * 4 + 1) * tsz (o_vt k)]
      end
  | KReduce _ rop n bs, [i; j], b :: _ =>
      match elems b (tsz (o_vt i)) with
      | None => Err
      | Some m =>
          let bs := if bs =? n then m else bs in
          if bs =? 0 then Err
          else if negb (m mod bs =? 0) then (if dry then Refuse else Err)
          else Go (KReduce (o_vt j) rop m bs) [m / bs * tsz (o_vt j)]
      end
  | KPrefix _ rop n bs ex rev, [i; j], b :: _ =>
      match elems b (tsz (o_vt i)) with
      | None => Err
      | Some m =>
          let bs := if bs =? n then m else bs in
          if bs =? 0 then Err
          else if negb (m mod bs =? 0) then (if dry then Refuse else Err)
          else Go (KPrefix (o_vt j) rop m bs ex rev) [m * tsz (o_vt j)]
      end
  | KDot _ _, [j; i1; i2], _ :: b1 :: b2 :: _ =>
      match elems b1 (tsz (o_vt i1)), elems b2 (tsz (o_vt i2)) with
      | Some m1, Some m2 => if dry && negb (m1 =? m2) then Refuse else Go (KDot (o_vt j) m1) [tsz (o_vt j)]
      | _, _ => Err
      end
  | KAgg es, _ :: vs, _ =>
      match agg_entries es vs with None => Err | Some es => Go (KAgg es) [agg_bytes es] end
  | KWidth _, [i; j], b :: _ =>
      match elems b (tsz (o_vt i)) with None => Err | Some m => Go (KWidth m) [tsz (o_vt j)] end
  | KUndef n, [j], _ => Go (KUndef n) [u32 n * tsz (o_vt j)]
  | KBarrier, [], _ => Go KBarrier []
  | _, _, _ => Err
  end.

(** ** Replay: memory *)
(** Buffers: of input [i] (owned by the caller), or allocated by the replay *)
Inductive buf := BIn (i : nat) | BNew (i : nat).
Section Dev.
Context {C : Type} (blank : C).
(** What an operation leaves in the buffers of its arguments, given their contents ([blank]
    for those that are written); number of entries returned by compress *)
Context (dev : kind -> list C -> list C) (count : kind -> list C -> N).

(** ReplayVariable *)
Record slot := { s_data : option (buf * C); s_alloc : N; s_size : N }.
Record st := { t_slots : list slot; t_next : nat; t_freed : list buf }.
Definition slot0 : slot := {| s_data := None; s_alloc := 0; s_size := 0 |}.
Definition get (s : st) (i : nat) : slot := nth i (t_slots s) slot0.
Definition put (s : st) (i : nat) (x : slot) : st := {| t_slots := set_nth i x (t_slots s); t_next := t_next s; t_freed := t_freed s |}.
(** 222-251 *)
Definition alloc (dry : bool) (s : st) (i : nat) (d : N) : st :=
  let x := get s i in
  match s_data x with
  | None =>
      if dry then put s i {| s_data := None; s_alloc := d; s_size := d |}
      else {| t_slots := set_nth i {| s_data := Some (BNew (t_next s), blank); s_alloc := d; s_size := d |} (t_slots s);
              t_next := S (t_next s); t_freed := t_freed s |}
  | Some (b, c) =>
      if s_alloc x <? d then
        if dry then put s i {| s_data := s_data x; s_alloc := d; s_size := d |}
        else {| t_slots := set_nth i {| s_data := Some (BNew (t_next s), blank); s_alloc := d; s_size := d |} (t_slots s);
                t_next := S (t_next s); t_freed := t_freed s ++ [b] |}
      else put s i {| s_data := s_data x; s_alloc := s_alloc x; s_size := d |}
  end.
Fixpoint alloc_all (dry : bool) (s : st) (l : list oarg) (ds : list N) : st :=
  match l, ds with
  | a :: l, d :: ds => alloc_all dry (alloc dry s (o_slot a) d) l ds
  | _, _ => s
  end.
Fixpoint load (s : st) (l : list oarg) : option (list C) :=
  match l with
  | [] => Some []
  | a :: l =>
      let? x := s_data (get s (o_slot a)) in
      let? r := load s l in
      Some ((if o_out a then blank else snd x) :: r)
  end.
Definition store1 (s : st) (i : nat) (c : C) : st :=
  let x := get s i in
  match s_data x with
  | Some (b, _) => put s i {| s_data := Some (b, c); s_alloc := s_alloc x; s_size := s_size x |}
  | None => s
  end.
Fixpoint store (s : st) (l : list oarg) (cs : list C) : st :=
  match l, cs with
  | a :: l, c :: cs => store (store1 s (o_slot a) c) l cs
  | _, _ => s
  end.
(** 1586: the size of the result of compress *)
Definition resize (s : st) (k : kind) (l : list oarg) (cs : list C) : st :=
  match k, l with
  | KCompress _, [_; j] => let x := get s (o_slot j) in put s (o_slot j) {| s_data := s_data x; s_alloc := s_alloc x; s_size := u32 (count k cs * tsz (o_vt j)) |}
  | _, _ => s
  end.
Inductive res := Ok (s : st) | No | Bad.
Definition replay_op (dry : bool) (s : st) (o : rop) : res :=
  match plan_of dry o (map (fun a => s_size (get s (o_slot a))) (o_args o)) with
  | Refuse => No
  | Err => Bad
  | Go k outs =>
      let s := alloc_all dry s (filter o_out (o_args o)) outs in
      if dry then Ok s
      else match load s (o_args o) with
           | None => Bad
           | Some cs => Ok (resize (store s (o_args o) (dev k cs)) k (o_args o) cs)
           end
  end.
Fixpoint replay_ops (dry : bool) (s : st) (os : list rop) : res :=
  match os with
  | [] => Ok s
  | o :: os => match replay_op dry s o with Ok s => replay_ops dry s os | r => r end
  end.

(** An input: type, number of entries, contents.  172-176: 32-bit product *)
Record input := { i_vt : N; i_n : N; i_c : C }.
Definition init_slot (s : st) (x : nat * (nat * input)) : st :=
  let '(j, (i, v)) := x in
  let b := u32 (tsz (i_vt v) * i_n v) in put s j {| s_data := Some (BIn i, i_c v); s_alloc := b; s_size := b |}.
Definition start (g : recording) (ins : list input) : st :=
  fold_left init_slot (combine (g_ins g) (combine (seq 0 (length ins)) ins))
            {| t_slots := map (fun _ => slot0) (g_vars g); t_next := 0; t_freed := [] |}.
(** An output: the variable of an input, or a new variable that owns its buffer *)
Inductive output := OIn (i : nat) | ONew (b : buf) (vt n : N) (c : C).
(** 435-460 *)
Definition make_output (g : recording) (s : st) (o : nat * N) : option output :=
  match v_in (nth (fst o) (g_vars g) var0) with
  | Some i => Some (OIn i)
  | None =>
      let x := get s (fst o) in
      let? d := s_data x in
      let? n := elems (s_size x) (tsz (snd o)) in
      Some (ONew (fst d) (snd o) n (snd d))
  end.
Fixpoint make_outputs (g : recording) (s : st) (l : list (nat * N)) : option (list output) :=
  match l with
  | [] => Some []
  | o :: l => let? r := make_output g s o in let? rs := make_outputs g s l in Some (r :: rs)
  end.
(** 462-474 *)
Definition release (g : recording) (s : st) : list buf :=
  flat_map (fun i => if existsb (fun o => Nat.eqb (fst o) i) (g_outs g) then []
                     else match v_in (nth i (g_vars g) var0), s_data (get s i) with None, Some (b, _) => [b] | _, _ => [] end)
           (seq 0 (length (g_vars g))).
(** 292-477, 2900-2924: the state after the operations, the outputs, and the buffers that were freed *)
Definition replay (g : recording) (ins : list input) : option (st * list output * list buf) :=
  match replay_ops false (start g ins) (g_ops g) with
  | Ok s => let? os := make_outputs g s (g_outs g) in Some (s, os, t_freed s ++ release g s)
  | _ => None
  end.
(** 2926-2939; [None]: an exception *)
Definition dry_run (g : recording) (ins : list input) : option bool :=
  if g_dry g then match replay_ops true (start g ins) (g_ops g) with Ok _ => Some true | No => Some false | Bad => None end
  else Some true.
End Dev.
