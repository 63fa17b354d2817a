(** Model of the variable store: reference counts, value numbering, weak
    references, scopes, and element-wise access. src/var.cpp, src/internal.h. *)
From Verif Require Import Base FreeSlots_Model.
Local Open Scope N_scope.

(** ** Variables *)

(** src/internal.h:226-360 struct Variable, the fields that the functions below
    use. [v_lit] is the union of [literal] and [data]. Fields that only steer
    code generation (unaligned, optix, ...) are omitted. *)
Record var := mkVar {
  v_rc : N; v_se : N; v_scope : N; v_dep : list N; v_lit : N; v_size : N; v_counter : N;
  v_kind : N; v_backend : N; v_type : N; v_wptr : bool; v_written : bool; v_retain : bool;
  v_array : bool; v_coop : bool; v_alen : N }.

(** src/internal.h:229 zero initialisation *)
Definition var0 : var := mkVar 0 0 0 [0; 0; 0; 0] 0 0 0 0 0 0 false false false false false 0.

(** src/internal.h:31-43, 83: VarKind *)
Definition K_Evaluated := 1. Definition K_Undefined := 2. Definition K_Literal := 3.
Definition K_Bitcast := 54. Definition T_Void := 0. Definition T_Pointer := 11.
(** src/internal.h:27-29 *)
Definition SCOPE_ARRAY := 0. Definition SCOPE_BUFFER := 1. Definition SCOPE_DYNAMIC := 2.

Definition is_evaluated (v : var) := v_kind v =? K_Evaluated.
Definition is_literal (v : var) := v_kind v =? K_Literal.
Definition is_undefined (v : var) := v_kind v =? K_Undefined.
Definition is_node (v : var) := K_Literal <? v_kind v.
Definition is_dirty (v : var) := 0 <? v_se v.
(** ref_count || ref_count_se *)
Definition referenced (v : var) := (0 <? v_rc v) || (0 <? v_se v).

(** src/internal.h:424-460 VariableKey: the 36 bytes compared by operator==.
    The bit fields occupy 7, 2, 5, 1 and 1 bits. *)
Definition packed (v : var) : N :=
  v_kind v + v_backend v * 2 ^ 7 + v_type v * 2 ^ 9 + N.b2n (v_wptr v) * 2 ^ 14
  + N.b2n (v_written v) * 2 ^ 15
  + (if v_array v || v_coop v then v_alen v else 0) * 2 ^ 16.
Definition key := list N.
Definition key_of (v : var) : key := v_scope v :: v_dep v ++ [v_lit v; v_size v; packed v].
Fixpoint key_eqb (a b : key) : bool :=
  match a, b with
  | [], [] => true
  | x :: a, y :: b => (x =? y) && key_eqb a b
  | _, _ => false
  end.

(** src/var.cpp:117-119 *)
Definition type_size (t : N) : N :=
  nth (N.to_nat t) [0; 1; 0; 1; 1; 2; 2; 4; 4; 8; 8; 8; 0; 2; 4; 8] 0.
(** memcpy of the low [type_size] bytes of the 64-bit field *)
Definition trunc (t x : N) : N := x mod 2 ^ (8 * type_size t).

(** ** State *)

(** src/internal.h:1095-1210. [tscope]: the [scope] field of every ThreadState
    (position = thread). [heap]: the device memory regions owned by variables,
    as (address, elements); all elements of a region have the type of the
    variable that owns it. Hash maps are association lists. *)
Record st := mkSt {
  vars : list var; unused : fslots; lvn : list (key * N);
  tscope : list N; sctr : N; heap : list (N * list N) }.

(** src/internal.h:1119, 1205: entry 0 is reserved *)
Definition st_init : st := mkSt [var0] fs_init [] [] SCOPE_DYNAMIC [].

Definition vget (s : st) (i : N) : option var := nth_error (vars s) (N.to_nat i).
Definition vset (s : st) (i : N) (v : var) : option st :=
  let? l := upd (N.to_nat i) v (vars s) in
  Some (mkSt l (unused s) (lvn s) (tscope s) (sctr s) (heap s)).
Definition with_lvn (s : st) m := mkSt (vars s) (unused s) m (tscope s) (sctr s) (heap s).
Definition with_unused (s : st) u := mkSt (vars s) u (lvn s) (tscope s) (sctr s) (heap s).
Definition with_vars (s : st) l := mkSt l (unused s) (lvn s) (tscope s) (sctr s) (heap s).
Definition with_heap (s : st) h := mkSt (vars s) (unused s) (lvn s) (tscope s) (sctr s) h.
Definition with_scope (s : st) t c := mkSt (vars s) (unused s) (lvn s) t c (heap s).

Definition set_rc (v : var) x := mkVar x (v_se v) (v_scope v) (v_dep v) (v_lit v) (v_size v) (v_counter v)
  (v_kind v) (v_backend v) (v_type v) (v_wptr v) (v_written v) (v_retain v) (v_array v) (v_coop v) (v_alen v).
Definition set_se (v : var) x := mkVar (v_rc v) x (v_scope v) (v_dep v) (v_lit v) (v_size v) (v_counter v)
  (v_kind v) (v_backend v) (v_type v) (v_wptr v) (v_written v) (v_retain v) (v_array v) (v_coop v) (v_alen v).
Definition set_counter (v : var) x := mkVar (v_rc v) (v_se v) (v_scope v) (v_dep v) (v_lit v) (v_size v) x
  (v_kind v) (v_backend v) (v_type v) (v_wptr v) (v_written v) (v_retain v) (v_array v) (v_coop v) (v_alen v).
Definition set_vscope (v : var) x := mkVar (v_rc v) (v_se v) x (v_dep v) (v_lit v) (v_size v) (v_counter v)
  (v_kind v) (v_backend v) (v_type v) (v_wptr v) (v_written v) (v_retain v) (v_array v) (v_coop v) (v_alen v).
Definition set_size (v : var) x := mkVar (v_rc v) (v_se v) (v_scope v) (v_dep v) (v_lit v) x (v_counter v)
  (v_kind v) (v_backend v) (v_type v) (v_wptr v) (v_written v) (v_retain v) (v_array v) (v_coop v) (v_alen v).
Definition set_dep (v : var) x := mkVar (v_rc v) (v_se v) (v_scope v) x (v_lit v) (v_size v) (v_counter v)
  (v_kind v) (v_backend v) (v_type v) (v_wptr v) (v_written v) (v_retain v) (v_array v) (v_coop v) (v_alen v).
Definition set_data (v : var) k x := mkVar (v_rc v) (v_se v) (v_scope v) (v_dep v) x (v_size v) (v_counter v)
  k (v_backend v) (v_type v) (v_wptr v) (v_written v) (v_retain v) (v_array v) (v_coop v) (v_alen v).

(** In everything below, [None] is jitc_fail() (abort) or undefined behaviour. *)

(** src/var.cpp:489-498 *)
Definition jitc_var (s : st) (i : N) : option var :=
  if i =? 0 then None else
  let? v := vget s i in if referenced v then Some v else None.

(** src/var.cpp:501-511: [Some None] is nullptr. *)
Definition jitc_var_weak (s : st) (i c : N) : option (option N) :=
  if N.of_nat (length (vars s)) <=? i then None else
  let? v := vget s i in
  Some (if (i =? 0) || negb (v_counter v =? c) then None else Some i).

(** ** Value numbering table *)
Fixpoint find_lvn (k : key) (m : list (key * N)) : option N :=
  match m with [] => None | (k', i) :: r => if key_eqb k' k then Some i else find_lvn k r end.
Fixpoint erase_lvn (k : key) (m : list (key * N)) : list (key * N) :=
  match m with [] => [] | (k', i) :: r => if key_eqb k' k then r else (k', i) :: erase_lvn k r end.
Definition emplace_lvn (k : key) (i : N) (m : list (key * N)) : list (key * N) :=
  match find_lvn k m with Some _ => m | None => (k, i) :: m end.

(** src/var.cpp:614-624 *)
Definition lvn_drop (s : st) (i : N) (v : var) : st :=
  match find_lvn (key_of v) (lvn s) with
  | Some j => if j =? i then with_lvn s (erase_lvn (key_of v) (lvn s)) else s
  | None => s
  end.
Definition lvn_put (s : st) (i : N) (v : var) : st :=
  with_lvn s (emplace_lvn (key_of v) i (lvn s)).

(** ** Memory *)
Fixpoint find_heap (p : N) (h : list (N * list N)) : option (list N) :=
  match h with [] => None | (q, c) :: r => if q =? p then Some c else find_heap p r end.
Fixpoint erase_heap (p : N) (h : list (N * list N)) : list (N * list N) :=
  match h with [] => [] | (q, c) :: r => if q =? p then r else (q, c) :: erase_heap p r end.
Fixpoint poke (p : N) (n : nat) (x : N) (h : list (N * list N)) : option (list (N * list N)) :=
  match h with
  | [] => None
  | (q, c) :: r => if q =? p then let? c' := upd n x c in Some ((q, c') :: r)
                   else let? r' := poke p n x r in Some ((q, c) :: r')
  end.
(** jitc_free: null is ignored, an unknown address is an error. *)
Definition mem_free (s : st) (p : N) : option st :=
  if p =? 0 then Some s else
  let? _ := find_heap p (heap s) in Some (with_heap s (erase_heap p (heap s))).
(** jitc_malloc followed by initialisation: the address [p] is chosen by the
    allocator; [None] if it violates the allocator's contract (C30). *)
Definition mem_alloc (s : st) (p : N) (c : list N) : option st :=
  if p =? 0 then None else
  match find_heap p (heap s) with
  | Some _ => None
  | None => Some (with_heap s ((p, c) :: heap s))
  end.

(** ** Reference counts *)

(** src/var.cpp:514-518, 553-556; 32-bit counter *)
Definition inc_ref (s : st) (i : N) : option st :=
  if i =? 0 then Some s else
  let? v := jitc_var s i in vset s i (set_rc v (u32 (v_rc v + 1))).
(** src/var.cpp:559-569; 16-bit counter *)
Definition inc_ref_se (s : st) (i : N) : option st :=
  if i =? 0 then Some s else
  let? v := jitc_var s i in vset s i (set_se v (u16 (v_se v + 1))).

(** src/var.cpp:436-452: decrement of one operand's count inside
    jitc_var_free; also returns whether the operand expired. *)
Definition dec_dep (s : st) (d : N) : option (st * list N) :=
  if d =? 0 then Some (s, []) else
  let? v := vget s d in
  if v_rc v =? 0 then None else
  let v := set_rc v (v_rc v - 1) in
  let? s := vset s d v in
  Some (s, if referenced v then [] else [d]).
Definition dec_dep_se (s : st) (d : N) : option (st * list N) :=
  if d =? 0 then Some (s, []) else
  let? v := vget s d in
  if v_se v =? 0 then None else
  let v := set_se v (v_se v - 1) in
  let? s := vset s d v in
  Some (s, if referenced v then [] else [d]).
Fixpoint dec_deps (s : st) (ds : list N) : option (st * list N) :=
  match ds with
  | [] => Some (s, [])
  | d :: r => let? x := dec_dep s d in
              let? y := dec_deps (fst x) r in
              Some (fst y, snd x ++ snd y)
  end.

(** src/var.cpp:367-486 jitc_var_free: [i] is freed, [todo] is the work list
    (free_todo, top first). Callbacks/labels ([extra]) and the
    jit_var_call_reduce() cache are not modelled. [fuel] bounds the number of
    freed variables. *)
Fixpoint var_free (fuel : nat) (s : st) (i : N) (todo : list N) : option st :=
  match fuel with
  | O => None
  | S f =>
      let? v := vget s i in
      let? s := (if is_evaluated v then
                   if v_retain v then Some s else mem_free s (v_lit v)
                 else Some (lvn_drop s i v)) in
      let? s := vset s i (set_counter v (u32 (v_counter v + 1))) in
      let? u := fs_push i (unused s) in
      let s := with_unused s u in
      let? x := (if v_wptr v then
                   let? d := nth_error (v_dep v) 3 in dec_dep_se s d
                 else dec_deps s (v_dep v)) in
      let '(s, zs) := x in
      match zs with
      | z :: zs => var_free f s z (rev zs ++ todo)
      | [] => match todo with
              | [] => Some s
              | z :: todo => var_free f s z todo
              end
      end
  end.

(** src/var.cpp:572-592 (the underflow assertion is part of debug builds; a
    variable with a zero count fails in jitc_var already unless it has pending
    side effects) *)
Definition dec_ref (s : st) (i : N) : option st :=
  if i =? 0 then Some s else
  let? v := jitc_var s i in
  if v_rc v =? 0 then None else
  let v := set_rc v (v_rc v - 1) in
  let? s := vset s i v in
  if referenced v then Some s else var_free (S (length (vars s))) s i [].
(** src/var.cpp:595-611 *)
Definition dec_ref_se (s : st) (i : N) : option st :=
  if i =? 0 then Some s else
  let? v := jitc_var s i in
  if v_se v =? 0 then None else
  let v := set_se v (v_se v - 1) in
  let? s := vset s i v in
  if referenced v then Some s else var_free (S (length (vars s))) s i [].

Fixpoint inc_refs (s : st) (ds : list N) : option st :=
  match ds with [] => Some s | d :: r => let? s := inc_ref s d in inc_refs s r end.
Fixpoint dec_refs (s : st) (ds : list N) : option st :=
  match ds with [] => Some s | d :: r => let? s := dec_ref s d in dec_refs s r end.

(** ** Creation *)

(** Per-thread settings read by jitc_var_new: the thread's position in
    [tscope], JitFlag::ValueNumbering and JitFlag::ReuseIndices. *)
Record env := mkEnv { e_tid : nat; e_vn : bool; e_reuse : bool }.

(** The part of jitc_var_new below the choice of the scope ([sc]).
    src/var.cpp:772-931. [v] has zero counts. *)
Definition var_new_at (s : st) (e : env) (sc : N) (v : var) (disable_lvn : bool) : option (st * N) :=
  let use := negb disable_lvn && negb (v_type v =? T_Void) && negb (is_evaluated v) && e_vn e in
  let v := set_vscope v (if is_evaluated v && negb (v_array v) then SCOPE_BUFFER else sc) in
  let? x := (if fs_empty (unused s) || negb (e_reuse e)
             then Some (with_vars s (vars s ++ [var0]), u32 (N.of_nat (length (vars s))), false)
             else let? y := fs_pop (unused s) in Some (with_unused s (snd y), fst y, true)) in
  let '(s, i, from_unused) := x in
  let? vo := vget s i in
  if referenced vo then None else
  let? s := vset s i (set_counter v (v_counter vo)) in
  let? x :=
    (if use then
       match find_lvn (key_of v) (lvn s) with
       | Some j =>
           let? s := (if from_unused
                      then let? u := fs_push i (unused s) in Some (with_unused s u)
                      else Some (with_vars s (removelast (vars s)))) in
           let? s := (if v_wptr v
                      then let? d := nth_error (v_dep v) 3 in dec_ref_se s d
                      else dec_refs s (v_dep v)) in
           let? _ := jitc_var s j in
           Some (s, j)
       | None => Some (with_lvn s ((key_of v, i) :: lvn s), i)
       end
     else Some (s, i)) in
  let '(s, i) := x in
  let? w := vget s i in
  let? s := vset s i (set_rc w (u32 (v_rc w + 1))) in
  Some (s, i).

Definition var_new (s : st) (e : env) (v : var) (disable_lvn : bool) : option (st * N) :=
  let? sc := nth_error (tscope s) (e_tid e) in var_new_at s e sc v disable_lvn.

(** A request for a node (src/var.cpp:1182-1337 jitc_var_new_node_0..4,
    933-987 literals, 1036-1098 undefined/counter/call inputs): the operands'
    counts are increased, then jitc_var_new is called. Operands with pending
    side effects are evaluated before; see [OEval], [OEffect]. *)
Record req := mkReq { q_kind : N; q_backend : N; q_type : N; q_size : N; q_lit : N;
                      q_dep : list N; q_array : bool; q_coop : bool; q_alen : N }.
Definition var_of_req (q : req) : var :=
  mkVar 0 0 0 (q_dep q) (q_lit q) (q_size q) 0 (q_kind q) (q_backend q) (q_type q)
        false false false (q_array q) (q_coop q) (q_alen q).
Definition new_node (s : st) (e : env) (q : req) (dis : bool) : option (st * N) :=
  let? s := inc_refs s (q_dep q) in var_new s e (var_of_req q) dis.

(** src/var.cpp:933-968 jitc_var_literal, the not evaluated case *)
Definition literal (s : st) (e : env) (backend type value size : N) : option (st * N) :=
  if size =? 0 then Some (s, 0) else
  var_new s e (mkVar 0 0 0 [0; 0; 0; 0] (trunc type value) size 0 K_Literal backend type
                     false false false false false 0) false.

(** src/var.cpp:1786-1817 jitc_var_mem_map *)
Definition mem_map (s : st) (e : env) (backend type ptr size : N) (free : bool) : option (st * N) :=
  if size =? 0 then Some (s, 0) else
  var_new s e (mkVar 0 0 0 [0; 0; 0; 0] ptr size 0 K_Evaluated backend type
                     false false (negb free) false false 0) true.

(** src/var.cpp:989-1025 jitc_var_pointer *)
Definition var_pointer (s : st) (e : env) (backend value dep : N) (write written dis : bool) : option (st * N) :=
  let? s := (if write then inc_ref_se s dep else inc_ref s dep) in
  let? _ := nth_error (tscope s) (e_tid e) in
  var_new_at s e 1 (mkVar 0 0 0 [0; 0; 0; dep] value 1 0 K_Literal backend T_Pointer
                          write (write || written) false false false 0) dis.

(** ** Operations on existing variables *)

(** Evaluation turns node [i] into a memory region: the per-variable clean-up of
    src/eval.cpp:1181-1216. The references held by the evaluator are [OInc]/[ODec]
    of the client. *)
Definition eval_output (s : st) (i ptr : N) (c : list N) : option st :=
  let? v := jitc_var s i in
  let s := lvn_drop s i v in
  let? s := mem_alloc s ptr c in
  let v' := set_vscope (set_data v K_Evaluated ptr) (if v_array v then SCOPE_ARRAY else SCOPE_BUFFER) in
  let? s := vset s i (set_dep v' [0; 0; 0; 0]) in
  dec_refs s (v_dep v).
(** The same for a node that was executed for its side effect. *)
Definition eval_effect (s : st) (i : N) : option st :=
  let? v := jitc_var s i in
  let s := lvn_drop s i v in
  let? s := vset s i (set_dep v [0; 0; 0; 0]) in
  dec_refs s (v_dep v).

(** src/var.cpp:1543-1580 jitc_var_eval_force; [junk]: contents of fresh memory *)
Definition eval_force (s : st) (e : env) (v : var) (ptr : N) (junk : list N) : option (st * N) :=
  let c := if is_literal v then repeat (trunc (v_type v) (v_lit v)) (N.to_nat (v_size v)) else junk in
  let? s := mem_alloc s ptr c in
  mem_map s e (v_backend v) (v_type v) ptr (v_size v) true.

(** src/var.cpp:1822-1878 mem_copy, device to device *)
Definition mem_copy (s : st) (e : env) (v : var) (ptr : N) : option (st * N) :=
  if v_size v =? 0 then Some (s, 0) else
  let? c := find_heap (v_lit v) (heap s) in
  let? s := mem_alloc s ptr (firstn (N.to_nat (v_size v)) c) in
  mem_map s e (v_backend v) (v_type v) ptr (v_size v) true.

Inductive out := OIndex (i : N) | OVal (x : N) | OWeak (i c : N) | OResolved (r : option N)
               | OUnit | ORaise.

(** src/var.cpp:1880-1921 jitc_var_copy. An evaluation that the function starts
    itself (pending side effects) is a separate operation here: [ORaise]. *)
Definition var_copy (s : st) (e : env) (i ptr : N) : option (st * out) :=
  if i =? 0 then Some (s, OIndex 0) else
  let? v := jitc_var s i in
  if is_dirty v then Some (s, ORaise) else
  let? x :=
    (if is_evaluated v then mem_copy s e v ptr
     else if is_literal v || is_undefined v then
       var_new s e (mkVar 0 0 0 [0; 0; 0; 0] (v_lit v) (v_size v) 0 (v_kind v) (v_backend v) (v_type v)
                          false false false false false 0) true
     else
       let? s := inc_ref s i in
       var_new s e (mkVar 0 0 0 [i; 0; 0; 0] 0 (v_size v) 0 K_Bitcast (v_backend v) (v_type v)
                          false false false false false 0) true) in
  Some (fst x, OIndex (snd x)).

(** src/var.cpp:1582-1613 jitc_var_data; [None] inside: needs evaluation first. *)
Definition var_data (s : st) (e : env) (i ptr : N) (junk : list N) : option (st * option N) :=
  let? v := jitc_var s i in
  if is_literal v || is_undefined v then
    let? x := eval_force s e v ptr junk in Some (fst x, Some (snd x))
  else if is_evaluated v then
    if is_dirty v then Some (s, None)
    else let? s := inc_ref s i in Some (s, Some i)
  else Some (s, None).

(** src/var.cpp:1731-1757 jitc_var_read *)
Definition var_read (s : st) (i off : N) : option out :=
  let? v := jitc_var s i in
  if is_node v || is_dirty v then Some ORaise else
  let off := if v_size v =? 1 then 0 else off in
  if v_size v <=? off then Some ORaise
  else if is_literal v || is_undefined v then Some (OVal (trunc (v_type v) (v_lit v)))
  else if is_evaluated v then
    let? c := find_heap (v_lit v) (heap s) in
    let? x := nth_error c (N.to_nat off) in Some (OVal x)
  else None.

(** src/var.cpp:1760-1783 jitc_var_write; [p1], [p2]: addresses that the
    allocator would return. *)
Definition var_write (s : st) (e : env) (i off x p1 p2 : N) (junk : list N) : option (st * out) :=
  let? y := var_data s e i p1 junk in
  let '(s, r) := y in
  match r with
  | None => Some (s, ORaise)
  | Some r =>
      let? v := jitc_var s r in
      let? y := (if 2 <? v_rc v then
                   let? z := mem_copy s e v p2 in
                   let? s := dec_ref (fst z) r in Some (s, snd z)
                 else Some (s, r)) in
      let '(s, r) := y in
      let? v := jitc_var s r in
      if v_size v <=? off then let? s := dec_ref s r in Some (s, ORaise)
      else let? h := poke (v_lit v) (N.to_nat off) (trunc (v_type v) x) (heap s) in
           Some (with_heap s h, OIndex r)
  end.

(** src/var.cpp:1966-1997 jitc_var_shrink *)
Definition var_shrink (s : st) (e : env) (i size ptr : N) (junk : list N) : option (st * out) :=
  if (i =? 0) || (size =? 0) then Some (s, OIndex 0) else
  let? v := jitc_var s i in
  if v_size v =? size then let? s := inc_ref s i in Some (s, OIndex i)
  else if v_size v <? size then Some (s, ORaise)
  else if is_literal v then
    let? x := literal s e (v_backend v) (v_type v) (v_lit v) size in Some (fst x, OIndex (snd x))
  else
    let? y := var_data s e i ptr junk in
    let '(s, d) := y in
    match d with
    | None => Some (s, ORaise)
    | Some d =>
        let? vd := jitc_var s d in
        let? y := mem_map s e (v_backend v) (v_type v) (v_lit vd) size false in
        let '(s, r) := y in
        let? w := jitc_var s r in
        let? s := vset s r (set_dep w [0; 0; 0; i]) in
        let? s := inc_ref s i in
        let? s := dec_ref s d in
        Some (s, OIndex r)
    end.

(** src/var.cpp:1999-2053 jitc_var_resize *)
Definition var_resize (s : st) (e : env) (i size : N) : option (st * out) :=
  let? v := jitc_var s i in
  if v_size v =? size then let? s := inc_ref s i in Some (s, OIndex i)
  else if negb (v_size v =? 1) && negb (is_literal v) then Some (s, ORaise)
  else if is_dirty v then Some (s, ORaise)
  else if negb (is_evaluated v) && (v_rc v =? 1) then
    let? s := inc_ref s i in
    let? v := vget s i in
    let s := lvn_drop s i v in
    let v := set_size v size in
    let? s := vset s i v in
    Some (lvn_put s i v, OIndex i)
  else if is_literal v then
    let? x := literal s e (v_backend v) (v_type v) (v_lit v) size in Some (fst x, OIndex (snd x))
  else
    let? s := inc_ref s i in
    let? x := var_new s e (mkVar 0 0 0 [i; 0; 0; 0] 0 size 0 K_Bitcast (v_backend v) (v_type v)
                                 false false false false (v_coop v) (v_alen v)) true in
    Some (fst x, OIndex (snd x)).

(** ** Scopes *)

Fixpoint insert_sorted (x : N) (l : list N) : list N :=
  match l with
  | [] => [x]
  | y :: r => if x <=? y then x :: l else y :: insert_sorted x r
  end.
Definition sort (l : list N) : list N := fold_right insert_sorted [] l.
(** std::unique: removes consecutive duplicates *)
Fixpoint unique (l : list N) : list N :=
  match l with
  | x :: ((y :: _) as r) => if x =? y then unique r else x :: unique r
  | _ => l
  end.
(** std::lower_bound as a position: the number of entries below [x] before the
    first entry that is not. (The C++ function uses bisection.) *)
Fixpoint lower_bound (l : list N) (x : N) : N :=
  match l with
  | [] => 0
  | y :: r => if y <? x then 1 + lower_bound r x else 0
  end.

(** src/var.cpp:1103-1148 jitc_compact_scopes *)
Definition dyn (s : N) : list N := if SCOPE_DYNAMIC <=? s then [s] else [].
Definition collected (s : st) : list N :=
  flat_map (fun v => if referenced v then dyn (v_scope v) else []) (tl (vars s))
  ++ flat_map dyn (tscope s).
Definition remap (scopes : list N) (x : N) : N :=
  if x <? SCOPE_DYNAMIC then x else u32 (SCOPE_DYNAMIC + u32 (lower_bound scopes x)).
Fixpoint rebuild (l : list var) (m : list (key * N)) (acc : list (key * N)) : option (list (key * N)) :=
  match m with
  | [] => Some acc
  | (_, i) :: r => let? v := nth_error l (N.to_nat i) in
                   rebuild l r (emplace_lvn (key_of v) i acc)
  end.
Definition compact_scopes (s : st) : option st :=
  let scopes := unique (sort (collected s)) in
  let fix_v v := if referenced v then set_vscope v (remap scopes (v_scope v)) else v in
  let vs := match vars s with [] => [] | v0 :: r => v0 :: map fix_v r end in
  let? m := rebuild vs (lvn s) [] in
  Some (mkSt vs (unused s) m (map (remap scopes) (tscope s))
             (u32 (SCOPE_DYNAMIC - 1 + u32 (N.of_nat (length scopes)))) (heap s)).

(** src/var.cpp:1151-1155 *)
Definition scope_next (s : st) : option (st * N) :=
  let? s := (if sctr s =? 2 ^ 32 - 1 then compact_scopes s else Some s) in
  let c := u32 (sctr s + 1) in
  Some (with_scope s (tscope s) c, c).

(** ** Operations *)
Inductive op :=
| ONode (e : env) (q : req) (dis : bool)
| OLiteral (e : env) (backend type value size : N)
| OMemMap (e : env) (backend type ptr size : N) (c : list N)
| OPointer (e : env) (dep : N) (write written dis : bool)
| OInc (i : N) | ODec (i : N)
| OEval (i ptr : N) (c : list N) | OEffect (i : N)
| OCopy (e : env) (i ptr : N)
| ORead (i off : N)
| OWrite (e : env) (i off x p1 p2 : N) (junk : list N)
| OShrink (e : env) (i size ptr : N) (junk : list N)
| OResize (e : env) (i size : N)
| OGetWeak (i : N) | OResolve (i c : N)
| OThread | ONewScope (tid : nat) | OAdvance (tid : nat) (n : N) | OSetScope (tid : nat) (sc : N)
| OStoreDep (i d : N).

Definition ix (r : option (st * N)) : option (st * out) :=
  let? x := r in Some (fst x, OIndex (snd x)).

Definition step (s : st) (o : op) : option (st * out) :=
  match o with
  | ONode e q dis => ix (new_node s e q dis)
  | OLiteral e b t x n => ix (literal s e b t x n)
  (* src/var.cpp:1822-1878: a memory region obtained from jitc_malloc, then mem_map *)
  | OMemMap e b t p n c => let? s := mem_alloc s p c in ix (mem_map s e b t p n true)
  | OPointer e d w wr dis =>
      let? v := jitc_var s d in
      ix (var_pointer s e (v_backend v) (v_lit v) d w wr dis)
  | OInc i => let? s := inc_ref s i in Some (s, OUnit)
  | ODec i => let? s := dec_ref s i in Some (s, OUnit)
  | OEval i p c => let? s := eval_output s i p c in Some (s, OUnit)
  | OEffect i => let? s := eval_effect s i in Some (s, OUnit)
  | OCopy e i p => var_copy s e i p
  | ORead i off => let? r := var_read s i off in Some (s, r)
  | OWrite e i off x p1 p2 j => var_write s e i off x p1 p2 j
  | OShrink e i n p j => var_shrink s e i n p j
  | OResize e i n => var_resize s e i n
  | OGetWeak i => let? v := jitc_var s i in Some (s, OWeak i (v_counter v))
  | OResolve i c => let? r := jitc_var_weak s i c in Some (s, OResolved r)
  (* src/init.cpp:368, 462 *)
  | OThread => let? x := scope_next s in
               Some (with_scope (fst x) (tscope (fst x) ++ [snd x]) (sctr (fst x)), OUnit)
  (* src/var.cpp:1157-1162 *)
  | ONewScope t => let? x := scope_next s in
                   let? l := upd t (snd x) (tscope (fst x)) in
                   Some (with_scope (fst x) l (sctr (fst x)), OVal (snd x))
  (* src/var.cpp:1164-1172 *)
  | OAdvance t n =>
      let v := u32 (sctr s + n) in
      let v := if v <? sctr s then 2 ^ 32 - 1 else v in
      let? l := upd t v (tscope s) in
      Some (with_scope s l v, OVal v)
  (* src/api.cpp:123-127, 147-167 *)
  | OSetScope t c => let? l := upd t c (tscope s) in Some (with_scope s l (sctr s), OUnit)
  (* src/array.cpp:372-375: after jit_array_write created the node [i] with
     value numbering enabled, operand 3 is replaced in place; the caller's
     reference to [d] is transferred. *)
  | OStoreDep i d =>
      let? v := jitc_var s i in
      let? s := vset s i (set_dep v (firstn 3 (v_dep v) ++ [d])) in Some (s, OUnit)
  end.

Fixpoint run (s : st) (os : list op) : option (st * list out) :=
  match os with
  | [] => Some (s, [])
  | o :: t => let? x := step s o in
              let? y := run (fst x) t in
              Some (fst y, snd x :: snd y)
  end.
