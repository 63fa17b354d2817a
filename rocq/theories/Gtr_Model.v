(** Getters: call.cpp:634-728 (jitc_var_call_getter), var.cpp:2231-2270 (jitc_var_mask_apply, with
    the mask stack), op.cpp:1460-1485 (jitc_var_and on masks), var.cpp:1999-2053 (jitc_var_resize),
    1225-1254 (new_node_2), 1582-1613 (jitc_var_data); the tables in the shared call buffer
    (call.cpp:732-760, 1184-1213, as in Lay_Model); the generated loads
    (llvm_eval.cpp:1653-1690, cuda_eval.cpp:1730-1771, metal_eval.cpp:1538-1559).

    Simplifications: variables keep their contents between the creation of the getter and its
    evaluation, except for effects that are pending already; jitc_eval performs all pending
    effects; undefined variables, consumed variables, symbolic masks and in-place resizing are
    not modelled; the kernel has the size of the getter; double precision on Metal (demotion)
    is not modelled. *)
From Verif Require Import Base.
From Verif Require Lay_Model.
Local Open Scope N_scope.

Inductive bk := LLVM | CUDA | Metal.
Definition bk_eqb (a b : bk) : bool := match a, b with LLVM, LLVM | CUDA, CUDA | Metal, Metal => true | _, _ => false end.
Definition is_llvm (b : bk) : bool := match b with LLVM => true | _ => false end.
(** var.cpp:117-119, jit.h:597-611 *)
Definition tsz (vt : N) : N := nth (N.to_nat vt) [0; 1; 0; 1; 1; 2; 2; 4; 4; 8; 8; 8; 0; 2; 4; 8] 0.
Definition TBool : N := 1. Definition TUInt32 : N := 8.

(** A variable: a literal, a node that is not evaluated, or an array in memory; [v_new]: its
    contents after a pending scatter (dirty) *)
Record var := { v_ty : N; v_bk : bk; v_size : N; v_lit : option N; v_node : bool; v_data : list N; v_new : option (list N) }.
Definition heap : Type := N -> option var.
Definition dirty (v : var) : bool := match v_new v with Some _ => true | None => false end.
Definition evaluated (v : var) : bool := match v_lit v with Some _ => false | None => negb (v_node v) end.
(** jitc_eval *)
Definition settle (v : var) : var :=
  {| v_ty := v_ty v; v_bk := v_bk v; v_size := v_size v; v_lit := v_lit v; v_node := v_node v;
     v_data := match v_new v with Some l => l | None => v_data v end; v_new := None |}.
Definition flush (h : heap) : heap := fun i => option_map settle (h i).

(** ** Masks *)
Inductive mexpr := MVar (i : N) | MLit (b : bool) (n : N) | MDefault (n : N) | MAnd (a b : mexpr) (n : N) | MResize (a : mexpr) (n : N).
Definition msize (h : heap) (m : mexpr) : N :=
  match m with MVar i => match h i with Some v => v_size v | None => 0 end | MLit _ n | MDefault n | MAnd _ _ n | MResize _ n => n end.
Definition mlit (h : heap) (m : mexpr) : option bool :=
  match m with
  | MVar i => match h i with Some v => option_map (fun x => negb (x =? 0)) (v_lit v) | None => None end
  | MLit b _ => Some b
  | _ => None
  end.
Definition mdirty (h : heap) (m : mexpr) : bool := match m with MVar i => match h i with Some v => dirty v | None => false end | _ => false end.
(** The same variable *)
Definition same (a b : mexpr) : bool := match a, b with MVar i, MVar j => i =? j | _, _ => false end.
(** var.cpp:1999-2053; [None]: an exception *)
Definition resize (h : heap) (m : mexpr) (n : N) : option (heap * mexpr) :=
  if msize h m =? n then Some (h, m)
  else match mlit h m with
       | Some b => Some (h, MLit b n)
       | None => if negb (msize h m =? 1) then None
                 else Some ((if mdirty h m then flush h else h), MResize m n)
       end.
(** op.cpp:1460-1485, 77-224; [cp]: JitFlag::ConstantPropagation *)
Definition and_ (cp : bool) (h : heap) (a b : mexpr) : option (heap * mexpr) :=
  let n := N.max (msize h a) (msize h b) in
  if negb ((msize h a =? n) || (msize h a =? 1)) || negb ((msize h b =? n) || (msize h b =? 1)) then None
  else
    let node := Some ((if mdirty h a || mdirty h b then flush h else h), MAnd a b n) in
    if cp then
      match mlit h a, mlit h b with
      | Some x, Some y => Some (h, MLit (x && y) n)
      | Some false, None | None, Some false => Some (h, MLit false n)
      | None, Some true => resize h a n
      | Some true, None => resize h b n
      | None, None => if same a b then resize h a n else node
      end
    else node.
(** var.cpp:2231-2270; [stack]: top of the mask stack *)
Definition mask_apply (cp : bool) (b : bk) (stack : option N) (h : heap) (mask size : N) : option (heap * mexpr) :=
  let top := match stack with
             | Some t => let s := msize h (MVar t) in
                         if (size =? 1) || (s =? 1) || (s =? size) then Some t else None
             | None => None
             end in
  let? m := (if is_llvm b then
               match top with
               | None => Some (h, Some (MDefault size))
               | Some t =>
                   if match h t with Some v => evaluated v | None => false end && (size =? 1) then
                     let? r := and_ cp h (MVar t) (MDefault size) in Some (fst r, Some (snd r))
                   else Some (h, Some (MVar t))
               end
             else Some (h, option_map MVar top)) in
  match snd m with
  | Some e => and_ cp (fst m) e (MVar mask)
  | None => resize (fst m) (MVar mask) size
  end.

(** ** The getter *)
(** Value of a callable: none, a literal, or the contents of a variable *)
Inductive src := Absent | Lit (x : N) | Data (i : N).
(** call.cpp:663-689 *)
Fixpoint collect (h : heap) (ty : N) (b : bk) (ids : list N) : option (heap * list src) :=
  match ids with
  | [] => Some (h, [])
  | i :: r =>
      if i =? 0 then let? x := collect h ty b r in Some (fst x, Absent :: snd x)
      else
        let? v := h i in
        if negb (v_size v =? 1) then None
        else if negb (v_ty v =? ty) then None
        else if negb (bk_eqb (v_bk v) b) then None
        else match v_lit v with
             | Some l => let? x := collect h ty b r in Some (fst x, Lit l :: snd x)
             | None =>
                 let? x := collect (if dirty v || v_node v then flush h else h) ty b r in Some (fst x, Data i :: snd x)
             end
  end.
Record node := { n_ty : N; n_bk : bk; n_size : N; n_index : N; n_mask : mexpr; n_vals : list src }.
(** call.cpp:634-728 *)
Definition getter (cp : bool) (stack : option N) (h : heap) (ty : N) (values : list N) (index mask : N) : option (heap * node) :=
  if (index =? 0) || (mask =? 0) then None
  else
    let? vi := h index in
    let? vm := h mask in
    if negb (v_ty vi =? TUInt32) then None
    else if negb (v_ty vm =? TBool) then None
    else if negb (bk_eqb (v_bk vm) (v_bk vi)) then None
    else
      let? x := collect h ty (v_bk vi) values in
      let size := N.max (v_size vi) (v_size vm) in
      let? m := mask_apply cp (v_bk vi) stack (fst x) mask size in
      Some (fst m, {| n_ty := ty; n_bk := v_bk vi; n_size := N.max size (msize (fst m) (snd m)); n_index := index; n_mask := snd m; n_vals := snd x |}).

(** ** Evaluation *)
(** Contents that a kernel finds; the effects that are pending may be executed earlier or later *)
Definition contents (late : N -> bool) (i : N) (v : var) : list N :=
  match v_new v with Some l => if late i then v_data v else l | None => v_data v end.
(** Lanes of a kernel come in groups of [w]; lanes past the end of an array see arbitrary
    contents ([pad]).  [None]: out of bounds *)
Definition lane (w : N) (late : N -> bool) (pad : N -> N -> N) (h : heap) (i l : N) : option N :=
  let? v := h i in
  match v_lit v with
  | Some x => Some x
  | None =>
      if v_size v =? 1 then nth_error (contents late i v) 0
      else if l <? v_size v then nth_error (contents late i v) (N.to_nat l)
      else if l <? (v_size v + w - 1) / w * w then Some (pad i l)
      else None
  end.
(** llvm: trunc to i1; others: comparison with zero *)
Definition truth (b : bk) (x : N) : bool := match b with LLVM => N.odd x | _ => negb (x =? 0) end.
Fixpoint mval (b : bk) (w : N) (late : N -> bool) (pad : N -> N -> N) (h : heap) (n : N) (m : mexpr) (l : N) : option bool :=
  match m with
  | MVar i => option_map (truth b) (lane w late pad h i l)
  | MLit x _ => Some x
  | MDefault _ => Some (l <? n)
  | MAnd x y _ =>
      let? p := mval b w late pad h n x l in
      let? q := mval b w late pad h n y l in Some (p && q)
  | MResize x _ => mval b w late pad h n x l
  end.
(** call.cpp:1188-1213, llvm_ts.cpp:976-987: bytes of a table *)
Definition row (late : N -> bool) (h : heap) (t : N) (s : src) : list N :=
  Lay_Model.le_bytes (N.to_nat t)
    (match s with
     | Absent => 0
     | Lit x => x
     | Data i => match h i with Some v => nth 0 (contents late i v) 0 | None => 0 end
     end).
Definition table (late : N -> bool) (h : heap) (g : node) : Lay_Model.item :=
  Lay_Model.IGetter (tsz (n_ty g)) (map (row late h (tsz (n_ty g))) (n_vals g)).
(** Load of [t] bytes at [a]; [None]: outside of the buffer *)
Fixpoint bytes (m : N -> N) (a : N) (n : nat) : N := match n with O => 0 | S n => m a + 256 * bytes m (a + 1) n end.
Definition load (m : N -> N) (total : N) (a : Z) (t : N) : option N :=
  if (a <? 0)%Z || (Z.of_N total <? a + Z.of_N t)%Z then None else Some (bytes m (Z.to_N a) (N.to_nat t)).
(** LLVM: getelementptr extends the sign of the 32-bit index; CUDA and Metal: zero extension *)
Definition address (b : bk) (header t i : N) : Z :=
  match b with
  | LLVM => Z.of_N header + (if i <? 2 ^ 31 then Z.of_N i else Z.of_N i - 2 ^ 32) * Z.of_N t
  | _ => Z.of_N header + Z.of_N i * Z.of_N t
  end.
(** One lane: [m], [total]: shared buffer; [header]: offset of the table *)
Definition run (w : N) (late : N -> bool) (pad : N -> N -> N) (h : heap) (g : node) (m : N -> N) (total header : N) (l : N) : option N :=
  let? i := lane w late pad h (n_index g) l in
  let? q := mval (n_bk g) w late pad h (n_size g) (n_mask g) l in
  if q then
    let? x := load m total (address (n_bk g) header (tsz (n_ty g)) i) (tsz (n_ty g)) in
    Some (if n_ty g =? TBool then (if truth (n_bk g) x then 1 else 0) else x)
  else Some 0.
