(** Model of kernel assembly and of the kernels that it produces:
    src/eval.cpp:349-545 and 602-606 (jitc_assemble: parameters, registers, output
    buffers), src/llvm_eval.cpp:76-216 (jitc_llvm_assemble), src/cuda_eval.cpp:70-217
    (jitc_cuda_assemble), src/metal_eval.cpp:255-352 (jitc_metal_assemble), the
    directives of src/strbuf.cpp:514-860 that they use, src/malloc.cpp:102-123 (size of
    an allocation), src/var.cpp:1811-1815 (the flag [unaligned]), and of the execution
    of the generated text by the workers of a launch (src/llvm_ts.cpp:144-167).

    Simplifications: the text is a list of statements (one constructor per emitted line)
    instead of characters; array variables, loops, conditionals, labels, calls of OptiX
    and Metal resource handles do not occur; an operation is one statement, whose
    meaning is a parameter; the pointer to the data of virtual function calls is loaded
    at the start of every iteration instead of once per kernel; the statements of one
    variable run without interruption by another worker; kernel parameters are a list
    of 64-bit words, whichever way the launch passes them to the kernel. *)
From Verif Require Import Base.
From Verif Require Launch_Model.
Local Open Scope N_scope.

Inductive backend := LLVM | CUDA | METAL.

(** include/drjit-core/jit.h:597-611 and src/var.cpp:117-119 *)
Definition T_Void := 0.
Definition T_Bool := 1.
Definition T_Pointer := 11.
Definition type_size (t : N) : N :=
  nth (N.to_nat t) [0; 1; 0; 1; 1; 2; 2; 4; 4; 8; 8; 8; 0; 2; 4; 8] 0.

(** src/var.cpp:111-114: register prefixes ("%u", "%p", "%b", "%w", "%r", "%rd", "%h",
    "%f", "%d" are 0, 1, 3, 4, 5, 6, 7, 8, 9). *)
Definition type_prefix (t : N) : N :=
  nth (N.to_nat t) [0; 1; 2; 3; 3; 4; 4; 5; 5; 6; 6; 6; 2; 7; 8; 9] 2.

(** The parts of [Variable] (src/internal.h:255-420) that assembly looks at.
    [KOp op deps call]: any other operation, [call] marks Call/CallGetter. *)
Inductive kind :=
| KEval (data : N)
| KLit (bits : N)
| KCounter
| KMask (counter : N)
| KOp (op : N) (deps : list N) (call : bool).

Record var := {
  v_id : N; v_type : N; v_size : N; v_kind : kind;
  v_out : bool;      (* output_flag *)
  v_side : bool;     (* side_effect *)
  v_unal : bool      (* unaligned *)
}.

Inductive ptype := Input | Output | Register.

(** What assembly stores in a variable: src/eval.cpp:449-507 *)
Record slot := { s_var : var; s_ptype : ptype; s_off : N; s_reg : N }.

Inductive result (A : Type) := Done (a : A) | Fails | OutOfMemory.
Arguments Done {A}. Arguments Fails {A}. Arguments OutOfMemory {A}.

Definition is_eval (v : var) : bool := match v_kind v with KEval _ => true | _ => false end.
Definition is_lit (v : var) : bool := match v_kind v with KLit _ => true | _ => false end.
Definition is_call (v : var) : bool :=
  match v_kind v with KOp _ _ c => c | _ => false end.

(** src/eval.cpp:478-488: bytes requested for an output *)
Definition out_bytes (b : backend) (w size : N) (t : N) : N :=
  let isize := type_size t in
  let n := match b with LLVM => (size + w - 1) / w * w | _ => size end in
  let dsize := n * isize in
  match b with
  | LLVM => if isize =? 1 then dsize + (4 - isize) else dsize
  | _ => dsize
  end.

Record state := {
  a_params : list N;          (* kernel_params *)
  a_write : list bool;        (* kernel_param_info, the field "write" *)
  a_regs : N;                 (* n_regs *)
  a_slots : list slot;
  a_bufs : list (N * N * N)   (* outputs: variable, bytes requested, address *)
}.

(** src/eval.cpp:388-401 *)
Definition initial (b : backend) (size : N) : state :=
  match b with
  | LLVM => {| a_params := [0; 0; 0]; a_write := [false; false; false]; a_regs := 1;
               a_slots := []; a_bufs := [] |}
  | CUDA => {| a_params := [size]; a_write := [false]; a_regs := 4; a_slots := []; a_bufs := [] |}
  | METAL => {| a_params := [size]; a_write := [false]; a_regs := 1; a_slots := []; a_bufs := [] |}
  end.

Definition add_slot (s : state) (v : var) (p : ptype) (off : N) (param : list (N * bool))
                    (buf : list (N * N * N)) : state :=
  {| a_params := a_params s ++ map fst param;
     a_write := a_write s ++ map snd param;
     a_regs := u32 (a_regs s + 1);
     a_slots := a_slots s ++ [{| s_var := v; s_ptype := p; s_off := off; s_reg := a_regs s |}];
     a_bufs := a_bufs s ++ buf |}.

(** src/eval.cpp:414-507: one variable. [malloc k n]: address that jitc_malloc returns
    for the [k]-th output of the kernel, a request of [n] bytes, or [None]. The checks
    of lines 419-446 other than the one of the size are modelled in Trav_Model.v. *)
Definition place (b : backend) (w size : N) (malloc : nat -> N -> option N)
                 (s : state) (v : var) : result state :=
  if negb ((v_size v =? 1) || (v_size v =? size)) then Fails
  else
    let off := u32 (N.of_nat (length (a_params s)) * 8) in
    match v_kind v with
    | KEval data => Done (add_slot s v Input off [(data, false)] [])
    | _ =>
        if v_out v && (v_size v =? size) then
          let bytes := out_bytes b w size (v_type v) in
          match malloc (length (a_bufs s)) bytes with
          | None => OutOfMemory
          | Some p => Done (add_slot s v Output off [(p, true)] [(v_id v, bytes, p)])
          end
        else
          match v_kind v with
          | KLit bits =>
              if v_type v =? T_Pointer then
                Done (add_slot s v Input off [(bits, false)] [])
              else Done (add_slot s v Register 65535 [] [])
          | _ => Done (add_slot s v Register 65535 [] [])
          end
    end.

Fixpoint place_all b w size malloc (s : state) (g : list var) : result state :=
  match g with
  | [] => Done s
  | v :: r => match place b w size malloc s v with
              | Done s' => place_all b w size malloc s' r
              | Fails => Fails
              | OutOfMemory => OutOfMemory
              end
  end.

(** src/eval.cpp:512-540, 602-606: register and parameter of the call-data pointer [cb] *)
Definition needs_calls (g : list var) : bool := existsb is_call g.

Record kernel := {
  k_params : list N; k_write : list bool; k_regs : N; k_slots : list slot;
  k_bufs : list (N * N * N);
  k_base : option (N * N)   (* register, index of the parameter *)
}.

Definition finish (g : list var) (cb : N) (s : state) : kernel :=
  if needs_calls g then
    {| k_params := a_params s ++ [cb]; k_write := a_write s ++ [false];
       k_regs := u32 (a_regs s + 1); k_slots := a_slots s; k_bufs := a_bufs s;
       k_base := Some (a_regs s, u32 (N.of_nat (length (a_params s)))) |}
  else
    {| k_params := a_params s; k_write := a_write s; k_regs := a_regs s;
       k_slots := a_slots s; k_bufs := a_bufs s; k_base := None |}.

Definition allocate b w size malloc cb g : result kernel :=
  match place_all b w size malloc (initial b size) g with
  | Done s => Done (finish g cb s)
  | Fails => Fails
  | OutOfMemory => OutOfMemory
  end.

(** Names: prefix, register index, suffix ("", "_p1", "_p2", "_p3", "_0", "_1", "_2",
    "_e" are 0..7). *)
Definition name := (N * N * N)%type.
Definition name_eqb (a b : name) : bool :=
  let '(x, y, z) := a in let '(x', y', z') := b in (x =? x') && (y =? y') && (z =? z').

(** Statements. [A.. ] LLVM, [C..] PTX, [M..] Metal, [I..] common to all. *)
Inductive instr :=
| AParam (d : name) (o : N)                  (* d = getelementptr ptr, ptr %params, i32 o *)
| ALoadPtr (d a : name)                      (* d = load ptr, ptr a *)
| AElem (d a : name) (sz : N)                (* d = getelementptr m, ptr a, i64 %index *)
| ALoadV (d a : name) (sz al : N)            (* d = load <w x m>, ptr a, align al *)
| ATruncV (d a : name)                       (* d = trunc <w x i8> a to <w x i1> *)
| ALoadS (d a : name) (sz al : N)            (* d = load m, ptr a, align al *)
| ATruncS (d a : name)                       (* d = trunc i8 a to i1 *)
| AInsert (d a : name)                       (* d = insertelement undef, a, i32 0 *)
| AInsertLit (d : name) (bits : N)
| AShuffle (d a : name)                      (* d = shufflevector a, undef, zeroinitializer *)
| AZext (d a : name)                         (* d = zext <w x i1> a to <w x i8> *)
| AStoreV (v a : name) (sz al : N)           (* store <w x m> v, ptr a, align al *)
| CParam (d : name) (off : N)                (* ld.param.u64 d, [params+off] *)
| CMad (d : name) (sz : N)                   (* mad.wide.u32 d, %r0, sz, d *)
| CLoad (d a : name) (sz : N)                (* ld.global d, [a] *)
| CSetp (d a : name)                         (* setp.ne.u16 d, a, 0 *)
| CMov (d : name) (bits : N)                 (* mov d, bits *)
| CSelp (d a : name)                         (* selp.u16 d, 1, 0, a *)
| CStore (a v : name) (sz : N)               (* st.global [a], v *)
| MPointer (d : name) (o : N)                (* t d = (t) params.args[o] *)
| MLoad (d : name) (o : N) (t : N) (each : bool)  (* t d = ((device const t * ) params.args[o])[r0] *)
| MLiteral (d : name) (bits : N)
| MStore (v : name) (o : N) (t : N)          (* ((device t * ) params.args[o])[r0] = v *)
| ICounter (d : name)
| IMask (d a : name)
| IOp (d : option name) (op : N) (args : list name) (side : bool).

(** "$v": src/strbuf.cpp:596-602, 741-746, fmt_metal (always "r<index>") *)
Definition vname (b : backend) (t reg : N) (suffix : N) : name :=
  (match b with METAL => 20 | _ => type_prefix t end, reg, suffix).

(** "$o": src/strbuf.cpp:627-630, 762-765, 853-856 *)
Definition off_text (b : backend) (off : N) : N :=
  match b with LLVM => off / 8 | CUDA => off | METAL => sub32 (off / 8) 1 end.

(** "$a" and "$A" of fmt_llvm: src/strbuf.cpp:615-625 *)
Definition align_s (v : var) : N := if v_unal v then 1 else type_size (v_type v).
Definition align_v (w : N) (v : var) : N := if v_unal v then 1 else u32 (type_size (v_type v) * w).

(** The register of a dependency: [jitc_var(dep)->reg_index], 0 outside of the kernel
    (src/eval.cpp:1171). *)
Definition dep_name (b : backend) (ss : list slot) (id : N) : name :=
  match find (fun s => v_id (s_var s) =? id) ss with
  | Some s => vname b (v_type (s_var s)) (s_reg s) 0
  | None => vname b T_Void 0 0
  end.

Definition base_name (b : backend) (reg : N) : name := vname b T_Pointer reg 0.

(** jitc_llvm_render / jitc_cuda_render / jitc_metal_render. Literals:
    src/llvm_eval.cpp:168-172, src/cuda_eval.cpp:676-678, src/metal_eval.cpp:497-508;
    counter: src/llvm_eval.cpp:1092-1098, src/cuda_eval.cpp:1160-1162,
    src/metal_eval.cpp:510-512; default mask: src/llvm_eval.cpp:1100-1106. *)
Definition render (b : backend) (k : kernel) (s : slot) : list instr :=
  let v := s_var s in
  let nm := vname b (v_type v) (s_reg s) in
  match v_kind v with
  | KEval _ => []
  | KLit bits =>
      match b with
      | LLVM => [AInsertLit (nm 5) bits; AShuffle (nm 0) (nm 5)]
      | CUDA => [CMov (nm 0) bits]
      | METAL => [MLiteral (nm 0) bits]
      end
  | KCounter => [ICounter (nm 0)]
  | KMask a => [IMask (nm 0) (dep_name b (k_slots k) a)]
  | KOp op deps call =>
      [IOp (if v_type v =? T_Void then None else Some (nm 0)) op
           (map (dep_name b (k_slots k)) deps ++
            match k_base k with
            | Some (r, _) => if call then [base_name b r] else []
            | None => []
            end)
           (v_side v)]
  end.

(** src/llvm_eval.cpp:101-193 *)
Definition llvm_slot (w : N) (k : kernel) (s : slot) : list instr :=
  let v := s_var s in
  let nm := vname LLVM (v_type v) (s_reg s) in
  let sz := type_size (v_type v) in
  let o := off_text LLVM (s_off s) in
  let address :=
    match s_ptype s with
    | Register => []
    | _ => if (match s_ptype s with Input => true | _ => false end) &&
              (v_size v =? 1) && (v_type v =? T_Pointer)
           then [AParam (nm 1) o; ALoadPtr (nm 0) (nm 1)]
           else [AParam (nm 1) o; ALoadPtr (nm 2) (nm 1)] ++
                (if negb (match s_ptype s with Input => true | _ => false end) || negb (v_size v =? 1)
                 then [AElem (nm 3) (nm 2) sz] else [])
    end in
  match s_ptype s with
  | Input =>
      address ++
      (if is_lit v then []
       else if negb (v_size v =? 1) then
         if v_type v =? T_Bool
         then [ALoadV (nm 4) (nm 3) sz (align_v w v); ATruncV (nm 0) (nm 4)]
         else [ALoadV (nm 0) (nm 3) sz (align_v w v)]
       else
         if v_type v =? T_Bool
         then [ALoadS (nm 4) (nm 2) sz (align_s v); ATruncS (nm 5) (nm 4);
               AInsert (nm 6) (nm 5); AShuffle (nm 0) (nm 6)]
         else [ALoadS (nm 4) (nm 2) sz (align_s v);
               AInsert (nm 5) (nm 4); AShuffle (nm 0) (nm 5)])
  | Register => address ++ render LLVM k s
  | Output =>
      address ++ render LLVM k s ++
      (if v_type v =? T_Bool
       then [AZext (nm 7) (nm 0); AStoreV (nm 7) (nm 3) sz (align_v w v)]
       else [AStoreV (nm 0) (nm 3) sz (align_v w v)])
  end.

Definition rd0 : name := (6, 0, 0).
Definition w0 : name := (4, 0, 0).

(** src/cuda_eval.cpp:164-214. "$V" is %w0 for booleans (src/strbuf.cpp:730-739). *)
Definition cuda_slot (k : kernel) (s : slot) : list instr :=
  let v := s_var s in
  let nm := vname CUDA (v_type v) (s_reg s) in
  let sz := type_size (v_type v) in
  let o := off_text CUDA (s_off s) in
  let memreg := if v_type v =? T_Bool then w0 else nm 0 in
  match s_ptype s with
  | Input =>
      if is_lit v then [CParam (nm 0) o]
      else [CParam rd0 o] ++ (if 1 <? v_size v then [CMad rd0 sz] else []) ++
           [CLoad memreg rd0 sz] ++ (if v_type v =? T_Bool then [CSetp (nm 0) w0] else [])
  | Register => render CUDA k s
  | Output =>
      render CUDA k s ++ [CParam rd0 o; CMad rd0 sz] ++
      (if v_type v =? T_Bool then [CSelp w0 (nm 0)] else []) ++ [CStore rd0 memreg sz]
  end.

(** src/metal_eval.cpp:288-351 *)
Definition metal_slot (k : kernel) (s : slot) : list instr :=
  let v := s_var s in
  let nm := vname METAL (v_type v) (s_reg s) in
  let o := off_text METAL (s_off s) in
  match s_ptype s with
  | Input =>
      match v_kind v with
      | KLit bits => if v_type v =? T_Pointer then [MPointer (nm 0) o] else [MLiteral (nm 0) bits]
      | _ => [MLoad (nm 0) o (v_type v) (1 <? v_size v)]
      end
  | Register => render METAL k s
  | Output => render METAL k s ++ [MStore (nm 0) o (v_type v)]
  end.

(** src/llvm_eval.cpp:216-221, src/cuda_eval.cpp:155-158, src/metal_eval.cpp:278-280 *)
Definition base_code (b : backend) (k : kernel) : list instr :=
  match k_base k with
  | None => []
  | Some (r, p) =>
      match b with
      | LLVM => [AParam (vname LLVM T_Pointer r 1) p;
                 ALoadPtr (base_name LLVM r) (vname LLVM T_Pointer r 1)]
      | CUDA => [CParam (base_name CUDA r) (u32 (p * 8))]
      | METAL => [MPointer (base_name METAL r) (sub32 p 1)]
      end
  end.

Definition slot_code (b : backend) (w : N) (k : kernel) (s : slot) : list instr :=
  match b with LLVM => llvm_slot w k s | CUDA => cuda_slot k s | METAL => metal_slot k s end.

(** The text of the kernel: declared number of registers (PTX only), number of
    parameters (PTX and Metal only), one block of statements for the call-data pointer
    and one per variable. *)
Record text := { t_backend : backend; t_regs : N; t_params : N; t_code : list (list instr) }.

Definition generate (b : backend) (w : N) (k : kernel) : text :=
  {| t_backend := b;
     t_regs := match b with CUDA => k_regs k | _ => 0 end;
     t_params := match b with LLVM => 0 | _ => N.of_nat (length (k_params k)) end;
     t_code := base_code b k :: map (slot_code b w k) (k_slots k) |}.

(** * Execution of the text *)

(** Byte-addressed memory; [None]: not accessible. *)
Definition mem := N -> option N.

Inductive val :=
| Sc (x : N)          (* scalar *)
| Ve (xs : list N)    (* vector with one element per lane *)
| In0 (x : N)         (* vector of which only element 0 is defined *)
| Pa (o : N).         (* address of a parameter *)

(** Undefined behaviour, or a text that the compiler rejects *)
Inductive outcome (A : Type) := Ok (a : A) | UB | Bad.
Arguments Ok {A}. Arguments UB {A}. Arguments Bad {A}.

Definition obind {A B} (x : outcome A) (f : A -> outcome B) : outcome B :=
  match x with Ok a => f a | UB => UB | Bad => Bad end.
Notation "'do' x <- e ; b" := (obind e (fun x => b)) (at level 200, x pattern, e at level 100, b at level 200).

(** A side effect: operation, lane, arguments *)
Definition event := (N * N * list N)%type.
Definition regs := list (name * val).
Record conf := { c_regs : regs; c_mem : mem; c_log : list event }.

Fixpoint get_reg (r : regs) (n : name) : option val :=
  match r with [] => None | (m, x) :: r' => if name_eqb m n then Some x else get_reg r' n end.

Section RUN.
(** [sem op lane args m]: value of an operation in one lane, [None]: undefined. *)
Variable sem : N -> N -> list N -> mem -> option N.
Variable t : text.
Variable w : N.                (* lanes of one iteration; 1 on GPUs *)
Variable params : list N.

Definition set_reg (c : conf) (n : name) (x : val) : outcome conf :=
  let ok := match t_backend t with
            | CUDA => let '(_, i, _) := n in i <? t_regs t
            | _ => match get_reg (c_regs c) n with None => true | Some _ => false end
            end in
  if ok then Ok {| c_regs := (n, x) :: c_regs c; c_mem := c_mem c; c_log := c_log c |}
  else Bad.

Definition need (c : conf) (n : name) : outcome val :=
  match get_reg (c_regs c) n with Some x => Ok x | None => Bad end.

Definition need_sc (c : conf) (n : name) : outcome N :=
  do x <- need c n; match x with Sc a => Ok a | _ => Bad end.

Definition need_ve (c : conf) (n : name) : outcome (list N) :=
  do x <- need c n; match x with Ve l => Ok l | _ => Bad end.

Fixpoint load (m : mem) (a : N) (n : nat) : option N :=
  match n with
  | O => Some 0
  | S n' => let? b := m a in let? r := load m (a + 1) n' in Some (b + 256 * r)
  end.

Fixpoint store (m : mem) (a : N) (n : nat) (x : N) : option mem :=
  match n with
  | O => Some m
  | S n' => let? _ := m a in
            store (fun i => if i =? a then Some (x mod 256) else m i) (a + 1) n' (x / 256)
  end.

Fixpoint load_each (m : mem) (a sz : N) (n : nat) : option (list N) :=
  match n with
  | O => Some []
  | S n' => let? x := load m a (N.to_nat sz) in
            let? r := load_each m (a + sz) sz n' in Some (x :: r)
  end.

Fixpoint store_each (m : mem) (a sz : N) (xs : list N) : option mem :=
  match xs with
  | [] => Some m
  | x :: r => let? m' := store m a (N.to_nat sz) x in store_each m' (a + sz) sz r
  end.

Definition or_ub {A} (x : option A) : outcome A := match x with Some a => Ok a | None => UB end.

Definition param (o : N) : outcome N := or_ub (nth_error params (N.to_nat o)).

Definition aligned (a al : N) : outcome unit :=
  if negb (al =? 0) && (a mod al =? 0) then Ok tt else UB.

Definition set_mem (c : conf) (m : mem) : conf :=
  {| c_regs := c_regs c; c_mem := m; c_log := c_log c |}.

(** Lane [i] (relative to the iteration) of an argument *)
Definition lane_of (i : nat) (x : val) : option N :=
  match x with Sc a => Some a | Ve l => nth_error l i | _ => None end.

Fixpoint lanes_of (i : nat) (xs : list val) : option (list N) :=
  match xs with
  | [] => Some []
  | x :: r => let? a := lane_of i x in let? b := lanes_of i r in Some (a :: b)
  end.

Fixpoint needs (c : conf) (l : list name) : outcome (list val) :=
  match l with
  | [] => Ok []
  | n :: r => do x <- need c n; do y <- needs c r; Ok (x :: y)
  end.

(** One operation in [n] lanes, starting with lane [i] of the iteration at [index] *)
Fixpoint op_lanes (op index : N) (xs : list val) (m : mem) (i n : nat)
  : outcome (list N * list event) :=
  match n with
  | O => Ok ([], [])
  | S n' =>
      match lanes_of i xs with
      | None => Bad
      | Some a =>
          let lane := index + N.of_nat i in
          do r <- or_ub (sem op lane a m);
          do rest <- op_lanes op index xs m (S i) n';
          Ok (r :: fst rest, (op, lane, a) :: snd rest)
      end
  end.

(** [index], [end_]: first lane of the iteration and end of the work unit *)
Definition exec1 (index end_ : N) (c : conf) (i : instr) : outcome conf :=
  let n := N.to_nat w in
  match i with
  | AParam d o => set_reg c d (Pa o)
  | ALoadPtr d a => do x <- need c a;
                    match x with Pa o => do p <- param o; set_reg c d (Sc p) | _ => Bad end
  | AElem d a sz => do p <- need_sc c a; set_reg c d (Sc (p + sz * index))
  | ALoadV d a sz al => do p <- need_sc c a; do _ <- aligned p al;
                        do l <- or_ub (load_each (c_mem c) p sz n); set_reg c d (Ve l)
  | ATruncV d a => do l <- need_ve c a; set_reg c d (Ve (map (fun x => x mod 2) l))
  | ALoadS d a sz al => do p <- need_sc c a; do _ <- aligned p al;
                        do x <- or_ub (load (c_mem c) p (N.to_nat sz)); set_reg c d (Sc x)
  | ATruncS d a => do x <- need_sc c a; set_reg c d (Sc (x mod 2))
  | AInsert d a => do x <- need_sc c a; set_reg c d (In0 x)
  | AInsertLit d bits => set_reg c d (In0 bits)
  | AShuffle d a => do x <- need c a;
                    match x with In0 y => set_reg c d (Ve (repeat y n)) | _ => Bad end
  | AZext d a => do l <- need_ve c a; set_reg c d (Ve l)
  | AStoreV v a sz al => do l <- need_ve c v; do p <- need_sc c a; do _ <- aligned p al;
                         do m <- or_ub (store_each (c_mem c) p sz l); Ok (set_mem c m)
  | CParam d off => if off mod 8 =? 0 then do p <- param (off / 8); set_reg c d (Sc p) else UB
  | CMad d sz => do p <- need_sc c d; set_reg c d (Sc (u32 index * sz + p))
  | CLoad d a sz => do p <- need_sc c a; do x <- or_ub (load (c_mem c) p (N.to_nat sz));
                    set_reg c d (Sc x)
  | CSetp d a => do x <- need_sc c a; set_reg c d (Sc (if x =? 0 then 0 else 1))
  | CMov d bits => set_reg c d (Sc bits)
  | CSelp d a => do x <- need_sc c a; set_reg c d (Sc (if x =? 0 then 0 else 1))
  | CStore a v sz => do x <- need_sc c v; do p <- need_sc c a;
                     do m <- or_ub (store (c_mem c) p (N.to_nat sz) x); Ok (set_mem c m)
  | MPointer d o => do p <- param (o + 1); set_reg c d (Sc p)
  | MLoad d o ty each =>
      do p <- param (o + 1);
      do x <- or_ub (load (c_mem c) (if each then p + type_size ty * index else p)
                          (N.to_nat (type_size ty)));
      set_reg c d (Sc (if ty =? T_Bool then (if x =? 0 then 0 else 1) else x))
  | MLiteral d bits => set_reg c d (Sc bits)
  | MStore v o ty =>
      do x <- need_sc c v; do p <- param (o + 1);
      do m <- or_ub (store (c_mem c) (p + type_size ty * index) (N.to_nat (type_size ty)) x);
      Ok (set_mem c m)
  | ICounter d =>
      match t_backend t with
      | LLVM => set_reg c d (Ve (map (fun j => u32 (u32 index + N.of_nat j)) (seq 0 n)))
      | _ => set_reg c d (Sc (u32 index))
      end
  | IMask d a =>
      match t_backend t with
      | LLVM => do l <- need_ve c a;
                set_reg c d (Ve (map (fun x => if x <? u32 end_ then 1 else 0) l))
      | _ => Bad
      end
  | IOp d op args side =>
      do xs <- needs c args;
      do r <- op_lanes op index xs (c_mem c) 0 n;
      let c' := {| c_regs := c_regs c; c_mem := c_mem c;
                   c_log := if side then c_log c ++ snd r else c_log c |} in
      match d with
      | None => Ok c'
      | Some nm =>
          match t_backend t, fst r with
          | LLVM, l => set_reg c' nm (Ve l)
          | _, [x] => set_reg c' nm (Sc x)
          | _, _ => Bad
          end
      end
  end.

Fixpoint exec (index end_ : N) (c : conf) (l : list instr) : outcome conf :=
  match l with [] => Ok c | i :: r => do c' <- exec1 index end_ c i; exec index end_ c' r end.

(** A worker: work still to be started (first lane of each iteration), the iteration in
    progress, its remaining blocks of statements, its registers. *)
Record worker := {
  w_todo : list N; w_end : N; w_index : N; w_code : list (list instr); w_regs : regs
}.

Record machine := { m_mem : mem; m_log : list event; m_workers : list worker }.

(** One step of worker number [j]; a finished (or absent) worker does nothing. *)
Definition step (s : machine) (j : nat) : outcome machine :=
  match nth_error (m_workers s) j with
  | None => Ok s
  | Some x =>
      match w_code x with
      | [] =>
          match w_todo x with
          | [] => Ok s
          | p :: r => Ok {| m_mem := m_mem s; m_log := m_log s;
                            m_workers := set_nth j {| w_todo := r; w_end := w_end x; w_index := p;
                                                      w_code := t_code t; w_regs := [] |} (m_workers s) |}
          end
      | blk :: rest =>
          do c <- exec (w_index x) (w_end x)
                       {| c_regs := w_regs x; c_mem := m_mem s; c_log := m_log s |} blk;
          Ok {| m_mem := c_mem c; m_log := c_log c;
                m_workers := set_nth j {| w_todo := w_todo x; w_end := w_end x; w_index := w_index x;
                                          w_code := rest; w_regs := c_regs c |} (m_workers s) |}
      end
  end.

(** [picks]: the order in which the workers take their steps *)
Fixpoint run (s : machine) (picks : list nat) : outcome machine :=
  match picks with [] => Ok s | j :: r => do s' <- step s j; run s' r end.

Definition finished (s : machine) : bool :=
  forallb (fun x => match w_code x, w_todo x with [], [] => true | _, _ => false end) (m_workers s).

(** A launch: one worker per work unit, given as the first lanes of its iterations and
    its end. *)
Definition launched (m : mem) (units : list (list N * N)) : machine :=
  {| m_mem := m; m_log := [];
     m_workers := map (fun u => {| w_todo := fst u; w_end := snd u; w_index := 0;
                                   w_code := []; w_regs := [] |}) units |}.
End RUN.

(** The work units of an LLVM launch: src/llvm_ts.cpp:105-190 and the loop of the kernel
    function (Launch_Model.v, C16), one unit per block, each with its end. *)
Definition unit_end (param index : N) : N :=
  let block_size := u32 (N.shiftr param 32) in
  N.min (u32 (u32 (index * block_size) + block_size)) (u32 param).

Fixpoint llvm_work (w param : N) (idxs : list N) : option (list (list N * N)) :=
  match idxs with
  | [] => Some []
  | i :: r => let? ps := Launch_Model.launch_callback w param i in
              let? rest := llvm_work w param r in Some ((ps, unit_end param i) :: rest)
  end.

Definition llvm_units (w desired cores size : N) : option (list (list N * N)) :=
  let? plan := Launch_Model.launch_plan w desired cores size in
  llvm_work w (Launch_Model.launch_param (snd plan) size)
            (map N.of_nat (seq 0 (N.to_nat (fst plan)))).

(** The kernel function of a GPU thread: threads beyond the size return immediately
    (src/cuda_eval.cpp:124-135; the size is the low half of parameter 0). *)
Definition gpu_units (params : list N) (threads : list N) : list (list N * N) :=
  map (fun i => (if u32 (nth 0 params 0) <=? i then [] else [i], 0)) threads.

(** src/malloc.cpp:102-123: bytes that jitc_malloc sets aside for a request, before
    rounding up to a power of two (which only makes it larger, C30). *)
Definition malloc_bytes (b : backend) (w n : N) : N :=
  match b with
  | LLVM => if w <? 16 then (n + 63) / 64 * 64 else (n + w * 8 - 1) / (w * 8) * (w * 8)
  | _ => (n + 63) / 64 * 64
  end.

(** src/var.cpp:1811-1815 *)
Definition mapped_unaligned (w t ptr : N) : bool :=
  negb (ptr mod (N.min 64 (w * type_size t)) =? 0).

(** * The kernel cache: src/eval.cpp:716-850. The key is the hash of the text
    (src/eval.cpp:608); [compile] is not modelled, a kernel is its text. Simplification:
    no cache on disk (C41) and one device. *)
Record cache := { q_kernels : list (N * text); q_hits : N; q_misses : N }.

Definition run_cached (hash : text -> N) (q : cache) (t : text) : cache * text :=
  match find (fun e => fst e =? hash t) (q_kernels q) with
  | Some e => ({| q_kernels := q_kernels q; q_hits := q_hits q + 1; q_misses := q_misses q |}, snd e)
  | None => ({| q_kernels := (hash t, t) :: q_kernels q; q_hits := q_hits q;
                q_misses := q_misses q + 1 |}, t)
  end.
