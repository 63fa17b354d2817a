(** The bundled string and vector classes, /repo/include/drjit-core/nanostl.h.

    [string] 370-548 with the formatters 552-668 that call [put_unchecked], and
    [vector] 97-278.  Objects own blocks of a heap; an access to a block that
    was freed, outside of a block, to a cell that was never written, or a
    memcpy between overlapping ranges is undefined behaviour and gives [None].

    Simplifications: sizes are natural numbers (no wrap-around of size_t), [new]
    succeeds, elements of vectors are plain values (their constructors do not
    throw and own nothing), a character is a number.  [unique_ptr] is inlined:
    it is the pointer that the string owns. *)

From Verif Require Import Base.

(** ** Memory *)

Definition cell := option Z.      (** [None]: never written *)

Record heap := { blk : nat -> option (list cell); nxt : nat }.

Definition hupd {A} (i : nat) (x : A) (f : nat -> A) : nat -> A :=
  fun j => if (j =? i)%nat then x else f j.

Definition set_blk (b : nat) (c : option (list cell)) (h : heap) : heap :=
  {| blk := hupd b c (blk h); nxt := nxt h |}.

(** operator new[] *)
Definition alloc (n : nat) (h : heap) : nat * heap :=
  (nxt h, {| blk := hupd (nxt h) (Some (repeat None n)) (blk h); nxt := S (nxt h) |}).

(** operator delete[]; freeing twice is undefined, a null pointer is fine *)
Definition free (p : option nat) (h : heap) : option heap :=
  match p with
  | None => Some h
  | Some b => match blk h b with Some _ => Some (set_blk b None h) | None => None end
  end.

Fixpoint defined (l : list cell) : option (list Z) :=
  match l with
  | [] => Some []
  | Some z :: l => match defined l with Some r => Some (z :: r) | None => None end
  | None :: _ => None
  end.

Definition read_at (b off n : nat) (h : heap) : option (list Z) :=
  match blk h b with
  | Some c => if (off + n <=? length c)%nat then defined (firstn n (skipn off c)) else None
  | None => None
  end.

Definition write_cells (off : nat) (l : list Z) (c : list cell) : list cell :=
  firstn off c ++ map Some l ++ skipn (off + length l) c.

Definition write_at (b off : nat) (l : list Z) (h : heap) : option heap :=
  match blk h b with
  | Some c => if (off + length l <=? length c)%nat
              then Some (set_blk b (Some (write_cells off l c)) h) else None
  | None => None
  end.

(** Where a memcpy reads: a constant outside of the heap, or the heap. *)
Inductive src := Const (l : list Z) | Mem (b off : nat).

Definition memcpy (d doff : nat) (s : src) (n : nat) (h : heap) : option heap :=
  match s with
  | Const l =>
      if (n <=? length l)%nat then write_at d doff (firstn n l) h else None
  | Mem b off =>
      if ((b =? d)%nat && (off <? doff + n)%nat && (doff <? off + n)%nat)%bool then None
      else match read_at b off n h with
           | Some l => write_at d doff l h
           | None => None
           end
  end.

(** ** Strings *)

Record sobj := { s_data : option nat; s_cap : nat; s_size : nat }.

Definition snull : sobj := {| s_data := None; s_cap := 0; s_size := 0 |}.

Record world := { w_heap : heap; w_str : nat -> sobj }.

Definition set_str (i : nat) (o : sobj) (w : world) : world :=
  {| w_heap := w_heap w; w_str := hupd i o (w_str w) |}.

Definition set_heap (h : heap) (w : world) : world :=
  {| w_heap := h; w_str := w_str w |}.

(** nanostl.h:529-544 [grow]; [mg]: EnsureMinGrowth *)
Definition grow (mg : bool) (d size : nat) (w : world) : option world :=
  let o := w_str w d in
  let needed := (s_size o + size)%nat in
  if (needed <=? s_cap o)%nat then Some w
  else
    let needed := if (mg && (needed <? s_cap o * 2)%nat)%bool
                  then (s_cap o * 2)%nat else needed in
    let '(b, h) := alloc (needed + 1) (w_heap w) in
    let? h := (if (s_size o =? 0)%nat then Some h
               else match s_data o with
                    | Some old => memcpy b 0 (Mem old 0) (s_size o) h
                    | None => None
                    end) in
    let? h := write_at b (s_size o) [0%Z] h in
    let? h := free (s_data o) h in
    Some {| w_heap := h;
            w_str := hupd d {| s_data := Some b; s_cap := needed; s_size := s_size o |}
                          (w_str w) |}.

(** nanostl.h:411-422 [put_unchecked].  The capacity is not checked (the check
    is compiled in with NDEBUG only). *)
Definition put_unchecked (d : nat) (s : src) (n : nat) (w : world) : option world :=
  if (n =? 0)%nat then Some w
  else
    let o := w_str w d in
    match s_data o with
    | None => None
    | Some b =>
        let? h := memcpy b (s_size o) s n (w_heap w) in
        let? h := write_at b (s_size o + n) [0%Z] h in
        Some {| w_heap := h;
                w_str := hupd d {| s_data := Some b; s_cap := s_cap o;
                                   s_size := (s_size o + n)%nat |} (w_str w) |}
    end.

(** An argument as the program writes it. *)
Inductive arg :=
| ALit  (l : list Z)              (** char, char[N] and text outside of the heap *)
| AFmt  (max : nat) (l : list Z)  (** a number: bound [max], text [l] *)
| AStr  (j : nat)                 (** a string, by reference *)
| ACstr (j k : nat).              (** s_j.c_str() + k *)

(** The argument as the function gets it: pointers are evaluated before. *)
Inductive carg := CText (l : list Z) | CFmt (max : nat) (l : list Z) | CRef (j : nat)
| CPtr (s : src).

Definition eval_arg (w : world) (a : arg) : option carg :=
  match a with
  | ALit l => Some (CText l)
  | AFmt m l => if (length l <=? m)%nat then Some (CFmt m l) else None
  | AStr j => Some (CRef j)
  | ACstr j k =>
      match s_data (w_str w j) with
      | Some b => Some (CPtr (Mem b k))
      | None => if (k =? 0)%nat then Some (CPtr (Const [0%Z])) else None
      end
  end.

(** strlen *)
Fixpoint strlen_cells (l : list cell) : option nat :=
  match l with
  | [] => None
  | None :: _ => None
  | Some z :: l => if (z =? 0)%Z then Some O
                   else match strlen_cells l with Some n => Some (S n) | None => None end
  end.

Definition strlen (s : src) (h : heap) : option nat :=
  match s with
  | Const l => strlen_cells (map Some l)
  | Mem b off => match blk h b with Some c => strlen_cells (skipn off c) | None => None end
  end.

(** nanostl.h:607-634, the [bound] functions *)
Definition bound (w : world) (a : carg) : option nat :=
  match a with
  | CText l => Some (length l)
  | CFmt m _ => Some m
  | CRef j => Some (s_size (w_str w j))
  | CPtr s => strlen s (w_heap w)
  end.

(** nanostl.h:607-634, the [format] functions; [n]: the bound that was computed *)
Definition format (d : nat) (n : nat) (a : carg) (w : world) : option world :=
  match a with
  | CText l => put_unchecked d (Const l) (length l) w
  | CFmt _ l => put_unchecked d (Const l) (length l) w
  | CRef j =>
      match s_data (w_str w j) with
      | Some b => put_unchecked d (Mem b 0) n w
      | None => if (n =? 0)%nat then Some w else None
      end
  | CPtr s => put_unchecked d s n w
  end.

Fixpoint bounds (w : world) (l : list carg) : option (list nat) :=
  match l with
  | [] => Some []
  | a :: l =>
      match bound w a, bounds w l with
      | Some n, Some r => Some (n :: r)
      | _, _ => None
      end
  end.

Fixpoint formats (d : nat) (l : list (nat * carg)) (w : world) : option world :=
  match l with
  | [] => Some w
  | (n, a) :: l => let? w := format d n a w in formats d l w
  end.

Fixpoint eval_args (w : world) (l : list arg) : option (list carg) :=
  match l with
  | [] => Some []
  | a :: l =>
      match eval_arg w a, eval_args w l with
      | Some x, Some r => Some (x :: r)
      | _, _ => None
      end
  end.

(** nanostl.h:475-498 [iput] and [put] *)
Definition cput (d : nat) (l : list carg) (w : world) : option world :=
  let? n := bounds w l in
  let? w := grow true d (list_sum n) w in
  formats d (combine n l) w.

Definition put (d : nat) (l : list arg) (w : world) : option world :=
  let? c := eval_args w l in cput d c w.

(** nanostl.h:445-449 [clear] *)
Definition clear (d : nat) (w : world) : option world :=
  let o := w_str w d in
  let? h := (match s_data o with
             | Some b => write_at b 0 [0%Z] (w_heap w)
             | None => Some (w_heap w)
             end) in
  Some {| w_heap := h; w_str := hupd d {| s_data := s_data o; s_cap := s_cap o; s_size := 0 |}
                                     (w_str w) |}.

(** nanostl.h:397-401 [assign] *)
Definition assign (d : nat) (a : arg) (w : world) : option world :=
  let? c := eval_arg w a in
  let? w := clear d w in
  cput d [c] w.

(** nanostl.h:389-395, with unique_ptr's assignment 55-59: the old block is
    freed, then both the members of [d] and those of [j] are set, in this order *)
Definition move (d j : nat) (w : world) : option world :=
  let p := s_data (w_str w j) in
  let? h := free (s_data (w_str w d)) (w_heap w) in
  let w := set_heap h w in
  (* m_data = p; other.m_data = nullptr *)
  let od := w_str w d in
  let w := set_str d {| s_data := p; s_cap := s_cap od; s_size := s_size od |} w in
  let oj := w_str w j in
  let w := set_str j {| s_data := None; s_cap := s_cap oj; s_size := s_size oj |} w in
  (* m_size = v.m_size; m_capacity = v.m_capacity; v.m_size = v.m_capacity = 0 *)
  let oj := w_str w j in
  let od := w_str w d in
  let w := set_str d {| s_data := s_data od; s_cap := s_cap oj; s_size := s_size oj |} w in
  let oj := w_str w j in
  Some (set_str j {| s_data := s_data oj; s_cap := 0; s_size := 0 |} w).

(** nanostl.h:424-428 *)
Definition swap (i j : nat) (w : world) : option world :=
  let oi := w_str w i in
  let oj := w_str w j in
  Some (set_str j oi (set_str i oj w)).

(** nanostl.h:430-433 *)
Definition reserve (d cap : nat) (w : world) : option world :=
  let o := w_str w d in
  if (s_cap o <? cap)%nat then grow false d (cap - s_size o) w else Some w.

(** nanostl.h:438-439, the loop *)
Fixpoint fill (b i n : nat) (ch : Z) (h : heap) : option heap :=
  match n with
  | O => Some h
  | S n => let? h := write_at b i [ch] h in fill b (S i) n ch h
  end.

(** nanostl.h:435-443 *)
Definition resize (d size : nat) (ch : Z) (w : world) : option world :=
  let? w := reserve d size w in
  let o := w_str w d in
  let? h := (match s_data o with
             | Some b =>
                 let? h := fill b (s_size o) (size - s_size o) ch (w_heap w) in
                 write_at b size [0%Z] h
             | None => Some (w_heap w)
             end) in
  Some {| w_heap := h; w_str := hupd d {| s_data := s_data o; s_cap := s_cap o; s_size := size |}
                                     (w_str w) |}.

(** nanostl.h:500-508 *)
Definition indent (d n : nat) (w : world) : option world :=
  if (n =? 0)%nat then Some w
  else
    let? w := grow true d n w in
    let o := w_str w d in
    match s_data o with
    | None => None
    | Some b =>
        let? h := write_at b (s_size o) (repeat 32%Z n) (w_heap w) in
        let? h := write_at b (s_size o + n) [0%Z] h in
        Some {| w_heap := h; w_str := hupd d {| s_data := Some b; s_cap := s_cap o;
                                                s_size := (s_size o + n)%nat |} (w_str w) |}
    end.

(** The end of a temporary, string 0. *)
Definition drop (w : world) : option world :=
  let? h := free (s_data (w_str w 0)) (w_heap w) in
  Some {| w_heap := h; w_str := hupd 0 snull (w_str w) |}.

(** nanostl.h:451-458: d = a + v, by way of a temporary *)
Definition plus (d a : nat) (v : arg) (w : world) : option world :=
  let? c := eval_arg w v in
  let s1 := s_size (w_str w a) in
  let? s2 := bound w c in
  let? w := grow true 0 (s1 + s2) w in
  let? w := (match s_data (w_str w a) with
             | Some b => put_unchecked 0 (Mem b 0) s1 w
             | None => if (s1 =? 0)%nat then Some w else None
             end) in
  let? w := format 0 s2 c w in
  let? w := move d 0 w in
  drop w.

(** nanostl.h:460-467: d = v + a *)
Definition plus_left (d a : nat) (v : arg) (w : world) : option world :=
  let? c := eval_arg w v in
  let? s1 := bound w c in
  let s2 := s_size (w_str w a) in
  let? w := grow true 0 (s1 + s2) w in
  let? w := format 0 s1 c w in
  let? w := (match s_data (w_str w a) with
             | Some b => put_unchecked 0 (Mem b 0) s2 w
             | None => if (s2 =? 0)%nat then Some w else None
             end) in
  let? w := move d 0 w in
  drop w.

(** nanostl.h:469-473: d = std::move(a) + v *)
Definition plus_move (d a : nat) (v : arg) (w : world) : option world :=
  let? c := eval_arg w v in
  let? w := move 0 a w in
  let? w := cput 0 [c] w in
  let? w := move d 0 w in
  drop w.

Inductive sop :=
| SPut (d : nat) (l : list arg) | SAssign (d : nat) (a : arg) | SMove (d j : nat)
| SSwap (i j : nat) | SClear (d : nat) | SReserve (d n : nat)
| SResize (d n : nat) (ch : Z) | SIndent (d n : nat)
| SPlus (d a : nat) (v : arg) | SPlusLeft (d a : nat) (v : arg)
| SPlusMove (d a : nat) (v : arg).

Definition sstep (o : sop) (w : world) : option world :=
  match o with
  | SPut d l => put d l w
  | SAssign d a => assign d a w
  | SMove d j => move d j w
  | SSwap i j => swap i j w
  | SClear d => clear d w
  | SReserve d n => reserve d n w
  | SResize d n ch => resize d n ch w
  | SIndent d n => indent d n w
  | SPlus d a v => plus d a v w
  | SPlusLeft d a v => plus_left d a v w
  | SPlusMove d a v => plus_move d a v w
  end.

Fixpoint srun (l : list sop) (w : world) : option world :=
  match l with
  | [] => Some w
  | o :: l => let? w := sstep o w in srun l w
  end.

Definition world0 : world :=
  {| w_heap := {| blk := fun _ => None; nxt := 0 |}; w_str := fun _ => snull |}.

(** What a program sees: size() characters from begin(), and the text at
    c_str(). *)
Definition s_get (i : nat) (w : world) : option (list Z) :=
  let o := w_str w i in
  match s_data o with
  | Some b => read_at b 0 (s_size o) (w_heap w)
  | None => if (s_size o =? 0)%nat then Some [] else None
  end.

Definition s_cstr (i : nat) (w : world) : option (list Z) :=
  let o := w_str w i in
  match s_data o with
  | Some b => let? n := strlen (Mem b 0) (w_heap w) in read_at b 0 n (w_heap w)
  | None => Some []
  end.

(** nanostl.h:403-407 *)
Definition s_eq (i j : nat) (w : world) : option bool :=
  let a := w_str w i in
  let b := w_str w j in
  if negb (s_size a =? s_size b)%nat then Some false
  else if (s_size a =? 0)%nat then Some true
  else match s_data a, s_data b with
       | Some p, Some q =>
           let? x := read_at p 0 (s_size a) (w_heap w) in
           let? y := read_at q 0 (s_size a) (w_heap w) in
           Some (if list_eq_dec Z.eq_dec x y then true else false)
       | _, _ => None
       end.

(** ** Vectors *)

Record vobj := { v_data : option nat; v_size : nat; v_cap : nat }.

Definition vnull : vobj := {| v_data := None; v_size := 0; v_cap := 0 |}.

Record vworld := { vw_heap : heap; vw_vec : nat -> vobj }.

Definition set_vec (i : nat) (o : vobj) (w : vworld) : vworld :=
  {| vw_heap := vw_heap w; vw_vec := hupd i o (vw_vec w) |}.

(** nanostl.h:151-159 *)
Definition vmove (d j : nat) (w : vworld) : option vworld :=
  let? h := free (v_data (vw_vec w d)) (vw_heap w) in
  let w := {| vw_heap := h; vw_vec := vw_vec w |} in
  let w := set_vec d (vw_vec w j) w in
  Some (set_vec j vnull w).

(** Copy [n] elements one by one (nanostl.h:101-104, 230-233). *)
Fixpoint copy_elems (b c i n : nat) (h : heap) : option heap :=
  match n with
  | O => Some h
  | S n =>
      let? l := read_at c i 1 h in
      let? h := write_at b i l h in
      copy_elems b c (S i) n h
  end.

(** nanostl.h:223-235: a local vector, moved into [d] and destroyed *)
Definition vreserve (d n : nat) (w : vworld) : option vworld :=
  let o := vw_vec w d in
  if (n <=? v_cap o)%nat then Some w
  else
    let '(b, h) := alloc n (vw_heap w) in
    let? h := (match v_data o with
               | Some c => copy_elems b c 0 (v_size o) h
               | None => if (v_size o =? 0)%nat then Some h else None
               end) in
    let? h := free (v_data o) h in
    Some {| vw_heap := h;
            vw_vec := hupd d {| v_data := Some b; v_size := v_size o; v_cap := n |} (vw_vec w) |}.

(** nanostl.h:237 *)
Definition vexpand (d : nat) (w : vworld) : option vworld :=
  let c := v_cap (vw_vec w d) in
  vreserve d (if (c =? 0)%nat then 1 else c * 2)%nat w.

(** A 'const T &' argument: a value elsewhere, or an element. *)
Inductive varg := VConst (z : Z) | VElem (j i : nat).

(** The address is evaluated before the call. *)
Definition v_addr (w : vworld) (a : varg) : option src :=
  match a with
  | VConst z => Some (Const [z])
  | VElem j i => match v_data (vw_vec w j) with Some b => Some (Mem b i) | None => None end
  end.

Definition v_load (s : src) (h : heap) : option Z :=
  match s with
  | Const [z] => Some z
  | Const _ => None
  | Mem b i => match read_at b i 1 h with Some [z] => Some z | _ => None end
  end.

(** nanostl.h:161-166 *)
Definition vpush (d : nat) (a : varg) (w : vworld) : option vworld :=
  let? p := v_addr w a in
  let o := vw_vec w d in
  let? w := (if (v_size o =? v_cap o)%nat then vexpand d w else Some w) in
  let o := vw_vec w d in
  match v_data o with
  | None => None
  | Some b =>
      let? z := v_load p (vw_heap w) in
      let? h := write_at b (v_size o) [z] (vw_heap w) in
      Some {| vw_heap := h;
              vw_vec := hupd d {| v_data := Some b; v_size := S (v_size o); v_cap := v_cap o |}
                             (vw_vec w) |}
  end.

(** nanostl.h:196-199; undefined for an empty vector *)
Definition vpop (d : nat) (w : vworld) : option vworld :=
  let o := vw_vec w d in
  match v_size o with
  | O => None
  | S n => Some (set_vec d {| v_data := v_data o; v_size := n; v_cap := v_cap o |} w)
  end.

(** nanostl.h:118-122 *)
Definition vclear (d : nat) (w : vworld) : option vworld :=
  let o := vw_vec w d in
  Some (set_vec d {| v_data := v_data o; v_size := 0; v_cap := v_cap o |} w).

(** nanostl.h:204-215; the value is a copy made before *)
Definition vresize (d n : nat) (a : varg) (w : vworld) : option vworld :=
  let? p := v_addr w a in
  let? z := v_load p (vw_heap w) in
  let? w := vreserve d n w in
  let o := vw_vec w d in
  let? h := (if (n <? v_size o)%nat then Some (vw_heap w)
             else match v_data o with
                  | Some b => fill b (v_size o) (n - v_size o) z (vw_heap w)
                  | None => if (n =? v_size o)%nat then Some (vw_heap w) else None
                  end) in
  Some {| vw_heap := h;
          vw_vec := hupd d {| v_data := v_data o; v_size := n; v_cap := v_cap o |} (vw_vec w) |}.

(** nanostl.h:147-149: a copy in a temporary (99-105), which is moved *)
Definition vassign (d j : nat) (w : vworld) : option vworld :=
  let o := vw_vec w j in
  let '(b, h) := alloc (v_size o) (vw_heap w) in
  let? h := (match v_data o with
             | Some c => copy_elems b c 0 (v_size o) h
             | None => if (v_size o =? 0)%nat then Some h else None
             end) in
  let? h := free (v_data (vw_vec w d)) h in
  Some {| vw_heap := h;
          vw_vec := hupd d {| v_data := Some b; v_size := v_size o; v_cap := v_size o |}
                         (vw_vec w) |}.

(** nanostl.h:217-221 *)
Definition vswap (i j : nat) (w : vworld) : option vworld :=
  let oi := vw_vec w i in
  let oj := vw_vec w j in
  Some (set_vec j oi (set_vec i oj w)).

(** v_d[i] = argument *)
Definition vset (d i : nat) (a : varg) (w : vworld) : option vworld :=
  let? p := v_addr w a in
  let? z := v_load p (vw_heap w) in
  match v_data (vw_vec w d) with
  | Some b => let? h := write_at b i [z] (vw_heap w) in
              Some {| vw_heap := h; vw_vec := vw_vec w |}
  | None => None
  end.

Inductive vop :=
| VPush (d : nat) (a : varg) | VPop (d : nat) | VClear (d : nat) | VReserve (d n : nat)
| VResize (d n : nat) (a : varg) | VAssign (d j : nat) | VMove (d j : nat)
| VSwap (i j : nat) | VSet (d i : nat) (a : varg).

Definition vstep (o : vop) (w : vworld) : option vworld :=
  match o with
  | VPush d a => vpush d a w
  | VPop d => vpop d w
  | VClear d => vclear d w
  | VReserve d n => vreserve d n w
  | VResize d n a => vresize d n a w
  | VAssign d j => vassign d j w
  | VMove d j => vmove d j w
  | VSwap i j => vswap i j w
  | VSet d i a => vset d i a w
  end.

Fixpoint vrun (l : list vop) (w : vworld) : option vworld :=
  match l with
  | [] => Some w
  | o :: l => let? w := vstep o w in vrun l w
  end.

Definition vworld0 : vworld :=
  {| vw_heap := {| blk := fun _ => None; nxt := 0 |}; vw_vec := fun _ => vnull |}.

Definition v_get (i : nat) (w : vworld) : option (list Z) :=
  let o := vw_vec w i in
  match v_data o with
  | Some b => read_at b 0 (v_size o) (vw_heap w)
  | None => if (v_size o =? 0)%nat then Some [] else None
  end.

(** ** Numbers *)

(** nanostl.h:553-554 *)
Definition max_size (sgn : bool) (bytes : Z) : Z :=
  (if sgn then 1 else 0) + (bytes * 5 + 1) / 2.

(** nanostl.h:573-576, the loop that writes digits into [buf] from the end;
    [off]: the number of free characters in front.  Writing in front of [buf]
    is undefined. *)
Fixpoint digit_loop (off : nat) (v : Z) (acc : list Z) : option (nat * list Z) :=
  match off with
  | O => None
  | S off =>
      let acc := (48 + v mod 10)%Z :: acc in
      let v := (v / 10)%Z in
      if (v =? 0)%Z then Some (off, acc) else digit_loop off v acc
  end.

(** nanostl.h:560-583.  The operand of the negation is promoted to int when it
    is narrower, so that only the most negative int and long overflow. *)
Definition int_text (sgn : bool) (bytes v : Z) : option (list Z) :=
  let neg := (sgn && (v <? 0)%Z)%bool in
  if (neg && (4 <=? bytes)%Z && (v =? - 2 ^ (8 * bytes - 1))%Z)%bool then None
  else
    let u := ((if neg then - v else v) mod 2 ^ (8 * bytes))%Z in
    match digit_loop (Z.to_nat (max_size sgn bytes)) u [] with
    | None => None
    | Some (off, acc) =>
        if neg then match off with O => None | S _ => Some (45%Z :: acc) end
        else Some acc
    end.
