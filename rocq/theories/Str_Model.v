(** Model of the text buffer used to assemble kernels: src/strbuf.cpp, src/strbuf.h. *)
From Coq Require Import String Ascii.
From Verif Require Import Base FreeSlots_Model.
Local Open Scope N_scope.

(** Characters are bytes (numbers below 256). *)
Definition str (s : string) : list N := map N_of_ascii (list_ascii_of_string s).

Definition len {A} (l : list A) : N := N.of_nat (length l).

(** Memory of the buffer, indexed from [m_start]. Bytes at or beyond the
    capacity are not owned; their values stand for the arbitrary contents that
    a later realloc() may expose. *)
Definition mem := N -> N.

(** A one-byte store; [None] is an access outside of the capacity [cap]. *)
Definition st (cap : N) (m : mem) (a v : N) : option mem :=
  if a <? cap then Some (fun i => if i =? a then v else m i) else None.

(** memcpy of the bytes [l] to address [a]. *)
Fixpoint stl (cap : N) (m : mem) (a : N) (l : list N) : option mem :=
  match l with
  | [] => Some m
  | v :: r => let? m1 := st cap m a v in stl cap m1 (a + 1) r
  end.

(** ** Decimal numbers *)

(** src/strbuf.cpp:26-36 *)
Definition digit_pairs : list N := str
  ("00010203040506070809" ++
   "10111213141516171819" ++
   "20212223242526272829" ++
   "30313233343536373839" ++
   "40414243444546474849" ++
   "50515253545556575859" ++
   "60616263646566676869" ++
   "70717273747576777879" ++
   "80818283848586878889" ++
   "90919293949596979899")%string.

(** src/strbuf.cpp:39-49 *)
Definition digit_pairs_lead : list N := str
  ("00112233445566778899" ++
   "10111213141516171819" ++
   "20212223242526272829" ++
   "30313233343536373839" ++
   "40414243444546474849" ++
   "50515253545556575859" ++
   "60616263646566676869" ++
   "70717273747576777879" ++
   "80818283848586878889" ++
   "90919293949596979899")%string.

(** memcpy(dst, &table[i], 2); reading past the table is [None] (the final NUL
    of the array is not needed). *)
Definition copy2 (cap : N) (m : mem) (dst : N) (table : list N) (i : N) : option mem :=
  let? c0 := nth_error table (N.to_nat i) in
  let? c1 := nth_error table (N.to_nat (i + 1)) in
  stl cap m dst [c0; c1].

(** The floating point expressions in src/strbuf.cpp:62, 69, 77, 88, 99 are
    compile-time constants; their values (truncated to integer) are
    10*2^24/1e3+1, 10*2^32/1e5+1, 10*2^48/1e7+1, 10*2^57/1e9+1, 2^48/1e6+1. *)
Definition c24 : N := 167773.
Definition c32 : N := 429497.
Definition c48 : N := 281474977.
Definition c57 : N := 1441151881.

(** One step of the cascade: emit the integer part of [f] (scaled by 2^k) and
    continue with the fraction times 100, in 64-bit arithmetic. *)
Definition frac100 (k f : N) : N := u64 (N.land f (N.ones k) * 100).

(** src/strbuf.cpp:55-93. [lt] is the [b -= n < ...] correction. *)
Definition w_u32 (cap : N) (m : mem) (b n : N) : option (mem * N) :=
  if n <? 100 then
    let? m := copy2 cap m b digit_pairs_lead (n * 2) in
    Some (m, if n <? 10 then b + 1 else b + 2)
  else if n <? 10000 then
    let f0 := u32 (c24 * n) in
    let? m := copy2 cap m b digit_pairs_lead (N.shiftr f0 24 * 2) in
    let lt := if n <? 1000 then 1 else 0 in
    let f2 := u32 (frac100 24 f0) in
    let? m := copy2 cap m (b + 2 - lt) digit_pairs (N.shiftr f2 24 * 2) in
    Some (m, b + 4 - lt)
  else if n <? 1000000 then
    let f0 := u64 (c32 * n) in
    let? m := copy2 cap m b digit_pairs_lead (N.shiftr f0 32 * 2) in
    let lt := if n <? 100000 then 1 else 0 in
    let f2 := frac100 32 f0 in
    let? m := copy2 cap m (b + 2 - lt) digit_pairs (N.shiftr f2 32 * 2) in
    let f4 := frac100 32 f2 in
    let? m := copy2 cap m (b + 4 - lt) digit_pairs (N.shiftr f4 32 * 2) in
    Some (m, b + 6 - lt)
  else if n <? 100000000 then
    let f0 := N.shiftr (u64 (c48 * n)) 16 in
    let? m := copy2 cap m b digit_pairs_lead (N.shiftr f0 32 * 2) in
    let lt := if n <? 10000000 then 1 else 0 in
    let f2 := frac100 32 f0 in
    let? m := copy2 cap m (b + 2 - lt) digit_pairs (N.shiftr f2 32 * 2) in
    let f4 := frac100 32 f2 in
    let? m := copy2 cap m (b + 4 - lt) digit_pairs (N.shiftr f4 32 * 2) in
    let f6 := frac100 32 f4 in
    let? m := copy2 cap m (b + 6 - lt) digit_pairs (N.shiftr f6 32 * 2) in
    Some (m, b + 8 - lt)
  else
    let f0 := u64 (c57 * n) in
    let? m := copy2 cap m b digit_pairs_lead (N.shiftr f0 57 * 2) in
    let lt := if n <? 1000000000 then 1 else 0 in
    let f2 := frac100 57 f0 in
    let? m := copy2 cap m (b + 2 - lt) digit_pairs (N.shiftr f2 57 * 2) in
    let f4 := frac100 57 f2 in
    let? m := copy2 cap m (b + 4 - lt) digit_pairs (N.shiftr f4 57 * 2) in
    let f6 := frac100 57 f4 in
    let? m := copy2 cap m (b + 6 - lt) digit_pairs (N.shiftr f6 57 * 2) in
    let f8 := frac100 57 f6 in
    let? m := copy2 cap m (b + 8 - lt) digit_pairs (N.shiftr f8 57 * 2) in
    Some (m, b + 10 - lt).

(** src/strbuf.cpp:96-102 *)
Definition eight_digits (cap : N) (m : mem) (b z : N) : option mem :=
  let f0 := u64 (N.shiftr (u64 (c48 * z)) 16 + 1) in
  let? m := copy2 cap m b digit_pairs (N.shiftr f0 32 * 2) in
  let f2 := frac100 32 f0 in
  let? m := copy2 cap m (b + 2) digit_pairs (N.shiftr f2 32 * 2) in
  let f4 := frac100 32 f2 in
  let? m := copy2 cap m (b + 4) digit_pairs (N.shiftr f4 32 * 2) in
  let f6 := frac100 32 f4 in
  copy2 cap m (b + 6) digit_pairs (N.shiftr f6 32 * 2).

(** src/strbuf.cpp:105-112; the recursion depth is at most 3 for 64-bit values. *)
Fixpoint w_u64_rec (fuel : nat) (cap : N) (m : mem) (b v : N) : option (mem * N) :=
  match fuel with
  | O => None
  | S f =>
      if v <=? 2 ^ 32 - 1 then w_u32 cap m b (u32 v)
      else
        let z := u32 (v mod 100000000) in
        let? x := w_u64_rec f cap m b (v / 100000000) in
        let? m := eight_digits cap (fst x) (snd x) z in
        Some (m, snd x + 8)
  end.
Definition w_u64 := w_u64_rec 4.

(** ** Hexadecimal numbers *)

(** src/strbuf.cpp:118, 121-137: character of a hex digit, and the byte table
    (entry [2b] is the high digit of [b], entry [2b+1] the low digit). *)
Definition hex_num : list N := str "0123456789abcdef".
Definition hex_pairs : list N := str
  ("000102030405060708090a0b0c0d0e0f" ++
   "101112131415161718191a1b1c1d1e1f" ++
   "202122232425262728292a2b2c2d2e2f" ++
   "303132333435363738393a3b3c3d3e3f" ++
   "404142434445464748494a4b4c4d4e4f" ++
   "505152535455565758595a5b5c5d5e5f" ++
   "606162636465666768696a6b6c6d6e6f" ++
   "707172737475767778797a7b7c7d7e7f" ++
   "808182838485868788898a8b8c8d8e8f" ++
   "909192939495969798999a9b9c9d9e9f" ++
   "a0a1a2a3a4a5a6a7a8a9aaabacadaeaf" ++
   "b0b1b2b3b4b5b6b7b8b9babbbcbdbebf" ++
   "c0c1c2c3c4c5c6c7c8c9cacbcccdcecf" ++
   "d0d1d2d3d4d5d6d7d8d9dadbdcdddedf" ++
   "e0e1e2e3e4e5e6e7e8e9eaebecedeeef" ++
   "f0f1f2f3f4f5f6f7f8f9fafbfcfdfeff")%string.

(** src/strbuf.cpp:140-148; [64 - clz v] is [N.size v]. *)
Definition hex_digits (v : N) : N :=
  if v =? 0 then 1 else N.shiftr (N.size v + 3) 2.

(** src/strbuf.cpp:153-158: the loop writing two digits at a time, backwards. *)
Fixpoint x64_loop (fuel : nat) (cap : N) (m : mem) (p v : N) : option (mem * N * N) :=
  match fuel with
  | O => None
  | S f =>
      if 256 <=? v then
        let b := N.land v 255 in
        let p := p - 2 in
        let? m := copy2 cap m p hex_pairs (b * 2) in
        x64_loop f cap m p (N.shiftr v 8)
      else Some (m, p, v)
  end.

(** src/strbuf.cpp:151-164 *)
Definition w_x64 (cap : N) (m : mem) (d v : N) : option (mem * N) :=
  let e := d + hex_digits v in
  let? x := x64_loop 9 cap m e v in
  let '(m, p, v) := x in
  let? m := (if v <? 16 then
               let? c := nth_error hex_num (N.to_nat v) in st cap m (p - 1) c
             else copy2 cap m (p - 2) hex_pairs (v * 2)) in
  Some (m, e).

(** src/strbuf.cpp:172-179 *)
Fixpoint q64_loop (i : nat) (cap : N) (m : mem) (d v : N) : option mem :=
  match i with
  | O => Some m
  | S j => let? m := copy2 cap m (d + N.of_nat j * 2) hex_pairs (N.land v 255 * 2) in
           q64_loop j cap m d (N.shiftr v 8)
  end.
Definition w_q64 (cap : N) (m : mem) (d v : N) : option (mem * N) :=
  let? m := q64_loop 8 cap m d v in Some (m, d + 16).

(** ** Copying *)

(** src/strbuf.cpp:194-197 *)
Definition w_strn (cap : N) (m : mem) (d : N) (s : list N) : option (mem * N) :=
  let? m := stl cap m d s in Some (m, d + len s).

(** src/var.h:370-387: an 8-byte row of a name table: characters, zero padding,
    length in byte 7 (entries have at most 6 characters). *)
Definition row (s : string) : list N :=
  firstn 7 (str s ++ repeat 0 7) ++ [len (str s)].

(** src/strbuf.cpp:205-210 *)
Definition w_type (cap : N) (m : mem) (d : N) (r : list N) : option (mem * N) :=
  let? m := stl cap m d r in
  let? l := nth_error r 7 in
  Some (m, d + l).

(** Little-endian value of a sequence of bytes (memcpy into a uint64_t). *)
Fixpoint le_val (l : list N) : N :=
  match l with [] => 0 | b :: r => b + 256 * le_val r end.

Definition DOLLAR : N := 36.

(** src/strbuf.cpp:215-223 *)
Definition swar (w : N) : N :=
  let x := N.lxor w 0x2424242424242424 in
  N.land (N.land (sub64 x 0x0101010101010101) (2 ^ 64 - 1 - x)) 0x8080808080808080.

(** src/strbuf.cpp:228-229 *)
Fixpoint w_tail (cap : N) (m : mem) (d : N) (p : list N) : option (mem * N * list N) :=
  match p with
  | [] => Some (m, d, [])
  | c :: r => if c =? DOLLAR then Some (m, d, p)
              else let? m := st cap m d c in w_tail cap m (d + 1) r
  end.

(** src/strbuf.cpp:214-231; [p] is the rest of the format string. *)
Fixpoint w_run_loop (fuel : nat) (cap : N) (m : mem) (d : N) (p : list N) : option (mem * N * list N) :=
  match fuel with
  | O => None
  | S f =>
      if 8 <=? len p then
        let? m := stl cap m d (firstn 8 p) in
        let x := swar (le_val (firstn 8 p)) in
        if x =? 0 then w_run_loop f cap m (d + 8) (skipn 8 p)
        else let? t := tzcnt_u64 x in
             let n := N.shiftr t 3 in
             Some (m, d + n, skipn (N.to_nat n) p)
      else w_tail cap m d p
  end.
Definition w_run (cap : N) (m : mem) (d : N) (p : list N) : option (mem * N * list N) :=
  w_run_loop (S (length p)) cap m d p.

(** ** The buffer *)

(** [s_cap]: m_end - m_start (0 iff all three pointers are null),
    [s_cur]: m_cur - m_start. *)
Record sbuf := mkSB { s_mem : mem; s_cap : N; s_cur : N }.

(** src/strbuf.cpp:330-353; the doubling loop in 64-bit arithmetic; [None] if
    it does not end. realloc() keeps the contents (malloc_check aborts on failure). *)
Fixpoint grow (fuel : nat) (need cap : N) : option N :=
  match fuel with
  | O => None
  | S f => if cap <? need then grow f need (u64 (cap * 2)) else Some cap
  end.
Definition expand (b : sbuf) (cur nbytes : N) : option sbuf :=
  let nbytes := u64 (nbytes + 1) in
  let c := if s_cap b =? 0 then 1 else s_cap b in
  let? c' := grow 65 (u64 (cur + nbytes)) c in
  Some (mkSB (s_mem b) c' cur).

(** The common prologue: if (!m_cur || m_cur + n >= m_end) m_cur = expand(m_cur, n) *)
Definition reserve (b : sbuf) (n : N) : option sbuf :=
  if (s_cap b =? 0) || (s_cap b <=? s_cur b + n) then expand b (s_cur b) n else Some b.

(** src/strbuf.h:111-118 *)
Definition put_str (b : sbuf) (s : list N) : option sbuf :=
  let? b := reserve b (len s) in
  let? m := stl (s_cap b) (s_mem b) (s_cur b) s in
  let c := s_cur b + len s in
  let? m := st (s_cap b) m c 0 in
  Some (mkSB m (s_cap b) c).

(** src/strbuf.h:121-126 and 129-136 *)
Definition put_char (b : sbuf) (c : N) : option sbuf := put_str b [c].
Definition put_chars (b : sbuf) (c : N) (n : N) : option sbuf := put_str b (repeat c (N.to_nat n)).

(** src/strbuf.cpp:355-377 (note: no terminating zero is written) *)
Definition put_num (w : N -> mem -> N -> N -> option (mem * N)) (maxsize : N) (b : sbuf) (v : N)
  : option sbuf :=
  let? b := reserve b maxsize in
  let? x := w (s_cap b) (s_mem b) (s_cur b) v in
  Some (mkSB (fst x) (s_cap b) (snd x)).
Definition put_u32 := put_num w_u32 10.
Definition put_u64 := put_num w_u64 20.
Definition put_x32 := put_num w_x64 8.
Definition put_x64 := put_num w_x64 16.

(** src/strbuf.cpp:278-286 *)
Fixpoint del_commas (fuel : nat) (m : mem) (cur : N) : N :=
  match fuel with
  | O => cur
  | S f => if 0 <? cur then
             let ch := m (cur - 1) in
             if (ch =? 44) || (ch =? 32) then del_commas f m (cur - 1) else cur
           else cur
  end.
Definition delete_trailing_commas (b : sbuf) : sbuf :=
  mkSB (s_mem b) (s_cap b) (del_commas (N.to_nat (s_cur b)) (s_mem b) (s_cur b)).

(** src/strbuf.cpp:293-297 *)
Definition clear (b : sbuf) : option sbuf :=
  if s_cap b =? 0 then Some (mkSB (s_mem b) 0 0)
  else let? m := st (s_cap b) (s_mem b) 0 0 in Some (mkSB m (s_cap b) 0).

(** src/strbuf.cpp:299-303 and 305-309 *)
Definition rewind_to (b : sbuf) (pos : N) : option sbuf :=
  if s_cap b =? 0 then Some (mkSB (s_mem b) 0 pos)
  else let? m := st (s_cap b) (s_mem b) pos 0 in Some (mkSB m (s_cap b) pos).
Definition rewind (b : sbuf) (rel : N) : option sbuf :=
  if s_cur b <? rel then None else rewind_to b (s_cur b - rel).

(** Bytes [a, a+n) of the memory. *)
Fixpoint rd (m : mem) (a : N) (n : nat) : list N :=
  match n with O => [] | S k => m a :: rd m (a + 1) k end.

(** src/strbuf.cpp:311-328. memcpy with overlapping ranges is undefined. *)
Definition move_suffix (b : sbuf) (start target : N) : option sbuf :=
  let size := s_cur b in
  let n := size - start in
  if size <? start then None else
  let? b := put_chars b 0 n in
  if size <? target then None else
  let? m := stl (s_cap b) (s_mem b) (target + n) (rd (s_mem b) target (N.to_nat (size - target))) in
  if (n =? 0) || (target + n <=? size) then
    let? m := stl (s_cap b) m target (rd m size (N.to_nat n)) in
    rewind_to (mkSB m (s_cap b) (s_cur b)) size
  else None.

(** ** The formatters fmt_llvm, fmt_cuda, fmt_metal *)

(** src/strbuf.cpp:248-250 *)
Definition fmt_bound (fmt_len nargs : N) : N := u64 (u64 (fmt_len * 8) + u64 (nargs * 48)).

(** The fields of a variable that the formatter reads. *)
Record fvar := mkV { v_type : N; v_reg : N; v_lit : N; v_unaligned : bool; v_off : N }.

Inductive farg := AU32 (n : N) | AU64 (n : N) | AStr (s : list N) | AVar (v : fvar).

(** Global state read by the formatter: jitc_llvm_vector_width, callable_depth;
    the float conversions are those of the C++ compiler. *)
Record fenv := mkE { e_width : N; e_depth : N; f32_to_f64 : N -> N; f16_to_f64 : N -> N }.

(** src/var.cpp:74-114 *)
Definition t_llvm := map row
  ["???"; "i1"; "???"; "i8"; "i8"; "i16"; "i16"; "i32"; "i32"; "i64"; "i64"; "i64"; "???"; "half"; "float"; "double"]%string.
Definition t_big := map row
  ["???"; "???"; "???"; "i16"; "i16"; "i32"; "i32"; "i64"; "i64"; "i128"; "i128"; "???"; "???"; "???"; "???"; "???"]%string.
Definition t_abbrev := map row
  ["???"; "i1"; "???"; "i8"; "i8"; "i16"; "i16"; "i32"; "i32"; "i64"; "i64"; "i64"; "???"; "f16"; "f32"; "f64"]%string.
Definition t_bin := map row
  ["???"; "i1"; "???"; "i8"; "i8"; "i16"; "i16"; "i32"; "i32"; "i64"; "i64"; "i64"; "???"; "i16"; "i32"; "i64"]%string.
Definition t_prefix := map row
  ["%u"; "%p"; "???"; "%b"; "%b"; "%w"; "%w"; "%r"; "%r"; "%rd"; "%rd"; "%rd"; "???"; "%h"; "%f"; "%d"]%string.
(** src/var.cpp:54-72, 81-91 *)
Definition t_ptx := map row
  ["???"; "pred"; "???"; "s8"; "u8"; "s16"; "u16"; "s32"; "u32"; "s64"; "u64"; "u64"; "???"; "f16"; "f32"; "f64"]%string.
Definition t_ptx_bin2 := map row
  ["???"; "b8"; "???"; "b8"; "b8"; "b16"; "b16"; "b32"; "b32"; "b64"; "b64"; "b64"; "???"; "b16"; "b32"; "b64"]%string.
Definition t_ptx_bin := map row
  ["???"; "pred"; "???"; "b8"; "b8"; "b16"; "b16"; "b32"; "b32"; "b64"; "b64"; "b64"; "???"; "b16"; "b32"; "b64"]%string.
Definition t_metal := map row
  ["void"; "bool"; "???"; "char"; "uchar"; "short"; "ushort"; "int"; "uint"; "long"; "ulong"; "ulong"; "???"; "half"; "float"; "float"]%string.
Definition t_metal_bin := map row
  ["???"; "uchar"; "???"; "uchar"; "uchar"; "ushort"; "ushort"; "uint"; "uint"; "ulong"; "ulong"; "ulong"; "???"; "ushort"; "uint"; "uint"]%string.
(** src/var.cpp:117-119 *)
Definition t_size : list N := [0; 1; 0; 1; 1; 2; 2; 4; 4; 8; 8; 8; 0; 2; 4; 8].

Definition tbl {A} (t : list A) (i : N) : option A := nth_error t (N.to_nat i).

(** A write through the cursor. *)
Definition wr := N -> mem -> N -> option (mem * N).
Definition seqw (f g : wr) : wr := fun cap m d => let? x := f cap m d in g cap (fst x) (snd x).
Notation "f ;; g" := (seqw f g) (at level 60, right associativity).
Definition wc (s : list N) : wr := fun cap m d => w_strn cap m d s.
Definition wu32 (n : N) : wr := fun cap m d => w_u32 cap m d n.
Definition wty (t : list (list N)) (i : N) : wr :=
  fun cap m d => let? r := tbl t i in w_type cap m d r.

(** "<W x " + type + ">" as written by $T, $B, $D, $M, $V. *)
Definition wvec (e : fenv) (t : list (list N)) (i : N) : wr :=
  wc (str "<") ;; wu32 (e_width e) ;; wc (str " x ") ;; wty t i ;; wc (str ">").

Definition T_Bool := 1. Definition T_UInt8 := 4.
Definition T_F16 := 13. Definition T_F32 := 14. Definition T_F64 := 15.

(** src/strbuf.cpp:588-617: the literal directive. *)
Definition wlit (e : fenv) (v : fvar) : wr :=
  if v_type v =? T_F32 then wc (str "0x") ;; (fun cap m d => w_x64 cap m d (f32_to_f64 e (u32 (v_lit v))))
  else if v_type v =? T_F16 then wc (str "0x") ;; (fun cap m d => w_x64 cap m d (f16_to_f64 e (u16 (v_lit v))))
  else if v_type v =? T_F64 then wc (str "0x") ;; (fun cap m d => w_x64 cap m d (v_lit v))
  else fun cap m d => w_u64 cap m d (v_lit v).

(** Directives that consume a Variable (src/strbuf.cpp:481-632). *)
Definition llvm_var (e : fenv) (c : N) (v : fvar) : option wr :=
  let t := v_type v in
  let t8 := if t =? T_Bool then T_UInt8 else t in
  match c with
  | 116 (* t *) => Some (wty t_llvm t)
  | 98  (* b *) => Some (wty t_bin t)
  | 100 (* d *) => Some (wty t_big t)
  | 72  (* H *) => Some (if t =? T_Bool then wc (str "i8") else wty t_abbrev t)
  | 104 (* h *) => Some (wty t_abbrev t)
  | 109 (* m *) => Some (wty t_llvm t8)
  | 84  (* T *) => Some (wvec e t_llvm t)
  | 66  (* B *) => Some (wvec e t_bin t)
  | 68  (* D *) => Some (wvec e t_big t)
  | 77  (* M *) => Some (wvec e t_llvm t8)
  | 118 (* v *) => Some (wty t_prefix t ;; wu32 (v_reg v))
  | 86  (* V *) => Some (wvec e t_llvm t ;; wc (str " ") ;; wty t_prefix t ;; wu32 (v_reg v))
  | 108 (* l *) => Some (wlit e v)
  | 97  (* a *) => Some (fun cap m d => let? s := tbl t_size t in
                           w_u32 cap m d (if v_unaligned v then 1 else s))
  | 65  (* A *) => Some (fun cap m d => let? s := tbl t_size t in
                           w_u32 cap m d (if v_unaligned v then 1 else u32 (s * e_width e)))
  | 111 (* o *) => Some (wu32 (v_off v / 8))
  | _ => None
  end.

(** Directives without argument (src/strbuf.cpp:478-480, 634-652). *)
Definition llvm_noarg (e : fenv) (c : N) : option wr :=
  match c with
  | 119 (* w *) => Some (wu32 (e_width e))
  | 122 (* z *) => Some (wc (str "zeroinitializer"))
  | 60  (* < *) => Some (if 0 <? e_depth e then wc (str "<") ;; wu32 (e_width e) ;; wc (str " x ") else wc [])
  | 62  (* > *) => Some (if 0 <? e_depth e then wc (str ">") else wc [])
  | _ => None
  end.

(** src/strbuf.cpp:711-768 *)
Definition cuda_var (c : N) (v : fvar) : option wr :=
  let t := v_type v in
  match c with
  | 116 (* t *) => Some (wty t_ptx t)
  | 66  (* B *) => Some (wty t_ptx_bin2 t)
  | 98  (* b *) => Some (wty t_ptx_bin t)
  | 86  (* V *) => Some (if t =? T_Bool then wc (str "%w0") else wty t_prefix t ;; wu32 (v_reg v))
  | 118 (* v *) => Some (wty t_prefix t ;; wu32 (v_reg v))
  | 108 (* l *) => Some (wc (str "0x") ;; (fun cap m d => w_x64 cap m d (v_lit v)))
  | 97  (* a *) => Some (fun cap m d => let? s := tbl t_size t in w_u32 cap m d s)
  | 111 (* o *) => Some (wu32 (v_off v))
  | _ => None
  end.

(** src/strbuf.cpp:825-859 *)
Definition metal_var (c : N) (v : fvar) : option wr :=
  let t := v_type v in
  match c with
  | 116 (* t *) => Some (wty t_metal t)
  | 98  (* b *) => Some (wty t_metal_bin t)
  | 118 (* v *) => Some (wc (str "r") ;; wu32 (v_reg v))
  | 108 (* l *) => Some (wc (str "0x") ;; (fun cap m d => w_x64 cap m d (v_lit v)))
  | 111 (* o *) => Some (wu32 (sub32 (v_off v / 8) 1))
  | _ => None
  end.

(** The three formatters share all but their directive tables; only LLVM has
    argument-less directives, Metal lacks 'Q'. *)
Record dialect := mkD { d_noarg : N -> option wr; d_var : N -> fvar -> option wr; d_q : bool }.
Definition d_llvm (e : fenv) := mkD (llvm_noarg e) (llvm_var e) true.
Definition d_cuda := mkD (fun _ => None) cuda_var true.
Definition d_metal := mkD (fun _ => None) metal_var false.

(** Outcomes: text written; [Abort]: the function calls abort(); [Undef]:
    out-of-bounds access or va_arg beyond/with the wrong type. *)
Inductive fres := Done (b : sbuf) | Abort | Undef.

Definition lift {A} (o : option A) (f : A -> fres) : fres := match o with Some x => f x | None => Undef end.

(** src/strbuf.cpp:656-668: argument count check and terminator. *)
Definition fmt_end (b : sbuf) (cur : N) (args : list farg) : fres :=
  match args with
  | [] => lift (st (s_cap b) (s_mem b) cur 0) (fun m => Done (mkSB m (s_cap b) cur))
  | _ => Abort
  end.

(** Which va_arg a directive performs. *)
Inductive kind := KNone (w : wr) | KU32 | KU64 | KStr | KVar (f : fvar -> option wr) | KBad.
Definition kind_of (D : dialect) (c : N) : kind :=
  match d_noarg D c with
  | Some w => KNone w
  | None =>
      if c =? 117 then KU32
      else if c =? 115 then KStr
      else if (c =? 81) && d_q D then KU64
      else match d_var D c (mkV 0 0 0 false 0) with Some _ => KVar (d_var D c) | None => KBad end
  end.

(** src/strbuf.cpp:450-668 (and 687-779, 802-874): the loop. [b] carries the
    memory and capacity, [cur] is the local cursor, [p] the rest of the format,
    [args] the arguments not yet fetched ([nargs - arg] of them). *)
Fixpoint fmt_loop (fuel : nat) (D : dialect) (b : sbuf) (cur : N) (p : list N) (args : list farg) : fres :=
  match fuel with
  | O => Undef
  | S f =>
      match p with
      | [] => fmt_end b cur args
      | _ =>
          lift (w_run (s_cap b) (s_mem b) cur p) (fun x =>
          let '(m, cur, p) := x in
          let b := mkSB m (s_cap b) (s_cur b) in
          let emit (w : wr) p args :=
            lift (w (s_cap b) m cur) (fun y =>
              fmt_loop f D (mkSB (fst y) (s_cap b) (s_cur b)) (snd y) p args) in
          match p with
          | [] => fmt_end b cur args
          | [_] => Abort          (* switches on the NUL after the format string *)
          | _ :: c :: p =>
              match kind_of D c, args with
              | KNone w, _ => emit w p args
              | KU32, AU32 n :: args => emit (wu32 n) p args
              | KU64, AU64 n :: args => emit (fun cap m d => w_q64 cap m d n) p args
              | KStr, AStr s :: args =>
                  let rest := fmt_bound (len p) (len args) in
                  lift (if s_cap b <=? cur + len s + rest then expand b cur (u64 (len s + rest))
                        else Some b) (fun b =>
                  lift (w_strn (s_cap b) (s_mem b) cur s) (fun y =>
                    fmt_loop f D (mkSB (fst y) (s_cap b) (s_cur b)) (snd y) p args))
              | KVar g, AVar v :: args =>
                  lift (g v) (fun w => emit w p args)
              | KBad, _ => Abort
              | _, _ => Undef
              end
          end)
      end
  end.

(** src/strbuf.cpp:440-673, 676-785, 789-880 *)
Definition fmt_run (D : dialect) (b : sbuf) (fmt : list N) (args : list farg) : fres :=
  lift (reserve b (fmt_bound (len fmt) (len args))) (fun b =>
  fmt_loop (S (length fmt)) D b (s_cur b) fmt args).
Definition fmt_llvm (e : fenv) := fmt_run (d_llvm e).
Definition fmt_cuda := fmt_run d_cuda.
Definition fmt_metal := fmt_run d_metal.
