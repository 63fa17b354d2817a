(** What users of the text buffer rely on, stated on plain texts. *)
From Coq Require Import String Ascii.
From Verif Require Import Base Str_Model.
Local Open Scope N_scope.

(** ** Numerals *)

(** The usual positional numeral of [n] in the given base, most significant
    digit first, lower-case letters for digits above 9. *)
Definition dig (d : N) : N := if d <? 10 then 48 + d else 87 + d.
Fixpoint numeral_rec (fuel : nat) (base n : N) : list N :=
  match fuel with
  | O => []
  | S f => if n <? base then [dig n] else numeral_rec f base (n / base) ++ [dig (n mod base)]
  end.
Definition numeral (base n : N) : list N := numeral_rec (S (N.size_nat n)) base n.

(** Zero-padded numeral with exactly [k] digits. *)
Fixpoint padded (k : nat) (base n : N) : list N :=
  match k with
  | O => []
  | S j => padded j base (n / base) ++ [dig (n mod base)]
  end.

(** Reading a numeral back. *)
Definition undig (c : N) : N := if c <? 58 then c - 48 else c - 87.
Definition value (base : N) (l : list N) : N := fold_left (fun a c => a * base + undig c) l 0.

(** ** Buffers *)

(** The text currently held (size() characters from get()). *)
Definition contents (b : sbuf) : list N := rd (s_mem b) 0 (N.to_nat (s_cur b)).

(** The C string that a reader of get() sees. *)
Definition c_string (b : sbuf) (l : list N) : Prop :=
  rd (s_mem b) 0 (length l) = l /\ s_mem b (len l) = 0 /\ ~ In 0 l /\ len l < s_cap b.

(** A buffer as produced by the constructor and the operations. *)
Definition buf_ok (b : sbuf) : Prop := (s_cap b = 0 /\ s_cur b = 0) \/ s_cur b < s_cap b.

(** A correct write: given [w] bytes of room, the text [l] appears at the
    cursor, the cursor moves past it, and nothing outside of the [w] bytes
    changes. *)
Definition writes (f : wr) (l : list N) (w : N) : Prop :=
  forall cap m b, b + w <= cap ->
  exists m', f cap m b = Some (m', b + len l) /\
             rd m' b (length l) = l /\
             (forall i, i < b \/ b + w <= i -> m' i = m i).

(** ** Format strings *)

(** Text of the directives with and without argument. *)
Record tdialect := mkT { x_noarg : N -> option (list N); x_var : N -> fvar -> option (list N); x_q : bool }.

Inductive ftext := Ok (t : list N) | Bad | NoClaim.
Definition pre (l : list N) (r : ftext) : ftext := match r with Ok t => Ok (l ++ t) | _ => r end.

(** Expansion of a format string: characters stand for themselves, [$c] for the
    text of its argument. [Bad]: unknown directive, lone [$] at the end or
    unused arguments. [NoClaim]: missing argument or argument of another type. *)
Fixpoint fmt_text (X : tdialect) (p : list N) (args : list farg) : ftext :=
  match p with
  | [] => match args with [] => Ok [] | _ => Bad end
  | c :: r =>
      if negb (c =? 36) then pre [c] (fmt_text X r args)
      else match r with
      | [] => Bad
      | k :: r =>
          match x_noarg X k with
          | Some t => pre t (fmt_text X r args)
          | None =>
              if k =? 117 (* u *) then
                match args with AU32 n :: a => pre (numeral 10 n) (fmt_text X r a) | _ => NoClaim end
              else if k =? 115 (* s *) then
                match args with AStr s :: a => pre s (fmt_text X r a) | _ => NoClaim end
              else if (k =? 81) && x_q X (* Q *) then
                match args with AU64 n :: a => pre (padded 16 16 n) (fmt_text X r a) | _ => NoClaim end
              else match x_var X k (mkV 0 0 0 false 0), args with
                   | None, _ => Bad
                   | Some _, AVar v :: a =>
                       match x_var X k v with Some t => pre t (fmt_text X r a) | None => NoClaim end
                   | _, _ => NoClaim
                   end
          end
      end
  end.

Definition nm (l : list string) (t : N) : list N := match nth_error l (N.to_nat t) with Some s => str s | None => [] end.

(** Names of the variable types (in the order of enum VarType: Void, Bool, a
    reserved entry, Int8 ... UInt64, Pointer, a reserved entry, Float16,
    Float32, Float64). *)
Definition n_llvm := nm
  ["???"; "i1"; "???"; "i8"; "i8"; "i16"; "i16"; "i32"; "i32"; "i64"; "i64"; "i64"; "???"; "half"; "float"; "double"]%string.
Definition n_big := nm
  ["???"; "???"; "???"; "i16"; "i16"; "i32"; "i32"; "i64"; "i64"; "i128"; "i128"; "???"; "???"; "???"; "???"; "???"]%string.
Definition n_abbrev := nm
  ["???"; "i1"; "???"; "i8"; "i8"; "i16"; "i16"; "i32"; "i32"; "i64"; "i64"; "i64"; "???"; "f16"; "f32"; "f64"]%string.
Definition n_bin := nm
  ["???"; "i1"; "???"; "i8"; "i8"; "i16"; "i16"; "i32"; "i32"; "i64"; "i64"; "i64"; "???"; "i16"; "i32"; "i64"]%string.
Definition n_prefix := nm
  ["%u"; "%p"; "???"; "%b"; "%b"; "%w"; "%w"; "%r"; "%r"; "%rd"; "%rd"; "%rd"; "???"; "%h"; "%f"; "%d"]%string.
Definition n_ptx := nm
  ["???"; "pred"; "???"; "s8"; "u8"; "s16"; "u16"; "s32"; "u32"; "s64"; "u64"; "u64"; "???"; "f16"; "f32"; "f64"]%string.
Definition n_ptx_bin2 := nm
  ["???"; "b8"; "???"; "b8"; "b8"; "b16"; "b16"; "b32"; "b32"; "b64"; "b64"; "b64"; "???"; "b16"; "b32"; "b64"]%string.
Definition n_ptx_bin := nm
  ["???"; "pred"; "???"; "b8"; "b8"; "b16"; "b16"; "b32"; "b32"; "b64"; "b64"; "b64"; "???"; "b16"; "b32"; "b64"]%string.
Definition n_metal := nm
  ["void"; "bool"; "???"; "char"; "uchar"; "short"; "ushort"; "int"; "uint"; "long"; "ulong"; "ulong"; "???"; "half"; "float"; "float"]%string.
Definition n_metal_bin := nm
  ["???"; "uchar"; "???"; "uchar"; "uchar"; "ushort"; "ushort"; "uint"; "uint"; "ulong"; "ulong"; "ulong"; "???"; "ushort"; "uint"; "uint"]%string.
Definition size_of (t : N) : N := nth (N.to_nat t) [0; 1; 0; 1; 1; 2; 2; 4; 4; 8; 8; 8; 0; 2; 4; 8] 0.

Definition code (s : string) : N := match str s with c :: _ => c | [] => 0 end.

(** "<W x ty>" *)
Definition vec (e : fenv) (ty : list N) : list N :=
  str "<" ++ numeral 10 (e_width e) ++ str " x " ++ ty ++ str ">".

(** LLVM directives. Masks are stored as bytes in memory ([H], [m], [M]);
    floating point literals are written as the hex image of the double. *)
Definition llvm_text (e : fenv) (c : N) (v : fvar) : option (list N) :=
  let t := v_type v in
  let mt := if t =? 1 then 4 else t in
  let reg := n_prefix t ++ numeral 10 (v_reg v) in
  if c =? code "t" then Some (n_llvm t)
  else if c =? code "b" then Some (n_bin t)
  else if c =? code "d" then Some (n_big t)
  else if c =? code "H" then Some (n_abbrev mt)
  else if c =? code "h" then Some (n_abbrev t)
  else if c =? code "m" then Some (n_llvm mt)
  else if c =? code "T" then Some (vec e (n_llvm t))
  else if c =? code "B" then Some (vec e (n_bin t))
  else if c =? code "D" then Some (vec e (n_big t))
  else if c =? code "M" then Some (vec e (n_llvm mt))
  else if c =? code "v" then Some reg
  else if c =? code "V" then Some (vec e (n_llvm t) ++ str " " ++ reg)
  else if c =? code "l" then
    Some (if t =? 14 then str "0x" ++ numeral 16 (f32_to_f64 e (v_lit v mod 2 ^ 32))
          else if t =? 13 then str "0x" ++ numeral 16 (f16_to_f64 e (v_lit v mod 2 ^ 16))
          else if t =? 15 then str "0x" ++ numeral 16 (v_lit v)
          else numeral 10 (v_lit v))
  else if c =? code "a" then Some (numeral 10 (if v_unaligned v then 1 else size_of t))
  else if c =? code "A" then
    Some (numeral 10 (if v_unaligned v then 1 else (size_of t * e_width e) mod 2 ^ 32))
  else if c =? code "o" then Some (numeral 10 (v_off v / 8))
  else None.

Definition llvm_text0 (e : fenv) (c : N) : option (list N) :=
  if c =? code "w" then Some (numeral 10 (e_width e))
  else if c =? code "z" then Some (str "zeroinitializer")
  else if c =? code "<" then
    Some (if 0 <? e_depth e then str "<" ++ numeral 10 (e_width e) ++ str " x " else [])
  else if c =? code ">" then Some (if 0 <? e_depth e then str ">" else [])
  else None.

Definition cuda_text (c : N) (v : fvar) : option (list N) :=
  let t := v_type v in
  let reg := n_prefix t ++ numeral 10 (v_reg v) in
  if c =? code "t" then Some (n_ptx t)
  else if c =? code "B" then Some (n_ptx_bin2 t)
  else if c =? code "b" then Some (n_ptx_bin t)
  else if c =? code "V" then Some (if t =? 1 then str "%w0" else reg)
  else if c =? code "v" then Some reg
  else if c =? code "l" then Some (str "0x" ++ numeral 16 (v_lit v))
  else if c =? code "a" then Some (numeral 10 (size_of t))
  else if c =? code "o" then Some (numeral 10 (v_off v))
  else None.

Definition metal_text (c : N) (v : fvar) : option (list N) :=
  let t := v_type v in
  if c =? code "t" then Some (n_metal t)
  else if c =? code "b" then Some (n_metal_bin t)
  else if c =? code "v" then Some (str "r" ++ numeral 10 (v_reg v))
  else if c =? code "l" then Some (str "0x" ++ numeral 16 (v_lit v))
  else if c =? code "o" then Some (numeral 10 ((v_off v / 8 + 2 ^ 32 - 1) mod 2 ^ 32))
  else None.

Definition x_llvm (e : fenv) := mkT (llvm_text0 e) (llvm_text e) true.
Definition x_cuda := mkT (fun _ => None) cuda_text true.
Definition x_metal := mkT (fun _ => None) metal_text false.

(** Values that fit their C++ types. *)
Definition var_ok (v : fvar) : Prop :=
  v_type v < 16 /\ v_reg v < 2 ^ 32 /\ v_lit v < 2 ^ 64 /\ v_off v < 2 ^ 32.
Definition arg_ok (a : farg) : Prop :=
  match a with
  | AU32 n => n < 2 ^ 32
  | AU64 n => n < 2 ^ 64
  | AStr _ => True
  | AVar v => var_ok v
  end.
Definition env_ok (e : fenv) : Prop :=
  e_width e < 2 ^ 32 /\ (forall x, f32_to_f64 e x < 2 ^ 64) /\ (forall x, f16_to_f64 e x < 2 ^ 64).

Definition str_size (a : farg) : N := match a with AStr s => len s | _ => 0 end.
Definition sum_N (l : list N) : N := fold_right N.add 0 l.

(** Everything fits in the address space (no size_t computation wraps). *)
Definition fits (b : sbuf) (fmt : list N) (args : list farg) : Prop :=
  s_cur b + 8 * len fmt + 48 * len args + sum_N (map str_size args) < 2 ^ 62.

(** ** Histories of buffer operations *)

Inductive sop :=
| SPut (s : list N)              (* put(text), put(char), put(char, count) *)
| SU32 (n : N) | SU64 (n : N) | SX32 (n : N) | SX64 (n : N)
| SDel                           (* delete_trailing_commas() *)
| SClear
| SRewind (k : N)
| SMove (start target : N)
| SFmt (e : fenv) (fmt : list N) (args : list farg).

(** The same on plain texts; [None]: the call is outside of its precondition. *)
Fixpoint drop_commas (l : list N) : list N :=
  match l with c :: r => if (c =? 44) || (c =? 32) then drop_commas r else l | [] => [] end.
Definition abs_step (t : list N) (o : sop) : option (list N) :=
  match o with
  | SPut s => Some (t ++ s)
  | SU32 n => if n <? 2 ^ 32 then Some (t ++ numeral 10 n) else None
  | SU64 n => if n <? 2 ^ 64 then Some (t ++ numeral 10 n) else None
  | SX32 n => if n <? 2 ^ 32 then Some (t ++ numeral 16 n) else None
  | SX64 n => if n <? 2 ^ 64 then Some (t ++ numeral 16 n) else None
  | SDel => Some (rev (drop_commas (rev t)))
  | SClear => Some []
  | SRewind k => if k <=? len t then Some (firstn (N.to_nat (len t - k)) t) else None
  | SMove s g => if (g <=? s) && (s <=? len t)
                 then Some (firstn (N.to_nat g) t ++ skipn (N.to_nat s) t ++
                            firstn (N.to_nat (s - g)) (skipn (N.to_nat g) t))
                 else None
  | SFmt e f a => match fmt_text (x_llvm e) f a with Ok x => Some (t ++ x) | _ => None end
  end.
Definition op_ok (t : list N) (o : sop) : Prop :=
  match o with
  | SPut s => len t + len s < 2 ^ 61
  | SFmt e f a => env_ok e /\ Forall (fun c => c < 256) f /\ Forall arg_ok a /\
                  len t + 8 * len f + 48 * len a + sum_N (map str_size a) < 2 ^ 61
  | _ => len t < 2 ^ 61
  end.
Definition step (b : sbuf) (o : sop) : option sbuf :=
  match o with
  | SPut s => put_str b s
  | SU32 n => put_u32 b n
  | SU64 n => put_u64 b n
  | SX32 n => put_x32 b n
  | SX64 n => put_x64 b n
  | SDel => Some (delete_trailing_commas b)
  | SClear => clear b
  | SRewind k => rewind b k
  | SMove s g => move_suffix b s g
  | SFmt e f a => match fmt_llvm e b f a with Done b => Some b | _ => None end
  end.

(** The text is followed by a terminator (get() is null for a buffer without storage). *)
Definition terminated (b : sbuf) : Prop :=
  (s_cap b = 0 /\ s_cur b = 0) \/ (s_mem b (s_cur b) = 0 /\ s_cur b < s_cap b).

(** Operations that write a terminator. *)
Definition terminates (o : sop) : bool :=
  match o with SPut _ | SMove _ _ | SFmt _ _ _ | SClear | SRewind _ => true | _ => false end.

Inductive texts : list N -> list sop -> list N -> Prop :=
| T_nil t : texts t [] t
| T_cons t o t1 r t2 : op_ok t o -> abs_step t o = Some t1 -> texts t1 r t2 -> texts t (o :: r) t2.

Fixpoint run (b : sbuf) (l : list sop) : option sbuf :=
  match l with [] => Some b | o :: r => let? b := step b o in run b r end.

(** A new buffer: no storage, or storage with a terminator at the start
    (src/strbuf.cpp:256-263). *)
Definition fresh_buf (b : sbuf) : Prop := s_cur b = 0 /\ (s_cap b = 0 \/ s_mem b 0 = 0).
