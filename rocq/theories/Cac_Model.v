(** The kernel cache on disk: src/io.cpp.

    Strings and files are lists of bytes.  Simplifications: the checksum (XXH3) and LZ4
    are parameters; errors of the operating system appear as non-deterministic outcomes
    where the code reacts to them; time stamps are integers. *)
From Verif Require Import Base.
Local Open Scope N_scope.

Definition byte (b : N) : Prop := b < 256.

(** ** Sizes: io.cpp:155-180 *)
Definition is_space (c : N) : bool := ((9 <=? c) && (c <=? 13)) || (c =? 32).
Definition is_digit (c : N) : bool := (48 <=? c) && (c <=? 57).
Fixpoint spaces (s : list N) : list N :=
  match s with c :: r => if is_space c then spaces r else s | [] => [] end.
Fixpoint digits (acc : N) (s : list N) : N * list N :=
  match s with c :: r => if is_digit c then digits (10 * acc + (c - 48)) r else (acc, s) | [] => (acc, []) end.
Record conversion := mkConv { c_value : N; c_rest : list N; c_errno : bool; c_none : bool }.
(** strtoull(value, &end, 10) of the C library *)
Definition strtoull (s : list N) : conversion :=
  let s1 := spaces s in
  let '(neg, s2) := match s1 with c :: r => if c =? 45 then (true, r) else if c =? 43 then (false, r) else (false, s1) | [] => (false, s1) end in
  match s2 with
  | c :: _ =>
      if is_digit c then
        let '(v, rest) := digits 0 s2 in
        if v <? 2 ^ 64 then mkConv (if neg then u64 (2 ^ 64 - v) else v) rest false false
        else mkConv (2 ^ 64 - 1) rest true false
      else mkConv 0 s false true
  | [] => mkConv 0 s false true
  end.
Definition size_max : N := 2 ^ 64 - 1.
Definition scale_of (c : N) : option N :=
  if (c =? 107) || (c =? 75) then Some (2 ^ 10)
  else if (c =? 109) || (c =? 77) then Some (2 ^ 20)
  else if (c =? 103) || (c =? 71) then Some (2 ^ 30)
  else None.
Definition parse_size (s : list N) : N :=
  if match s with c :: _ => c =? 45 | [] => false end then size_max
  else
    let c := strtoull s in
    if c_errno c || c_none c then size_max
    else
      let finish scale := if size_max / scale <? c_value c then size_max else u64 (c_value c * scale) in
      match c_rest c with
      | [] => finish 1
      | x :: r => match scale_of x, r with Some scale, [] => finish scale | _, _ => size_max end
      end.

(** ** Files: io.cpp:79-87, 111-132, 292-434, 436-548 (LLVM) *)
Fixpoint le (n : nat) (x : N) : list N := match n with O => [] | S n => x mod 256 :: le n (x / 256) end.
Fixpoint unle (l : list N) : N := match l with [] => 0 | b :: r => b + 256 * unle r end.
Record kernel := mkKernel { k_data : list N; k_reloc : list N (* offsets into [k_data] *) }.
Record header := mkHeader { h_version : N; h_compressed : N; h_source : N; h_kernel : N; h_reloc : N; h_checksum : list N }.
Definition header_bytes (h : header) : list N := h_version h :: le 4 (h_compressed h) ++ le 4 (h_source h) ++ le 4 (h_kernel h) ++ le 4 (h_reloc h).
(** the first 33 bytes *)
Definition read_header (f : list N) : header :=
  let at_ p n := firstn n (skipn p f) in
  mkHeader (unle (at_ 0%nat 1%nat)) (unle (at_ 1%nat 4%nat)) (unle (at_ 5%nat 4%nat)) (unle (at_ 9%nat 4%nat)) (unle (at_ 13%nat 4%nat)) (at_ 17%nat 16%nat).
Definition version : N := 6.
Definition padding (k : N) : N := if k mod 8 =? 0 then 0 else 8 - k mod 8.
Definition len {A} (l : list A) : N := N.of_nat (length l).

Section Files.
Variable checksum : list N -> list N.        (* XXH3 with seed 1, as 16 bytes *)
Variable compress : list N -> list N.        (* empty on failure *)
Variable decompress : list N -> N -> option (list N).     (* None: a negative result *)

Definition cache_checksum (h : header) (source compressed : list N) : list N := checksum (header_bytes h ++ source ++ compressed).

Definition write (source : list N) (k : kernel) : list N :=
  let kernel_size := u32 (len (k_data k)) in
  let reloc_size := u32 (len (k_reloc k) * 8) in
  let input := k_data k ++ repeat 0 (N.to_nat (padding kernel_size)) ++ flat_map (le 8) (k_reloc k) in
  let out := compress input in
  let h := mkHeader version (u32 (len out)) (u32 (len source)) kernel_size reloc_size [] in
  header_bytes h ++ cache_checksum h source out ++ out.

Inductive verdict := Loaded (k : kernel) | Rejected | Fatal | Undefined.
Fixpoint words (n : nat) (l : list N) : list N := match n with O => [] | S n => unle (firstn 8 l) :: words n (skipn 8 l) end.
Definition poke (l : list N) (p : nat) (v : list N) : list N := firstn p l ++ v ++ skipn (p + length v) l.
(** [table]: address of the second entry of the relocation table *)
Definition load (source f : list N) (table : N) : verdict :=
  if len f <? 33 then Rejected else
  let h := read_header f in
  if negb (h_version h =? version) then Rejected
  else if negb (len f =? 33 + h_compressed h) then Rejected
  else if negb (h_source h =? u32 (len source)) then Rejected
  else
    let payload := firstn (N.to_nat (h_compressed h)) (skipn 33 f) in
    if negb (if list_eq_dec N.eq_dec (h_checksum h) (cache_checksum h source payload) then true else false) then Rejected
    else
      let pad := padding (h_kernel h) in
      let total := u32 (h_kernel h + pad + h_reloc h) in
      match decompress payload total with
      | None => if total =? 2 ^ 32 - 1 then Undefined else Rejected
      | Some d =>
          if negb (len d =? total) then Rejected
          else if total <? h_kernel h + pad + h_reloc h then Undefined          (* reads past the buffer *)
          else if h_kernel h =? 0 then Fatal                                    (* mmap of nothing *)
          else
            let data := firstn (N.to_nat (h_kernel h)) d in
            let reloc := words (N.to_nat (h_reloc h / 8)) (skipn (N.to_nat (h_kernel h + pad)) d) in
            match reloc with
            | _ :: off :: _ =>
                if h_kernel h <? off + 8 then Undefined
                else Loaded (mkKernel (poke data (N.to_nat off) (le 8 table)) reloc)
            | _ => Loaded (mkKernel data reloc)
            end
      end.
End Files.

(** ** Publication: io.cpp:436-548.  Several processes; each holds the lock of its own
    process while it writes, hence writes one file at a time. *)
Inductive name := Final (h : nat) | Temp (h pid : nat).
Definition name_eqb (a b : name) : bool :=
  match a, b with Final h, Final h' => Nat.eqb h h' | Temp h p, Temp h' p' => Nat.eqb h h' && Nat.eqb p p' | _, _ => false end.
Record fs := mkFs { dir : name -> option nat; content : nat -> list N; inodes : nat }.
Definition at_name {A} (f : name -> A) (n : name) (x : A) : name -> A := fun m => if name_eqb m n then x else f m.
Definition at_inode {A} (f : nat -> A) (n : nat) (x : A) : nat -> A := fun m => if Nat.eqb m n then x else f m.
(** open(O_CREAT | O_TRUNC) *)
Definition fs_open (n : name) (s : fs) : fs * nat :=
  match dir s n with
  | Some i => (mkFs (dir s) (at_inode (content s) i []) (inodes s), i)
  | None => (mkFs (at_name (dir s) n (Some (inodes s))) (at_inode (content s) (inodes s) []) (S (inodes s)), inodes s)
  end.
(** write at a position; a gap is filled with zeros *)
Definition fs_write (i pos : nat) (c : list N) (s : fs) : fs :=
  let old := content s i in
  mkFs (dir s) (at_inode (content s) i (firstn pos (old ++ repeat 0 pos) ++ c ++ skipn (pos + length c) old)) (inodes s).
Definition fs_link (from to : name) (s : fs) : fs :=
  match dir s from, dir s to with
  | Some i, None => mkFs (at_name (dir s) to (Some i)) (content s) (inodes s)
  | _, _ => s
  end.
Definition fs_remove (n : name) (s : fs) : fs := mkFs (at_name (dir s) n None) (content s) (inodes s).

(** A writer: which kernel, process, the bytes in the pieces in which they reach the file *)
Record writer := mkWriter { w_hash : nat; w_pid : nat; w_pieces : list (list N) }.
Definition temp (w : writer) : name := Temp (w_hash w) (w_pid w).
Inductive pc := Start | Writing (inode pos : nat) (rest : list (list N)) | Written | Linked | Finished.
(** [fail]: an operation reported an error *)
Definition step_writer (w : writer) (fail : bool) (p : pc) (s : fs) : pc * fs :=
  match p with
  | Start => if fail then (Finished, s) else let '(s, i) := fs_open (temp w) s in (Writing i 0 (w_pieces w), s)
  | Writing i pos (c :: r) => if fail then (Linked, s) else (Writing i (pos + length c) r, fs_write i pos c s)
  | Writing i pos [] => (if fail then Linked else Written, s)                  (* close, file.good() *)
  | Written => (Linked, if fail then s else fs_link (temp w) (Final (w_hash w)) s)
  | Linked => (Finished, if fail then s else fs_remove (temp w) s)
  | Finished => (Finished, s)
  end.
(** What happens: writer [n] makes a step; an entry is removed (by a sweep, or because a
    reader rejected it).  A writer that is not mentioned any more has died. *)
Inductive event := Step (n : nat) (fail : bool) | Evict (h : nat).
Record world := mkWorld { w_fs : fs; w_pcs : list pc }.
Definition step (ws : list writer) (e : event) (x : world) : world :=
  match e with
  | Step n fail =>
      match nth_error ws n, nth_error (w_pcs x) n with
      | Some w, Some p => let '(p, s) := step_writer w fail p (w_fs x) in mkWorld s (set_nth n p (w_pcs x))
      | _, _ => x
      end
  | Evict h => mkWorld (fs_remove (Final h) (w_fs x)) (w_pcs x)
  end.
Fixpoint run (ws : list writer) (es : list event) (x : world) : world :=
  match es with [] => x | e :: r => run ws r (step ws e x) end.

(** ** Sweep: io.cpp:555-612 *)
Record dentry := mkDentry { d_name : nat; d_bin : bool; d_regular : bool; d_error : bool; d_size : N; d_time : Z }.
Section Sweep.
Variable sort : list dentry -> list dentry.          (* std::sort by time *)
Variable removes : dentry -> bool.                   (* whether fs::remove succeeds *)
Definition candidate (e : dentry) : bool := d_bin e && (d_regular e && negb (d_error e)).
Fixpoint total_size (l : list dentry) (acc : N) : N := match l with [] => acc | e :: r => total_size r (u64 (acc + d_size e)) end.
Fixpoint evict (target total : N) (l : list dentry) : list dentry :=
  match l with
  | [] => []
  | e :: r => if total <=? target then [] else if removes e then e :: evict target (sub64 total (d_size e)) r else evict target total r
  end.
(** the entries removed *)
Definition sweep (max_size : N) (l : list dentry) : list dentry :=
  let entries := filter candidate l in
  let total := total_size entries 0 in
  if negb (max_size =? 0) && (max_size <? total) then evict (max_size / 5 * 4) total (sort entries) else [].
End Sweep.

(** ** The stamp: io.cpp:255-267, 614-640.  One step per operation on the file. *)
Record stamp := mkStamp { st_file : option Z (* time of last write *); st_now : Z; st_sweeps : list (nat * Z) }.
Inductive spc := SInit | SBackdate | SCheck | SRemove | SCreate | SDone.
Definition hour : Z := 3600.
Definition step_stamp (n : nat) (p : spc) (s : stamp) : spc * stamp :=
  match p with
  | SInit => match st_file s with
             | Some _ => (SCheck, s)
             | None => (SBackdate, mkStamp (Some (st_now s)) (st_now s) (st_sweeps s))
             end
  | SBackdate => (SCheck, match st_file s with
                          | Some _ => mkStamp (Some (st_now s - 2 * hour)%Z) (st_now s) (st_sweeps s)
                          | None => s
                          end)
  | SCheck => match st_file s with
              | Some m => if (m <=? st_now s)%Z && (st_now s - m <? hour)%Z then (SDone, s) else (SRemove, s)
              | None => (SRemove, s)
              end
  | SRemove => match st_file s with Some _ => (SCreate, mkStamp None (st_now s) (st_sweeps s)) | None => (SDone, s) end
  | SCreate => (SDone, mkStamp (Some (st_now s)) (st_now s) ((n, st_now s) :: st_sweeps s))
  | SDone => (SDone, s)
  end.
Inductive sevent := Go (n : nat) | Tick (d : Z).
Definition sstep (e : sevent) (x : stamp * list spc) : stamp * list spc :=
  let '(s, ps) := x in
  match e with
  | Go n => match nth_error ps n with Some p => let '(p, s) := step_stamp n p s in (s, set_nth n p ps) | None => x end
  | Tick d => (mkStamp (st_file s) (st_now s + Z.max 0 d)%Z (st_sweeps s), ps)
  end.
Fixpoint srun (es : list sevent) (x : stamp * list spc) : stamp * list spc :=
  match es with [] => x | e :: r => srun r (sstep e x) end.
