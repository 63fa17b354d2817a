(** Layout of captured call data: src/call.cpp:175-295 (jitc_call_layout_instance),
    493-528 (instances of one call), 776-795 (placement of a call in the shared buffer),
    735-741 (getter tables), 1101-1219 (jitc_call_upload); src/call.h:57-141, 243-269;
    src/llvm_packet.cpp:188-330 (packet loads).

    Simplifications: a captured variable is a number; only the offsets and widths of the
    generated LLVM packet loads are modelled, not their text; the vector loads of the other
    backends (cuda_eval.cpp:343-371, metal_eval.cpp:1373-1410) are not modelled. *)
From Verif Require Import Base.
Local Open Scope N_scope.

(** A capture slot before layout: variable, size bucket (call.h:53-81: 0..3 packet-loadable
    8/4/2/1 bytes, 4..7 the same sizes, loaded one by one). *)
Definition slot : Type := N * N.
(** A capture slot after layout: variable, byte offset, bucket (call.h:85-94). *)
Definition placed : Type := N * N * N.

(** call.h:73-75 *)
Definition bsize (b : N) : N := N.shiftr 8 (N.land b 3).
Definition coalesceable (b : N) : bool := b <? 4.

(** common.h:108-115 *)
Definition align_up (x a : N) : N := u32 (u32 (x + a + (2 ^ 32 - 1)) / a * a).

(** call.h:246-254; [fuel]: every step halves [cand] *)
Fixpoint pick_packet_from (fuel : nat) (remaining cand : N) : N :=
  match fuel with
  | O => 1
  | S f =>
      if cand <? 2 then 1
      else if u32 (cand * 75) <=? u32 ((if remaining <? cand then remaining else cand) * 100) then cand
      else pick_packet_from f remaining (cand / 2)
  end.
Definition pick_packet (remaining max_count : N) : N := pick_packet_from 32 remaining max_count.
(** call.h:258-267 *)
Fixpoint pick_chunk_from (fuel : nat) (offset remaining cand : N) : N :=
  match fuel with
  | O => 4
  | S f =>
      if cand <? 8 then 4
      else if (offset mod cand =? 0) && (u32 (cand * 75) <=? u32 ((if remaining <? cand then remaining else cand) * 100)) then cand
      else pick_chunk_from f offset remaining (cand / 2)
  end.
Definition pick_chunk (offset remaining max_chunk : N) : N := pick_chunk_from 32 offset remaining max_chunk.

(** call.cpp:90-92 *)
Definition packet_cap (vector_width : N) : N := N.max 1 (N.min 8 vector_width).

(** call.cpp:180-195: number of slots per bucket, widest field, bytes that can be coalesced *)
Definition count (b : N) (ss : list slot) : N := N.of_nat (length (filter (fun s => snd s =? b) ss)).
Definition max_field (ss : list slot) : N := fold_left (fun m s => N.max m (bsize (snd s))) ss 1.
Definition coalesceable_bytes (ss : list slot) : N :=
  fold_left (fun m s => if coalesceable (snd s) then u32 (m + bsize (snd s)) else m) ss 0.

(** call.cpp:202-207 *)
Definition bucket_align (llvm : bool) (cap : N) (ss : list slot) (c : N) : N :=
  u32 ((if llvm then pick_packet (count c ss) cap else 1) * bsize c).

(** call.cpp:215-225 *)
Definition block_align (llvm : bool) (alignment cap : N) (ss : list slot) : N :=
  if llvm then
    fold_left (fun m c => if count c ss =? 0 then m else N.max m (bucket_align llvm cap ss c)) [0; 1; 2; 3] (max_field ss)
  else
    N.max (max_field ss) (pick_chunk 0 (N.land (u32 (coalesceable_bytes ss + 3)) (2 ^ 32 - 4)) alignment).

(** call.cpp:234-246: insertion sort by descending alignment; the order is kept reversed *)
Fixpoint ins (al : N -> N) (c : N) (rorder : list N) : list N :=
  match rorder with
  | [] => [c]
  | x :: r => if al x <? al c then x :: ins al c r else c :: rorder
  end.
Definition bucket_order (llvm : bool) (al : N -> N) : list N :=
  if llvm then rev (fold_left (fun ro c => ins al c ro) [1; 2; 3] [0]) else [0; 1; 2; 3].

(** call.h:107-132 *)
Record layout := mkLayout {
  l_start : N; l_count : N; l_offset : N; l_coalesce_end : N; l_coalesce_count : N;
  l_bucket : list (N * N)    (** first slot and number of slots, per coalesceable bucket *)
}.

(** call.cpp:248-251 *)
Record pstate := mkP {
  p_slot : list N; p_offset : list N; p_next_slot : N; p_next_offset : N; p_layout : layout
}.
Definition put (b x : N) (l : list N) : list N := set_nth (N.to_nat b) x l.
Definition at_ (b : N) (l : list N) : N := nth (N.to_nat b) l 0.

(** call.cpp:256-278 place_bucket *)
Definition place (ss : list slot) (p : pstate) (ba : N * N) : pstate :=
  let (b, align) := ba in
  let cnt := count b ss in
  if cnt =? 0 then p
  else
    let off := align_up (p_next_offset p) align in
    let bytes := u32 (cnt * bsize b) in
    let l := p_layout p in
    let l' := if b <? 4 then
        mkLayout (l_start l) (l_count l) (l_offset l)
          (N.max (l_coalesce_end l) (u32 (sub32 off (l_offset l) + bytes)))
          (u32 (l_coalesce_count l + cnt))
          (set_nth (N.to_nat b) (u32 (l_start l + p_next_slot p), cnt) (l_bucket l))
      else l in
    mkP (put b (p_next_slot p) (p_slot p)) (put b off (p_offset p))
        (u32 (p_next_slot p + cnt)) (u32 (off + bytes)) l'.

(** call.cpp:286-292: one slot *)
Definition scatter1 (st : list N * list N * list placed) (s : slot) : list N * list N * list placed :=
  let '(bs, bo, out) := st in
  let (ref, b) := s in
  (put b (u32 (at_ b bs + 1)) bs, put b (u32 (at_ b bo + bsize b)) bo,
   set_nth (N.to_nat (at_ b bs)) (ref, at_ b bo, b) out).

(** call.cpp:175-295: the slots of one instance in traversal order; [lo]: index of its
    first slot; result: slots in memory order, layout record, new size of the block *)
Definition layout_instance (llvm : bool) (alignment cap : N) (lo data_size : N) (ss : list slot)
  : list placed * layout * N :=
  let al := bucket_align llvm cap ss in
  let base := align_up data_size (block_align llvm alignment cap ss) in
  let p0 := mkP (repeat 0 8) (repeat 0 8) 0 base
              (mkLayout lo (N.of_nat (length ss)) base 0 0 (repeat (0, 0) 4)) in
  let order := map (fun c => (c, al c)) (bucket_order llvm al) ++ map (fun c => (4 + c, bsize c)) [0; 1; 2; 3] in
  let p := fold_left (place ss) order p0 in
  let '(_, _, out) := fold_left scatter1 ss (p_slot p, p_offset p, repeat (0, 0, 0) (length ss)) in
  (out, p_layout p, p_next_offset p).

(** call.cpp:497-528: all instances of a call. *)
Fixpoint layout_from (llvm : bool) (alignment cap lo data_size : N) (insts : list (list slot))
  : list placed * list layout * N :=
  match insts with
  | [] => ([], [], data_size)
  | ss :: r =>
      let '(out, l, ds) := layout_instance llvm alignment cap lo data_size ss in
      let '(outs, ls, ds') := layout_from llvm alignment cap (u32 (lo + N.of_nat (length ss))) ds r in
      (out ++ outs, l :: ls, ds')
  end.
Record call := mkCall {
  c_slots : list placed; c_layouts : list layout; c_data_size : N; c_inst_id : list N; c_offset_count : N
}.
Definition layout_call (llvm : bool) (alignment cap : N) (insts : list (list slot)) (inst_id : list N) : call :=
  let '(out, ls, ds) := layout_from llvm alignment cap 0 0 insts in
  mkCall out ls (align_up ds alignment) inst_id (u32 (fold_left N.max inst_id 0 + 1)).

(** A load: byte offset relative to the block of the instance, number of elements, bytes per
    element; [ld_slot]: slot bound to its first element. *)
Record load := mkLoad { ld_off : N; ld_n : N; ld_size : N; ld_slot : N }.

(** llvm_packet.cpp:251-330: packet loads over the first [run] slots of bucket [c] *)
Fixpoint packets (fuel : nat) (width c rel0 k run pos : N) : list load :=
  match fuel with
  | O => []
  | S f =>
      if pos <? run then
        let p := pick_packet (run - pos) (if width <? 8 then width else 8) in
        if p <? 2 then []
        else mkLoad (u32 (rel0 + pos * bsize c)) p (bsize c) (k + pos) ::
             packets f width c rel0 k run (pos + N.min (run - pos) p)
      else []
  end.
(** llvm_packet.cpp:219-241; [live k]: slot [k] is used by the generated code *)
Definition run_length (live : N -> bool) (k cnt : N) : N :=
  fold_left (fun m i => if live (k + i) then i + 1 else m) (map N.of_nat (seq 0 (N.to_nat cnt))) 0.
Definition bucket_loads (width : N) (live : N -> bool) (slots : list placed) (l : layout) (c : N) : list load :=
  let (k, cnt) := nth (N.to_nat c) (l_bucket l) (0, 0) in
  if cnt =? 0 then []
  else
    let rel0 := sub32 (snd (fst (nth (N.to_nat k) slots (0, 0, 0)))) (l_offset l) in
    let run := run_length live k cnt in
    packets (N.to_nat run) width c rel0 k run 0.


(** ** Shared buffer of all calls of a kernel *)
(** An assembled call with the index of the callable of each instance, or a getter table:
    bytes per entry and the contents of its entries 1, 2, ... (zeros for absent ones). *)
Inductive item := ICall (c : call) (callables : list N) | IGetter (tsize : N) (vals : list (list N)).

(** call.cpp:782-787 and 738-741: each item receives its part of the two regions; result:
    items with their offset and data base, sizes of the two regions *)
Fixpoint assemble (items : list item) (fo fd : N) : list (item * N * N) * N * N :=
  match items with
  | [] => ([], fo, fd)
  | it :: r =>
      let fo' := match it with
                 | ICall c _ => u32 (fo + u32 (c_offset_count c * 8))
                 | IGetter t vs => u32 (fo + align_up (u32 ((N.of_nat (length vs) + 1) * t)) 8)
                 end in
      let fd' := match it with ICall c _ => u32 (fd + c_data_size c) | IGetter _ _ => fd end in
      let '(l, f, d) := assemble r fo' fd' in
      ((it, fo, fd) :: l, f, d)
  end.

(** An aggregation entry: byte offset and the bytes written there. *)
Definition entry : Type := N * list N.
Fixpoint le_bytes (n : nat) (v : N) : list N :=
  match n with O => [] | S n' => v mod 256 :: le_bytes n' (v / 256) end.

(** call.cpp:1135-1152: 64-bit entries of the offset table *)
Definition table_words (data_start db : N) (c : call) (callables : list N) : list N :=
  fold_left (fun tab (x : N * (layout * N)) =>
      let '(id, (l, callable)) := x in
      set_nth (N.to_nat id) (u64 (N.lor (u64 (N.shiftl (data_start + db + l_offset l) 32)) callable)) tab)
    (combine (c_inst_id c) (combine (c_layouts c) callables)) (repeat 0 (N.to_nat (c_offset_count c))).
(** call.cpp:1154-1170 *)
Fixpoint word_entries (pos : N) (ws : list N) : list entry :=
  match ws with
  | [] => []
  | e :: r => (pos, le_bytes 4 (u32 e)) :: (u32 (pos + 4), le_bytes 4 (u32 (N.shiftr e 32))) :: word_entries (u32 (pos + 8)) r
  end.
Definition table_entries (data_start : N) (x : item * N * N) : list entry :=
  match x with
  | (ICall c callables, ob, db) => word_entries ob (table_words data_start db c callables)
  | _ => []
  end.
(** call.cpp:789-795, 1173-1182; [data r]: bytes of variable [r] *)
Definition slot_entries (data : N -> list N) (data_start : N) (x : item * N * N) : list entry :=
  match x with
  | (ICall c _, _, db) => map (fun s : placed => (u32 (u32 (db + snd (fst s)) + data_start), data (fst (fst s)))) (c_slots c)
  | _ => []
  end.
(** call.cpp:1184-1213 *)
Fixpoint getter_rows (pos t : N) (vs : list (list N)) : list entry :=
  match vs with [] => [] | v :: r => (pos, v) :: getter_rows (u32 (pos + t)) t r end.
Definition getter_entries (x : item * N * N) : list entry :=
  match x with
  | (IGetter t vs, ob, _) => getter_rows ob t (repeat 0 (N.to_nat t) :: vs)
  | _ => []
  end.
(** call.cpp:1101-1219: entries and size of the buffer; [alignment]: call_data_align *)
Definition upload (data : N -> list N) (alignment : N) (items : list item) : list entry * N :=
  let '(xs, off_size, data_size) := assemble items 0 0 in
  let data_start := align_up off_size alignment in
  (flat_map (table_entries data_start) xs ++ flat_map (slot_entries data data_start) xs ++ flat_map getter_entries xs,
   u32 (data_start + data_size)).

(** llvm_ts.cpp:971-990: writing the entries, one after another *)
Definition write (m : N -> N) (e : entry) : N -> N :=
  fun a => if (fst e <=? a) && (a <? fst e + N.of_nat (length (snd e)))
           then nth (N.to_nat (a - fst e)) (snd e) 0 else m a.
Definition aggregate (m : N -> N) (es : list entry) : N -> N := fold_left write es m.
