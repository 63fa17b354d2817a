(** Model of the ordering of scheduled variables and their partition into
    kernels. src/eval.cpp. *)
From Verif Require Import Base.
Local Open Scope N_scope.

(** src/eval.h:18-28 ScheduledVariable, without [data] (null at this point) *)
Record sv := mkSv { sv_size : N; sv_scope : N; sv_index : N }.
(** src/eval.cpp:859 *)
Record bucket := mkBk { b_size : N; b_scope : N; b_count : N; b_offset : N }.

(** src/eval.cpp:865-867; used for both element types *)
Definition less_key (a b : N * N) : bool :=
  if negb (fst a =? fst b) then fst b <? fst a else snd a <? snd b.
Definition sv_key (x : sv) : N * N := (sv_size x, sv_scope x).
Definition b_key (b : bucket) : N * N := (b_size b, b_scope b).
Definition less_sv (x y : sv) : bool := less_key (sv_key x) (sv_key y).
Definition less_b (x y : bucket) : bool := less_key (b_key x) (b_key y).
Definition match_b (b : bucket) (x : sv) : bool := (b_size b =? sv_size x) && (b_scope b =? sv_scope x).

(** src/eval.cpp:876-884 find: the position of the bucket, and the new hint *)
Fixpoint scan (bs : list bucket) (x : sv) (i : nat) : option nat * nat :=
  match bs with
  | [] => (None, i)
  | b :: r => if match_b b x then (Some i, i) else scan r x (S i)
  end.
Definition find (bs : list bucket) (hint : nat) (x : sv) : option nat * nat :=
  match nth_error bs hint with
  | Some b => if match_b b x then (Some hint, hint) else scan bs x 0
  | None => scan bs x 0
  end.

Definition set_count (b : bucket) c := mkBk (b_size b) (b_scope b) c (b_offset b).
Definition set_offset (b : bucket) o := mkBk (b_size b) (b_scope b) (b_count b) o.

(** src/eval.cpp:887-899, pass 1. Outer [None]: access outside a buffer; inner
    [None]: fallback. *)
Definition MAX_BUCKETS : nat := 32.
Fixpoint tally (l : list sv) (bs : list bucket) (hint : nat) : option (option (list bucket)) :=
  match l with
  | [] => Some (Some bs)
  | x :: r =>
      let '(p, hint) := find bs hint x in
      match p with
      | Some i => let? b := nth_error bs i in
                  let? bs := upd i (set_count b (u32 (b_count b + 1))) bs in
                  tally r bs hint
      | None => if (length bs <? MAX_BUCKETS)%nat
                then tally r (bs ++ [mkBk (sv_size x) (sv_scope x) 1 0]) (length bs)
                else Some None
      end
  end.

(** src/eval.cpp:912-916 *)
Fixpoint offsets (bs : list bucket) (o : N) : list bucket :=
  match bs with
  | [] => []
  | b :: r => set_offset b o :: offsets r (u32 (o + b_count b))
  end.

(** src/eval.cpp:918-922, pass 2 *)
Fixpoint scatter (l : list sv) (bs : list bucket) (hint : nat) (scratch : list sv) : option (list sv) :=
  match l with
  | [] => Some scratch
  | x :: r =>
      let '(p, hint) := find bs hint x in
      let? i := p in
      let? b := nth_error bs i in
      let? bs := upd i (set_offset b (u32 (b_offset b + 1))) bs in
      let? scratch := upd (N.to_nat (b_offset b)) x scratch in
      scatter r bs hint scratch
  end.

(** src/eval.cpp:864-923 jitc_schedule_sort. std::sort and std::stable_sort are
    parameters taking the comparison; [old] is the previous contents of the
    scratch buffer (resized). *)
Definition schedule_sort (sort : (bucket -> bucket -> bool) -> list bucket -> list bucket)
                         (stable_sort : (sv -> sv -> bool) -> list sv -> list sv)
                         (old : list sv) (l : list sv) : option (list sv) :=
  let? t := tally l [] 0 in
  match t with
  | None => Some (stable_sort less_sv l)
  | Some bs =>
      if (length bs <=? 1)%nat then Some l
      else
        let bs := offsets (sort less_b bs) 0 in
        scatter l bs 0 (firstn (length l) (old ++ repeat (mkSv 0 0 0) (length l)))
  end.

(** src/eval.h:31-38 *)
Record group := mkGr { g_size : N; g_start : N; g_end : N }.

(** src/eval.cpp:1124-1130; [s]: the schedule, [l]: schedule[i-1], schedule[i], ... *)
Fixpoint group_loop (s l : list sv) (cur i : N) (acc : list group) : option (list group * N) :=
  match l with
  | x :: ((y :: _) as r) =>
      if negb (sv_size x =? sv_size y) then
        let? c := nth_error s (N.to_nat cur) in
        group_loop s r i (u32 (i + 1)) (acc ++ [mkGr (sv_size c) cur i])
      else group_loop s r cur (u32 (i + 1)) acc
  | _ => Some (acc, cur)
  end.
(** src/eval.cpp:1118-1134 *)
Definition partition (l : list sv) : option (list group) :=
  match l with
  | [] => None
  | x :: _ =>
      let n := u32 (N.of_nat (length l)) in
      if sv_size x =? sv_size (last l x) then Some [mkGr (sv_size x) 0 n]
      else
        let? r := group_loop l l 0 1 [] in
        let '(acc, cur) := r in
        let? y := nth_error l (N.to_nat cur) in
        Some (acc ++ [mkGr (sv_size y) cur n])
  end.
