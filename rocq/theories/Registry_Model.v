(** Model of the instance registry, src/registry.cpp. *)
From Verif Require Import Base FreeSlots_Model.
Local Open Scope N_scope.

(** src/registry.cpp:18-34 DomainKey. The two C strings are compared by
    content; the model represents each by a number. (The registry stores the
    caller's [const char *]; the strings are assumed to stay allocated.) *)
Definition key := (N * N)%type.
Definition key_eqb (a b : key) : bool := (fst a =? fst b) && (snd a =? snd b).

Definition UMAX : N := 2 ^ 32 - 1.

(** src/registry.cpp:43-49; [d_fwd] holds (pointer, active). *)
Record domain := mkD { d_bound : N; d_fwd : list (N * bool); d_free : fslots }.
Definition d_new : domain := mkD 0 [] fs_init.

(** src/registry.cpp:57-61; the hash maps are association lists. [rev] maps a
    pointer to (domain_id, index). *)
Record reg := mkReg { ids : list (key * N); doms : list domain; rev : list (N * (N * N)) }.
Definition reg_init : reg := mkReg [] [] [].

Fixpoint find_key (k : key) (l : list (key * N)) : option N :=
  match l with [] => None | (k', d) :: r => if key_eqb k' k then Some d else find_key k r end.
Fixpoint find_ptr (p : N) (l : list (N * (N * N))) : option (N * N) :=
  match l with [] => None | (q, x) :: r => if q =? p then Some x else find_ptr p r end.
Fixpoint erase_ptr (p : N) (l : list (N * (N * N))) : list (N * (N * N)) :=
  match l with [] => [] | (q, x) :: r => if q =? p then r else (q, x) :: erase_ptr p r end.

Inductive rout := OId (n : N) | OPtr (p : N) | OUnit | ORaise | OFail | OAll (l : list (N * N)).

(** [None] is undefined behaviour (out-of-bounds access of a std::vector). *)
Definition dom_get (r : reg) (d : N) : option domain := nth_error (doms r) (N.to_nat d).

(** src/registry.cpp:66-108 *)
Definition reg_put (r : reg) (k : key) (p : N) : option (reg * rout) :=
  match find_ptr p (rev r) with
  | Some _ => Some (r, ORaise)
  | None =>
      let '(ids', doms', d) :=
        match find_key k (ids r) with
        | Some d => (ids r, doms r, d)
        | None => let d := u32 (N.of_nat (length (doms r))) in
                  ((k, d) :: ids r, doms r ++ [d_new], d)
        end in
      let? D := nth_error doms' (N.to_nat d) in
      let? x := (if fs_empty (d_free D) then
                   let i := u32 (N.of_nat (length (d_fwd D))) in
                   Some (i, d_fwd D ++ [(p, true)], d_free D)
                 else
                   let? y := fs_pop (d_free D) in
                   let? fw := upd (N.to_nat (fst y)) (p, true) (d_fwd D) in
                   Some (fst y, fw, snd y)) in
      let '(i, fw, fs) := x in
      let D' := mkD (N.max (d_bound D) (u32 (i + 1))) fw fs in
      let? doms'' := upd (N.to_nat d) D' doms' in
      Some (mkReg ids' doms'' ((p, (d, i)) :: rev r), OId (u32 (i + 1)))
  end.

(** src/registry.cpp:136-139: lower the bound past trailing unused entries. *)
Fixpoint shrink_bound (fuel : nat) (fw : list (N * bool)) (b : N) : option N :=
  match fuel with
  | O => Some b
  | S f => if b =? 0 then Some b else
           let? e := nth_error fw (N.to_nat (b - 1)) in
           if fst e =? 0 then shrink_bound f fw (b - 1) else Some b
  end.

(** src/registry.cpp:111-143; [jitc_fail] aborts: outcome [OFail]. The loop
    runs at most [bound] times, which is used as fuel. *)
Definition reg_remove (r : reg) (p : N) : option (reg * rout) :=
  match find_ptr p (rev r) with
  | None => Some (r, OFail)
  | Some (d, i) =>
      let rev' := erase_ptr p (rev r) in
      if i =? UMAX then Some (mkReg (ids r) (doms r) rev', OUnit) else
      let? D := dom_get r d in
      let? fs := fs_push i (d_free D) in
      let? e := nth_error (d_fwd D) (N.to_nat i) in
      if negb (fst e =? p) then Some (mkReg (ids r) (doms r) rev', OFail) else
      let? fw := upd (N.to_nat i) (0, false) (d_fwd D) in
      let? b := (if d_bound D =? u32 (i + 1)
                 then shrink_bound (N.to_nat (d_bound D)) fw (d_bound D)
                 else Some (d_bound D)) in
      let? doms' := upd (N.to_nat d) (mkD b fw fs) (doms r) in
      Some (mkReg (ids r) doms' rev', OUnit)
  end.

(** src/registry.cpp:145-159 *)
Definition reg_id (r : reg) (p : N) : rout :=
  if p =? 0 then OId 0 else
  match find_ptr p (rev r) with
  | None => ORaise
  | Some (_, i) => if i =? UMAX then OId 0 else OId (u32 (i + 1))
  end.

(** src/registry.cpp:161-170 *)
Definition reg_bound (r : reg) (k : key) : option rout :=
  match find_key k (ids r) with
  | None => Some (OId 0)
  | Some d => let? D := dom_get r d in Some (OId (d_bound D))
  end.

(** src/registry.cpp:172-189: the list of writes dest[i] := ptr. *)
Fixpoint writes (i : N) (fw : list (N * bool)) : list (N * N) :=
  match fw with
  | [] => []
  | (p, a) :: r => if a then (i, p) :: writes (i + 1) r else writes (i + 1) r
  end.
Definition reg_all (r : reg) (k : key) : option rout :=
  match find_key k (ids r) with
  | None => Some (OAll [])
  | Some d => let? D := dom_get r d in Some (OAll (writes 0 (d_fwd D)))
  end.

(** src/registry.cpp:191-211 *)
Definition reg_ptr (r : reg) (k : key) (id : N) : option rout :=
  if id =? 0 then Some (OPtr 0) else
  match find_key k (ids r) with
  | None => Some (OPtr 0)
  | Some d =>
      let? D := dom_get r d in
      if N.of_nat (length (d_fwd D)) <=? id - 1 then Some ORaise else
      let? e := nth_error (d_fwd D) (N.to_nat (id - 1)) in
      Some (OPtr (if snd e then fst e else 0))
  end.

(** src/registry.cpp:213-228 *)
Definition reg_peek (r : reg) (k : key) : option rout :=
  match find_key k (ids r) with
  | None => Some (OPtr 0)
  | Some d =>
      let? D := dom_get r d in
      if 0 <? d_bound D then
        let? e := nth_error (d_fwd D) (N.to_nat (d_bound D - 1)) in Some (OPtr (fst e))
      else Some (OPtr 0)
  end.

(** src/registry.cpp:230-244 *)
Definition reg_clear (r : reg) : reg :=
  mkReg (ids r) (map (fun _ => d_new) (doms r))
        (map (fun e => (fst e, (fst (snd e), UMAX))) (rev r)).

(** src/registry.cpp:246-267, with leak warnings disabled (the warnings only
    print; [leak_counts.at()] is bounds-checked). *)
Definition reg_shutdown (r : reg) : reg := mkReg [] [] (rev r).

Inductive rop :=
| Put (k : key) (p : N) | Remove (p : N) | Id (p : N) | Bound (k : key) | All (k : key)
| PtrOf (k : key) (id : N) | Peek (k : key) | Clear | Shutdown.

Definition reg_step (r : reg) (o : rop) : option (reg * rout) :=
  match o with
  | Put k p => reg_put r k p
  | Remove p => reg_remove r p
  | Id p => Some (r, reg_id r p)
  | Bound k => let? x := reg_bound r k in Some (r, x)
  | All k => let? x := reg_all r k in Some (r, x)
  | PtrOf k id => let? x := reg_ptr r k id in Some (r, x)
  | Peek k => let? x := reg_peek r k in Some (r, x)
  | Clear => Some (reg_clear r, OUnit)
  | Shutdown => Some (reg_shutdown r, OUnit)
  end.

(** Outputs of a history. An abort ends it. *)
Fixpoint reg_run (r : reg) (os : list rop) : option (list rout) :=
  match os with
  | [] => Some []
  | o :: t => let? x := reg_step r o in
              match snd x with
              | OFail => Some [OFail]
              | _ => let? l := reg_run (fst x) t in Some (snd x :: l)
              end
  end.
