(** Frozen functions: what the function computes when it is run directly, and which functions are covered. *)
From Verif Require Import Base Rpl_Model.
Local Open Scope N_scope.

(** ** Direct run: variables are named; contents and size in bytes *)
Section Direct.
Context {C : Type} (blank : C) (dev : kind -> list C -> list C) (count : kind -> list C -> N).
Definition env := N -> option (C * N).
Definition bindv (e : env) (x : N) (v : option (C * N)) : env := fun y => if y =? x then v else e y.
Fixpoint reads (e : env) (l : list arg) : option (list C) :=
  match l with
  | [] => Some []
  | a :: l =>
      let? c := (if a_out a then Some blank else option_map fst (e (a_p a))) in
      let? r := reads e l in Some (c :: r)
  end.
Fixpoint writes (e : env) (l : list arg) (cs : list C) : env :=
  match l, cs with
  | a :: l, c :: cs => writes (bindv e (a_p a) (Some (c, if a_out a then a_b a else match e (a_p a) with Some v => snd v | None => 0 end))) l cs
  | _, _ => e
  end.
(** The result of compress has as many entries as compress returns *)
Definition shrunk (e : env) (c : call) (cs : list C) : env :=
  match c_kind c, c_args c with
  | KCompress _, [_; j] => bindv e (a_p j) (option_map (fun v => (fst v, 4 * count (c_kind c) cs)) (e (a_p j)))
  | _, _ => e
  end.
Definition run_call (e : env) (c : call) : option env :=
  let? cs := reads e (c_args c) in Some (shrunk (writes e (c_args c) (dev (c_kind c) cs)) c cs).
Definition run_ev (e : env) (v : ev) : option env := match v with Call c => run_call e c | Free x => Some (bindv e x None) end.
Fixpoint run (e : env) (tr : list ev) : option env :=
  match tr with [] => Some e | v :: tr => let? e := run_ev e v in run e tr end.
(** Inputs: names [xs], values [ins] *)
Fixpoint env_of (xs : list N) (ins : list (input (C := C))) : env :=
  match xs, ins with
  | x :: xs, v :: ins => bindv (env_of xs ins) x (Some (i_c v, tsz (i_vt v) * i_n v))
  | _, _ => fun _ => None
  end.
(** The variables that an operation reads, as it sees them, are whole buffers *)
Definition fills (e : env) (c : call) : Prop := Forall (fun a => a_out a = false -> exists d, e (a_p a) = Some (d, a_b a)) (c_args c).
End Direct.

(** ** Types that the recording knows: the last type that a buffer was written with; memset does not say *)
Definition tys := N -> N.
Definition set_ty (t : tys) (x vt : N) : tys := fun y => if y =? x then vt else t y.
Definition track1 (t : tys) (a : arg) : tys := if a_out a && negb (a_vt a =? Void) then set_ty t (a_p a) (a_vt a) else t.
Definition track (t : tys) (c : call) : tys :=
  match c_kind c, c_args c with
  | KMemcpy _, [src; dst] => if t (a_p src) =? Void then t else set_ty t (a_p dst) (t (a_p src))
  | _, l => fold_left track1 l t
  end.
Definition type_of (t : tys) (a : arg) : N := if a_vt a =? Void then t (a_p a) else a_vt a.
Definition types_of (xs : list (N * N)) : tys := fun y => match List.find (fun x => fst x =? y) xs with Some x => snd x | None => Void end.

(** ** Calls with consistent sizes *)
Definition holds (a : arg) (vt n : N) : Prop := 0 < tsz vt /\ 0 < n < 2 ^ 32 /\ a_b a = n * tsz vt.
Definition is_in (a : arg) : Prop := a_out a = false /\ a_pf a = false.
Definition is_out (a : arg) (vt : N) : Prop := a_out a = true /\ a_vt a = vt.
(** The entries of an aggregation and the variables that are read *)
Fixpoint entries_ok (t : tys) (es : list ent) (vs : list arg) : Prop :=
  match es, vs with
  | [], [] => True
  | ELit _ _ _ :: es, vs => entries_ok t es vs
  | EVal _ size :: es, a :: vs => size = tsz (type_of t a) /\ entries_ok t es vs
  | _, _ => False
  end.
Definition ent_end (e : ent) : N := match e with ELit off size _ | EVal off size => off + size end.
Definition regular (t : tys) (c : call) : Prop :=
  match c_kind c, c_args c with
  | KLaunch _ n, l => 0 < n < 2 ^ 32 /\
      Forall (fun a => if a_out a then a_pf a = false /\ a_b a = n * tsz (a_vt a) else a_vt a <> Void /\ exists v, holds a (a_vt a) v) l
  | KMemset n isize _, [d] => is_out d Void /\ 0 < isize < 2 ^ 32 /\ 0 < n < 2 ^ 32 /\ a_b d = n * isize
  | KMemcpy n, [s; d] => is_in s /\ is_out d Void /\ a_vt s = Void /\ a_b s = n /\ a_b d = n
  | KBool _ n, [s; d] => is_in s /\ is_out d TBool /\ holds s TBool n /\ a_b d = 1
  | KCompress n, [s; d] => is_in s /\ is_out d TUInt32 /\ tsz (type_of t s) = 1 /\ holds s (type_of t s) n /\ a_b d = n * 4
  | KMkperm n _ bc, [s; d1; d2] => is_in s /\ is_out d1 TUInt32 /\ is_out d2 TUInt32 /\ tsz (type_of t s) = 4 /\ holds s (type_of t s) n /\
      a_b d1 = n * 4 /\ bc * 4 + 1 < 2 ^ 32 /\ a_b d2 = (bc * 4 + 1) * 4
  | KReduce vt _ n bs, [s; d] => is_in s /\ vt <> Void /\ a_vt s = vt /\ is_out d vt /\ holds s vt n /\ 0 < bs /\ n mod bs = 0 /\ a_b d = n / bs * tsz vt
  | KPrefix vt _ n bs _ _, [s; d] => is_in s /\ vt <> Void /\ a_vt s = vt /\ is_out d vt /\ holds s vt n /\ 0 < bs /\ n mod bs = 0 /\ a_b d = n * tsz vt
  | KDot vt n, [d; s1; s2] => is_in s1 /\ is_in s2 /\ vt <> Void /\ a_vt s1 = vt /\ a_vt s2 = vt /\ is_out d vt /\ holds s1 vt n /\ holds s2 vt n /\ a_b d = tsz vt
  | KAgg es, d :: vs => is_out d TUInt8 /\ Forall is_in vs /\ entries_ok t es vs /\
      Forall (fun e => ent_end e < 2 ^ 32 - 8) es /\ a_b d = (fold_right N.max 0 (map ent_end es) + 7) / 8 * 8
  | KWidth n, [s; d] => is_in s /\ a_vt s <> Void /\ is_out d TUInt32 /\ holds s (a_vt s) n /\ a_b d = 4
  | KUndef n, [d] => is_out d (a_vt d) /\ 0 < n < 2 ^ 32 /\ a_b d = n * tsz (a_vt d)
  | KBarrier, [] => True
  | _, _ => False
  end.

(** ** The same operation in two runs *)
Definition same_arg (a b : arg) : Prop := a_p a = a_p b /\ a_out a = a_out b /\ a_pf a = a_pf b /\ a_vt a = a_vt b.
(** Largest variable that a kernel reads directly *)
Definition entries (a : arg) : N := a_b a / tsz (a_vt a).
Definition direct_max (l : list arg) : N := fold_right N.max 0 (map entries (filter (fun a => negb (a_out a) && negb (a_pf a)) l)).
Definition scales (a b : call) : Prop :=
  match c_kind a, c_kind b with
  | KLaunch k n, KLaunch k' n' => k = k' /\
      ((n' = n /\ Forall2 (fun x y => a_out x = false -> a_b x = a_b y) (c_args a) (c_args b)) \/
       (direct_max (c_args a) <> 0 /\
        exists r, (n = r * direct_max (c_args a) /\ n' = r * direct_max (c_args b)) \/ (direct_max (c_args a) = r * n /\ direct_max (c_args b) = r * n')))
  | KMemset n i v, KMemset n' i' v' => n = n' /\ i = i' /\ v = v'
  | KMemcpy _, KMemcpy _ => True
  | KBool r _, KBool r' _ => r = r'
  | KCompress _, KCompress _ => True
  | KMkperm _ bs bc, KMkperm _ bs' bc' => bs = bs' /\ bc = bc'
  | KReduce vt r n bs, KReduce vt' r' n' bs' => vt = vt' /\ r = r' /\ bs' = if bs =? n then n' else bs
  | KPrefix vt r n bs ex rev, KPrefix vt' r' n' bs' ex' rev' => vt = vt' /\ r = r' /\ ex = ex' /\ rev = rev' /\ bs' = if bs =? n then n' else bs
  | KDot vt _, KDot vt' _ => vt = vt'
  | KAgg es, KAgg es' => es = es'
  | KWidth _, KWidth _ => True
  | KUndef n, KUndef n' => n = n'
  | KBarrier, KBarrier => True
  | _, _ => False
  end.
(** The buffers that are written are not read by the same operation, and are no inputs *)
Definition outs_of (c : call) : list N := map a_p (filter a_out (c_args c)).
Definition ins_of (c : call) : list N := map a_p (filter (fun a => negb (a_out a)) (c_args c)).
Definition separate (xs : list N) (c : call) : Prop :=
  NoDup (outs_of c) /\ (forall x, In x (outs_of c) -> ~ In x (ins_of c) /\ ~ In x xs).

(** [tr] was recorded; [tr'] is what the function does with other inputs, starting with the variables [e] *)
Section Follows.
Context {C : Type} (blank : C) (dev : kind -> list C -> list C) (count : kind -> list C -> N) (xs : list N).
(** compress returns at most as many entries as it is given; less than 4 GiB *)
Definition small_count (e : env) (c : call) : Prop :=
  match c_kind c with KCompress n => 4 * n < 2 ^ 32 /\ forall cs, reads (C := C) blank e (c_args c) = Some cs -> count (c_kind c) cs <= n | _ => True end.
Fixpoint follows (t : tys) (e : env) (tr tr' : list ev) : Prop :=
  match tr, tr' with
  | [], [] => True
  | Call c :: tr, Call c' :: tr' =>
      separate xs c /\ regular t c /\ regular t c' /\ Forall2 same_arg (c_args c) (c_args c') /\ scales c c' /\
      fills e c' /\ small_count e c' /\
      (forall e', run_call blank dev count e c' = Some e' -> follows (track t c) e' tr tr')
  | Free x :: tr, Free y :: tr' => x = y /\ ~ In x xs /\ follows (set_ty t x Void) (bindv e x None) tr tr'
  | _, _ => False
  end.
End Follows.

(** ** Outputs *)
(** An input that is returned is returned itself; otherwise a new variable with the contents and the size *)
Definition output_ok {C} (xs : list N) (e : env (C := C)) (y : N * N) (o : output (C := C)) : Prop :=
  match o with
  | OIn i => nth_error xs i = Some (fst y)
  | ONew _ vt n c => ~ In (fst y) xs /\ vt = snd y /\ e (fst y) = Some (c, n * tsz vt)
  end.
Definition returned {C} (e : env (C := C)) (y : N * N) : Prop :=
  exists c n, e (fst y) = Some (c, n * tsz (snd y)) /\ 0 < tsz (snd y) /\ 0 < n < 2 ^ 32.
Definition owned {C} (o : output (C := C)) : list buf := match o with OIn _ => [] | ONew b _ _ _ => [b] end.

(** ** Where the allocator puts the buffers: [at_] of a name.  Names in use have different addresses *)
Definition move_arg (at_ : N -> N) (a : arg) : arg := {| a_p := at_ (a_p a); a_out := a_out a; a_pf := a_pf a; a_vt := a_vt a; a_b := a_b a |}.
Definition move_ev (at_ : N -> N) (v : ev) : ev :=
  match v with Call c => Call {| c_kind := c_kind c; c_args := map (move_arg at_) (c_args c) |} | Free x => Free (at_ x) end.
Definition move (at_ : N -> N) (x : N * N) : N * N := (at_ (fst x), snd x).
Definition apart (at_ : N -> N) (live : list N) : Prop := forall x y, In x live -> In y live -> at_ x = at_ y -> x = y.
(** At every event, the names in use: those mentioned before and not freed since, and those it mentions *)
Fixpoint placed (at_ : N -> N) (live : list N) (tr : list ev) (ys : list N) : Prop :=
  match tr with
  | [] => apart at_ (ys ++ live)
  | Call c :: tr => let live := map a_p (c_args c) ++ live in apart at_ live /\ placed at_ live tr ys
  | Free x :: tr => apart at_ (x :: live) /\ placed at_ (remove N.eq_dec x live) tr ys
  end.

(** ** Recordings whose operations have the arguments of their kind, and read what was written *)
Definition shape (k : kind) (flags : list bool) : Prop :=
  match k with
  | KLaunch _ _ => True
  | KMemset _ _ _ | KUndef _ => flags = [true]
  | KMemcpy _ | KBool _ _ | KCompress _ | KReduce _ _ _ _ | KPrefix _ _ _ _ _ _ | KWidth _ => flags = [false; true]
  | KMkperm _ _ _ => flags = [false; true; true]
  | KDot _ _ => flags = [true; false; false]
  | KAgg _ => exists vs, flags = true :: vs /\ Forall (fun b => b = false) vs
  | KBarrier => flags = []
  end.
(** [n] slots; the slots in [w] have a buffer, and those that the operation writes *)
Definition defined1 (n : nat) (w : list nat) (o : rop) : Prop :=
  shape (o_kind o) (map o_out (o_args o)) /\ Forall (fun a => (o_slot a < n)%nat /\ (o_out a = false -> In (o_slot a) (map o_slot (filter o_out (o_args o)) ++ w))) (o_args o).
Fixpoint defined (n : nat) (w : list nat) (ops : list rop) : Prop :=
  match ops with [] => True | o :: ops => defined1 n w o /\ defined n (map o_slot (filter o_out (o_args o)) ++ w) ops end.
(** The calls of a program: arguments of the right kind; no aggregation *)
Definition plain_ev (v : ev) : Prop :=
  match v with Call c => shape (c_kind c) (map a_out (c_args c)) /\ (forall es, c_kind c <> KAgg es) | Free _ => True end.
(** No operation writes [x], and no aggregation reads it *)
Definition absent (x : N) (v : ev) : Prop :=
  match v with Call c => shape (c_kind c) (map a_out (c_args c)) /\ ~ In x (outs_of c) /\ ((exists es, c_kind c = KAgg es) -> ~ In x (ins_of c)) | Free _ => True end.
